(** Property C05: block layout of the grand matrices. *)
From Coq Require Import Arith List Lia.
From Verif Require Import Base Model_Layout Spec_Layout Proof_Layout.
Import ListNotations.

(** C05: every entry of every written block lies inside the matrix, and no
    block starts below the diagonal. *)
Theorem C05_blocks_inside :
  forall Ns Nd u v b r c, u <= v < Ns + 2 * Nd -> In b (written_blocks u v Ns Nd) ->
    fst (fst b) <= snd (fst b) /\
    (in_block b r c -> r < 11 * Ns + 6 * Nd /\ c < 11 * Ns + 6 * Nd).
Proof.
  intros Ns Nd u v b r c H Hb.
  exact (conj (blocks_upper Ns Nd u v b H Hb) (blocks_inside Ns Nd u v b r c H Hb)).
Qed.
Print Assumptions C05_blocks_inside.

(** C05: no two blocks (of one pair or of two) share an entry. *)
Theorem C05_blocks_disjoint :
  forall Ns Nd u v n b u' v' n' b' r c,
    u <= v < Ns + 2 * Nd -> u' <= v' < Ns + 2 * Nd ->
    nth_error (written_blocks u v Ns Nd) n = Some b ->
    nth_error (written_blocks u' v' Ns Nd) n' = Some b' ->
    in_block b r c -> in_block b' r c -> u = u' /\ v = v' /\ n = n'.
Proof. exact blocks_unique. Qed.
Print Assumptions C05_blocks_disjoint.

(** C05: every entry on or above the diagonal is in a block of some pair. *)
Theorem C05_blocks_cover :
  forall Ns Nd r c, r <= c -> c < 11 * Ns + 6 * Nd ->
    exists u v n b, u <= v < Ns + 2 * Nd /\
      nth_error (written_blocks u v Ns Nd) n = Some b /\ in_block b r c.
Proof. exact blocks_cover. Qed.
Print Assumptions C05_blocks_cover.

(** C05: the blocks belong to the right quantities: the component [i] of kind
    [k1] of bead [p] and [j] of kind [k2] of bead [q] meet in a block written
    by the pair {p, q}, at place (i, j) of that block. *)
Theorem C05_blocks_belong :
  forall Ns Nd k1 p k2 q,
    kvalid Ns Nd k1 p -> kvalid Ns Nd k2 q ->
    (krank k1 < krank k2 \/ k1 = k2 /\ p <= q) ->
    In ((kstart Ns k1 p, kstart Ns k2 q), (ksize k1, ksize k2))
       (written_blocks (min p q) (max p q) Ns Nd).
Proof.
  intros Ns Nd k1 p k2 q V1 V2 HU.
  assert (HB : min p q <= max p q < Ns + 2 * Nd) by (destruct k1, k2; simpl in V1, V2; lia).
  rewrite (written_kinds Ns Nd _ _ HB).
  exact (in_map (blk Ns) _ _ (wkinds_complete Ns Nd ((k1, p), (k2, q)) (conj V1 V2) HU)).
Qed.
Print Assumptions C05_blocks_belong.

(** Two spheres and one dumbbell. *)
Example C05_example :
  written_blocks 0 1 2 1 =
    [((0, 3), (3, 3)); ((0, 9), (3, 3)); ((6, 9), (3, 3)); ((0, 17), (3, 5)); ((6, 17), (3, 5)); ((12, 17), (5, 5));
     ((3, 6), (3, 3)); ((3, 12), (3, 5)); ((9, 12), (3, 5))] /\
  written_blocks 1 3 2 1 = [((3, 25), (3, 3)); ((9, 25), (3, 3)); ((17, 25), (5, 3))].
Proof. split; reflexivity. Qed.
