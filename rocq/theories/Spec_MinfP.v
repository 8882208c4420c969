(** The periodic mobility relating two beads, for every ordered pair. *)
From Coq Require Import Reals Arith Bool List.
From Verif Require Import Base Model_Pack Model_Mob Model_Layout Model_Minf Model_Ewald Model_MinfP Spec_Layout Spec_Minf
  Spec_Calc.
Local Open Scope R_scope.

(** Motion of kind [k1] of a bead of radius [ap] due to a force moment of kind
    [k2] on a bead of radius [aq] and its images; the blocks below the
    diagonal are expressed by the reciprocal theorem.  Distances and erfcs are
    those belonging to the separation [r]. *)
Definition periodic_pair (lat : lattice) (k1 k2 : kind) (r : vec) (s ap aq c mu : R) (i j : nat) : R :=
  let e := generate_erfcs s (lat_lamb lat) in
  let d := fun X => norm (vadd r X) in
  let d' := fun X => norm (vadd (vopp r) X) in
  match k1, k2 with
  | KU, KU | KU, KB | KB, KU | KB, KB => M11P lat i j r s ap aq e c mu d
  | KU, KO | KB, KO => M12P lat i j r s ap aq c mu d
  | KO, KU | KO, KB => M12P lat j i (vopp r) s aq ap c mu d'
  | KU, KS | KB, KS => condense_idx (fun k l => M13P lat i k l r s ap aq c mu d) j
  | KS, KU | KS, KB => condense_idx (fun k l => M13P lat j k l (vopp r) s aq ap c mu d') i
  | KO, KO => M22P lat i j r s ap aq e c mu d
  | KO, KS => condense_idx (fun k l => M23P lat i k l r s ap aq c mu d) j
  | KS, KO => condense_idx (fun k l => M23P lat j k l (vopp r) s aq ap c mu d') i
  | KS, KS =>
      condense_idx (fun k l => condense_idx (fun k' l' => M33P lat k l k' l' r s ap aq e c mu d) j) i
  end.

(** Rotation or strain of a sphere against a dumbbell bead. *)
Definition mixed (k1 k2 : kind) : bool :=
  match k1, k2 with
  | KO, KB | KS, KB | KB, KO | KB, KS => true
  | _, _ => false
  end.

(** Beads of one dumbbell (or the same bead). *)
Definition same_dumbbell (Nd p q : nat) : bool :=
  (Nat.eqb p q || Nat.eqb (p + Nd) q || Nat.eqb (q + Nd) p)%bool.

(** Motion of kind [k1] of bead [p] per unit moment of kind [k2] on bead [q]
    and its images. The code enters the radii the wrong way round for rotation
    and strain of spheres against dumbbell beads.  Without bead-bead
    interactions beads of different dumbbells do not see each other. *)
Definition periodic_bead_mobility (lat : lattice) (bb : bool) (Nd : nat) (g : nat -> nat -> vec * R) (a : nat -> R)
    (c mu : R) (k1 : kind) (p : nat) (k2 : kind) (q : nat) (i j : nat) : R :=
  match k1, k2, (bb || same_dumbbell Nd p q)%bool with
  | KB, KB, false => 0
  | _, _, _ =>
      if mixed k1 k2 then periodic_pair lat k1 k2 (fst (g p q)) (snd (g p q)) (a q) (a p) c mu i j
      else periodic_pair lat k1 k2 (fst (g p q)) (snd (g p q)) (a p) (a q) c mu i j
  end.

(** No bead is within 1e-10 of another bead of different size or an image of one. *)
Definition apart (lat : lattice) (n : nat) (x : nat -> vec) (a : nat -> R) : Prop :=
  distinct_beads n x a /\
  forall p q X, (p < n)%nat -> (q < n)%nat -> a p <> a q -> In X (X_lmn lat) ->
    / 10 ^ 10 < norm (vadd (fst (pair_geometry (x p) (x q) (a p) (a q))) X).

(** ** The truncated Ewald sum *)

(** Derivatives of a tensor field at all points of [dom]; the Laplacian is the
    sum of the second derivatives. *)
Record derivatives_on (dom : vec -> Prop) (Jf : nat -> nat -> vec -> R)
    (D : nat -> nat -> nat -> vec -> R) (DD : nat -> nat -> nat -> nat -> vec -> R)
    (LJ : nat -> nat -> vec -> R) (DLJ : nat -> nat -> nat -> vec -> R)
    (DDLJ : nat -> nat -> nat -> nat -> vec -> R) : Prop := {
  on_D : forall l i j q, (l < 3)%nat -> (i < 3)%nat -> (j < 3)%nat -> dom q ->
    partial l (Jf i j) q (D l i j q);
  on_DD : forall m l i j q, (m < 3)%nat -> (l < 3)%nat -> (i < 3)%nat -> (j < 3)%nat -> dom q ->
    partial m (D l i j) q (DD m l i j q);
  on_LJ : forall i j q, (i < 3)%nat -> (j < 3)%nat -> dom q ->
    LJ i j q = DD 0%nat 0%nat i j q + DD 1%nat 1%nat i j q + DD 2%nat 2%nat i j q;
  on_DLJ : forall k i j q, (k < 3)%nat -> (i < 3)%nat -> (j < 3)%nat -> dom q ->
    partial k (LJ i j) q (DLJ k i j q);
  on_DDLJ : forall l k i j q, (l < 3)%nat -> (k < 3)%nat -> (i < 3)%nat -> (j < 3)%nat -> dom q ->
    partial l (DLJ k i j) q (DDLJ l k i j q)
}.

(** Not at a lattice point. *)
Definition off_lattice (lat : lattice) (q : vec) : Prop := forall X, In X (X_lmn lat) -> nonzero (vadd q X).

(** Green's tensor: real-space part, summed over the lattice, and wave part. *)
Definition green_real (lat : lattice) (i j : nat) (q : vec) : R :=
  vsum (X_lmn lat) (fun X => let y := vadd q X in Jr y (len y) i j (generate_erfcs (len y) (lat_lamb lat))).
Definition green_wave (lat : lattice) (i j : nat) (q : vec) : R :=
  vsum (K_lmn lat) (fun K => Jtilde (K i) (K j) (norm K) i j (RR_of (lat_lamb lat) (norm K)) * cos (dot3 K q)).
Definition green (lat : lattice) (i j : nat) (q : vec) : R :=
  green_real lat i j q + 1 / lat_L lat ^ 3 * green_wave lat i j q.
