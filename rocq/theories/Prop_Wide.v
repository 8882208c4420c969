(** C68: well-separated particles: the code's far-field mobility matrix is
    positive definite, so the inversions and solves of the code succeed. *)
From Coq Require Import Reals List Arith Bool Lia Lra.
From Verif Require Import Base Py Model_Pack Model_Mob Model_Layout Model_Minf Model_L Model_Close Model_R2B Model_Grand Model_GrandP
  Model_Convert Spec_Convert Model_Output Spec_Output Spec_Posdef Spec_Wide
  Proof_Minf3 Proof_Posdef Proof_Posdef2 Proof_Wide3 Proof_Wide4 Prop_Posdef Proof_MinfP8.
Import ListNotations.
Local Open Scope R_scope.

(** For every number of spheres and dumbbells, with radii between a0 and A a0
    and any two beads further apart than 500 n A^3 a0 (n = 11 Ns + 6 Nd rows):
    the far-field mobility matrix is symmetric and positive definite, hence
    invertible, with a positive definite inverse. *)
Theorem C68_far_field bb p mu a0 A :
  let nb := (num_spheres p + 2 * num_dumbbells p)%nat in
  let n := (11 * num_spheres p + 6 * num_dumbbells p)%nat in
  0 < mu -> 0 < a0 -> radii_within nb (bead_sizes p) a0 A ->
  spaced nb (bead_positions p) (500 * INR n * A ^ 3 * a0) -> spaced nb (bead_positions p) (/ 10 ^ 10) ->
  msym n (generate_Minfinity bb p mu) /\ pos_def n (generate_Minfinity bb p mu) /\
  exists mi, is_inv n (generate_Minfinity bb p mu) mi /\ msym n mi /\ pos_def n mi.
Proof.
  intros nb n Hmu Ha HA HX HT. pose proof (far_pos_def bb p mu a0 A Hmu Ha HA HX HT) as HP.
  assert (Hs : msym n (generate_Minfinity bb p mu)) by (apply (gen_sym bb p mu)).
  split; [exact Hs|]. split; [exact HP|]. destruct (pos_def_invertible n _ HP) as [mi HI]. exists mi. split; [exact HI|].
  split; [exact (is_inv_sym n _ mi Hs HI)|exact (pos_def_inv n _ mi HP HI)].
Qed.
Print Assumptions C68_far_field.

(** If the beads are also outside the near-field cutoff, the free-space grand
    resistance matrix is built without an exception (the table of size ratios
    need only contain 1), it is the inverse of the far-field mobility matrix
    and it is symmetric and positive definite. *)
Theorem C68_grand inv sc table bb p last cf verbose minf_only mu a0 A :
  let Ns := num_spheres p in let Nd := num_dumbbells p in let nb := (Ns + 2 * Nd)%nat in let n := (11 * Ns + 6 * Nd)%nat in
  inverts_posdef inv -> In 1 table -> 0 < cf ->
  0 < mu -> 0 < a0 -> radii_within nb (bead_sizes p) a0 A ->
  spaced nb (bead_positions p) (500 * INR n * A ^ 3 * a0) -> spaced nb (bead_positions p) (/ 10 ^ 10) ->
  spaced nb (bead_positions p) (2 * cf * A * a0) ->
  exists G mi, grand_resistance_free inv sc table bb p last true cf verbose false minf_only mu = Ok (G, mi) /\
    is_inv n (generate_Minfinity bb p mu) mi /\ (forall r c, (r < n)%nat -> (c < n)%nat -> G r c = mi r c) /\ msym n G /\ pos_def n G.
Proof. exact (grand_pos_def inv sc table bb p last cf verbose minf_only mu a0 A). Qed.
Print Assumptions C68_grand.

(** With that matrix, prescribed forces, torques and stresslets (or strains)
    give a solution, and only one (C64_unique). *)
Theorem C68_solvable inv solve sc table bb p last cf verbose minf_only mu a0 A first i extract :
  let Ns := num_spheres p in let Nd := num_dumbbells p in let nb := (Ns + 2 * Nd)%nat in let n := (11 * Ns + 6 * Nd)%nat in
  inverts_posdef inv -> solves_posdef solve -> In 1 table -> 0 < cf ->
  0 < mu -> 0 < a0 -> radii_within nb (bead_sizes p) a0 A ->
  spaced nb (bead_positions p) (500 * INR n * A ^ 3 * a0) -> spaced nb (bead_positions p) (/ 10 ^ 10) ->
  spaced nb (bead_positions p) (2 * cf * A * a0) ->
  exists G mi, grand_resistance_free inv sc table bb p last true cf verbose false minf_only mu = Ok (G, mi) /\
    (length (i_Ua i) = Ns -> (Ns = 0%nat -> i_Ea i = []) ->
     all_given Ns 3 (i_Fa i) -> all_given Ns 3 (i_Ta i) -> all_given33 Ns (i_Sa i) -> all_given Nd 3 (i_Fb i) -> all_given Nd 3 (i_DFb i) ->
     exists o, generate_output inv solve Ns Nd fts extract G i (fun _ => i) = Ok o /\
       keeps 0 Ns (i_Fa i) (o_Fa o) /\ keeps 0 Ns (i_Ta i) (o_Ta o) /\ keeps 0 Ns (i_Sa i) (o_Sa o) /\
       keeps 0 Nd (i_Fb i) (o_Fb o) /\ keeps 0 Nd (i_DFb i) (o_DFb o) /\
       resistance_relation Ns Nd G (o_Fa o) (o_Ta o) (o_Sa o) (o_Fb o) (o_DFb o) (o_Ua o) (o_Oa o) (o_Ea o) (o_Ub o) (o_HalfDUb o)) /\
    ((0 < Ns)%nat ->
     all_given Ns 3 (i_Fa i) -> all_given Ns 3 (i_Ta i) -> all_given33 Ns (i_Ea i) -> all_given Nd 3 (i_Fb i) -> all_given Nd 3 (i_DFb i) ->
     exists o, generate_output inv solve Ns Nd fte extract G first (fun _ => i) = Ok o /\
       keeps 0 Ns (i_Fa i) (o_Fa o) /\ keeps 0 Ns (i_Ta i) (o_Ta o) /\ keeps 0 Ns (i_Ea i) (o_Ea o) /\
       keeps 0 Nd (i_Fb i) (o_Fb o) /\ keeps 0 Nd (i_DFb i) (o_DFb o) /\
       resistance_relation Ns Nd G (o_Fa o) (o_Ta o) (o_Sa o) (o_Fb o) (o_DFb o) (o_Ua o) (o_Oa o) (o_Ea o) (o_Ub o) (o_HalfDUb o)).
Proof.
  intros Ns Nd nb n Hinv Hsol H1 Hcf Hmu Ha HA HX HT HC.
  destruct (C68_grand inv sc table bb p last cf verbose minf_only mu a0 A Hinv H1 Hcf Hmu Ha HA HX HT HC) as (G & mi & EG & _ & _ & Hs & HP).
  exists G, mi. split; [exact EG|]. split.
  - intros. apply (C64_fts inv solve Hsol Ns Nd extract G i (fun _ => i)); assumption.
  - intros. apply (C64_fte inv solve Hinv Hsol Ns Nd extract G first i); assumption.
Qed.
Print Assumptions C68_solvable.

(** A unit sphere and a dumbbell of unit beads, 10000 apart. *)
Definition wide_pos : posdata := mkPos 1 1 (fun _ => 1) (fun _ => v3 0 0 0) (fun _ => 1) (fun _ => v3 20000 0 0) (fun _ => v3 20000 0 0).
Lemma wide_spaced L : L < 10000 -> spaced 3 (bead_positions wide_pos) L.
Proof.
  intros HL p q Hp Hq N. apply Rlt_le_trans with (1 := HL).
  apply Rle_trans with (2 := comp_norm _ 0%nat ltac:(lia)). unfold bead_positions, wide_pos.
  destruct p as [|[|[|?]]], q as [|[|[|?]]]; try lia; unfold vsub, vadd, vscal, v3; simpl; unfold Rabs; destruct (Rcase_abs _); lra.
Qed.
Example C68_example :
  radii_within 3 (bead_sizes wide_pos) 1 1 /\ spaced 3 (bead_positions wide_pos) (500 * INR 17 * 1 ^ 3 * 1) /\
  spaced 3 (bead_positions wide_pos) (/ 10 ^ 10) /\ spaced 3 (bead_positions wide_pos) (2 * 2 * 1 * 1) /\
  inverts_posdef pinv /\ solves_posdef psolve /\
  (forall bb, pos_def 17 (generate_Minfinity bb wide_pos 1)).
Proof.
  assert (HA : radii_within 3 (bead_sizes wide_pos) 1 1) by (intros b Hb; unfold bead_sizes, wide_pos; destruct b as [|[|[|?]]]; simpl; lra).
  assert (H1 : spaced 3 (bead_positions wide_pos) (500 * INR 17 * 1 ^ 3 * 1)) by (apply wide_spaced; simpl; lra).
  assert (H2 : spaced 3 (bead_positions wide_pos) (/ 10 ^ 10)).
  { apply wide_spaced. apply Rlt_trans with 1; [|lra]. rewrite <- Rinv_1. apply Rinv_lt_contravar; simpl; lra. }
  split; [exact HA|]. split; [exact H1|]. split; [exact H2|]. split; [apply wide_spaced; lra|].
  split; [exact pinv_ok|]. split; [exact psolve_ok|]. intros bb.
  exact (proj1 (proj2 (C68_far_field bb wide_pos 1 1 1 Rlt_0_1 Rlt_0_1 HA H1 H2))).
Qed.
