(** C64: with a symmetric positive definite grand resistance matrix every form
    of the problem has exactly one solution, and the code returns it. *)
From Coq Require Import Reals List Arith Bool Lia Lra.
From Verif Require Import Base Py Model_Pack Model_Convert Spec_Convert Model_Output Spec_Output Proof_Output2 Proof_Output3
  Model_Minf Model_Grand Spec_Posdef Proof_Posdef Proof_Posdef2 Prop_Output Prop_Convert.
Import ListNotations.
Local Open Scope R_scope.

(** Positive definite matrices are invertible, and so are positive definite
    their diagonal blocks, their inverses and their exchanged problems: no
    conversion meets a singular matrix. *)
Theorem C64_invertible n A : pos_def n A ->
  invertible n A /\ (forall B, is_inv n A B -> pos_def n B) /\
  (forall o k, (o + k <= n)%nat -> pos_def k (slice A o o)) /\
  (forall s A', same_problem n s A A' -> pos_def n A').
Proof.
  intros H. split; [exact (pos_def_invertible n A H)|]. split; [intros B; exact (pos_def_inv n A B H)|].
  split; [intros o k Ho; exact (pos_def_slice n A o k Ho H)|intros s A'; exact (pos_def_same n s A A' H)].
Qed.
Print Assumptions C64_invertible.

(** Whichever components are prescribed ([s]: velocities, else forces), two
    solutions with the same prescribed values are the same. *)
Theorem C64_unique n s A u f u' f' :
  pos_def n A -> linrel n A u f -> linrel n A u' f' ->
  (forall i, (i < n)%nat -> if (s i : bool) then u i = u' i else f i = f' i) ->
  forall i, (i < n)%nat -> u i = u' i /\ f i = f' i.
Proof. exact (unique_solution n s A u f u' f'). Qed.
Print Assumptions C64_unique.

Section Forms.
Variable inv : nat -> mat -> mat.
Variable solve : nat -> mat -> list R -> list R.
Hypothesis Hinv : inverts_posdef inv.
Hypothesis Hsolve : solves_posdef solve.

Theorem C64_fts Ns Nd extract R0 first second :
  pos_def (11 * Ns + 6 * Nd) R0 ->
  length (i_Ua first) = Ns -> (Ns = 0%nat -> i_Ea first = []) ->
  all_given Ns 3 (i_Fa first) -> all_given Ns 3 (i_Ta first) -> all_given33 Ns (i_Sa first) ->
  all_given Nd 3 (i_Fb first) -> all_given Nd 3 (i_DFb first) ->
  exists o, generate_output inv solve Ns Nd fts extract R0 first second = Ok o /\
    keeps 0 Ns (i_Fa first) (o_Fa o) /\ keeps 0 Ns (i_Ta first) (o_Ta o) /\ keeps 0 Ns (i_Sa first) (o_Sa o) /\
    keeps 0 Nd (i_Fb first) (o_Fb o) /\ keeps 0 Nd (i_DFb first) (o_DFb o) /\
    resistance_relation Ns Nd R0 (o_Fa o) (o_Ta o) (o_Sa o) (o_Fb o) (o_DFb o)
                                 (o_Ua o) (o_Oa o) (o_Ea o) (o_Ub o) (o_HalfDUb o).
Proof. intros Hp L HE. exact (C25_fts inv solve Ns Nd extract R0 first second L HE (Hsolve _ _ Hp)). Qed.

Theorem C64_fte Ns Nd extract R0 first i :
  (0 < Ns)%nat -> msym (11 * Ns + 6 * Nd) R0 -> pos_def (11 * Ns + 6 * Nd) R0 ->
  all_given Ns 3 (i_Fa i) -> all_given Ns 3 (i_Ta i) -> all_given33 Ns (i_Ea i) ->
  all_given Nd 3 (i_Fb i) -> all_given Nd 3 (i_DFb i) ->
  exists o, generate_output inv solve Ns Nd fte extract R0 first (fun _ => i) = Ok o /\
    keeps 0 Ns (i_Fa i) (o_Fa o) /\ keeps 0 Ns (i_Ta i) (o_Ta o) /\ keeps 0 Ns (i_Ea i) (o_Ea o) /\
    keeps 0 Nd (i_Fb i) (o_Fb o) /\ keeps 0 Nd (i_DFb i) (o_DFb o) /\
    resistance_relation Ns Nd R0 (o_Fa o) (o_Ta o) (o_Sa o) (o_Fb o) (o_DFb o)
                                 (o_Ua o) (o_Oa o) (o_Ea o) (o_Ub o) (o_HalfDUb o).
Proof.
  intros HNs Hs Hp HF HT HE HFb HDFb. destruct (fte_chain inv Hinv Ns Nd R0 HNs Hs Hp) as (I1 & R1 & E1 & _ & P1).
  destruct (C25_fte inv solve Ns Nd extract R0 first (fun _ => i) HNs Hs I1) as (R1' & E1' & K).
  rewrite E1 in E1'. injection E1' as <-. exact (K (Hsolve _ _ P1) HF HT HE HFb HDFb).
Qed.

Theorem C64_ufte Ns Nd nfix R0 i second :
  (0 < Ns)%nat -> msym (11 * Ns + 6 * Nd) R0 -> pos_def (11 * Ns + 6 * Nd) R0 ->
  split_given Ns nfix (i_Ua i) (i_Fa i) -> rest_missing Ns nfix (i_Ua i) ->
  all_given Ns 3 (i_Ta i) -> all_given33 Ns (i_Ea i) ->
  all_given Nd 3 (i_Fb i) -> all_given Nd 3 (i_DFb i) ->
  exists o, generate_output inv solve Ns Nd ufte false R0 i second = Ok o /\
    keeps 0 nfix (i_Ua i) (o_Ua o) /\ keeps nfix Ns (i_Fa i) (o_Fa o) /\
    keeps 0 Ns (i_Ta i) (o_Ta o) /\ keeps 0 Ns (i_Ea i) (o_Ea o) /\
    keeps 0 Nd (i_Fb i) (o_Fb o) /\ keeps 0 Nd (i_DFb i) (o_DFb o) /\
    resistance_relation Ns Nd R0 (o_Fa o) (o_Ta o) (o_Sa o) (o_Fb o) (o_DFb o)
                                 (o_Ua o) (o_Oa o) (o_Ea o) (o_Ub o) (o_HalfDUb o).
Proof.
  intros HNs Hs Hp HU. assert (Hk : (nfix <= Ns)%nat) by apply HU. revert HU.
  destruct (fte_chain inv Hinv Ns Nd R0 HNs Hs Hp) as (I1 & R1 & E1 & S1 & P1).
  destruct (ufte_chain inv Hinv nfix Ns Nd R1 HNs Hk S1 P1) as (I2 & R2 & E2 & _ & P2).
  exact (C25_ufte inv solve Ns Nd nfix R0 R1 R2 i second HNs Hs I1 E1 I2 E2 (Hsolve _ _ P2)).
Qed.

Theorem C64_ufteu Ns Nd nfix nfixd extract R0 i second :
  (0 < Ns)%nat -> msym (11 * Ns + 6 * Nd) R0 -> pos_def (11 * Ns + 6 * Nd) R0 ->
  split_given Ns nfix (i_Ua i) (i_Fa i) -> rest_missing Ns nfix (i_Ua i) ->
  all_given Ns 3 (i_Ta i) -> all_given33 Ns (i_Ea i) ->
  split_given Nd nfixd (i_Ub i) (i_Fb i) -> rest_missing Nd nfixd (i_Ub i) ->
  split_given Nd nfixd (i_HalfDUb i) (i_DFb i) ->
  exists o, generate_output inv solve Ns Nd ufteu extract R0 i second = Ok o /\
    keeps 0 nfix (i_Ua i) (o_Ua o) /\ keeps nfix Ns (i_Fa i) (o_Fa o) /\
    keeps 0 Ns (i_Ta i) (o_Ta o) /\ keeps 0 Ns (i_Ea i) (o_Ea o) /\
    keeps 0 nfixd (i_Ub i) (o_Ub o) /\ keeps nfixd Nd (i_Fb i) (o_Fb o) /\
    keeps 0 nfixd (i_HalfDUb i) (o_HalfDUb o) /\ keeps nfixd Nd (i_DFb i) (o_DFb o) /\
    resistance_relation Ns Nd R0 (o_Fa o) (o_Ta o) (o_Sa o) (o_Fb o) (o_DFb o)
                                 (o_Ua o) (o_Oa o) (o_Ea o) (o_Ub o) (o_HalfDUb o).
Proof.
  intros HNs Hs Hp HU HR HT HE HUb. assert (Hk : (nfix <= Ns)%nat) by apply HU. assert (Hkd : (nfixd <= Nd)%nat) by apply HUb.
  revert HU HR HT HE HUb.
  destruct (fte_chain inv Hinv Ns Nd R0 HNs Hs Hp) as (I1 & R1 & E1 & S1 & P1).
  destruct (ufte_chain inv Hinv nfix Ns Nd R1 HNs Hk S1 P1) as (I2 & R2 & E2 & S2 & P2).
  destruct (ufteu_chain inv Hinv nfixd nfix Ns Nd R2 Hk Hkd S2 P2) as (I3 & I4 & P3).
  exact (C25_ufteu inv solve Ns Nd nfix nfixd extract R0 R1 R2 i second HNs Hs I1 E1 I2 E2 I3 I4 (Hsolve _ _ P3)).
Qed.

Theorem C64_duf Nd nfixd extract R0 i second :
  msym (6 * Nd) R0 -> pos_def (6 * Nd) R0 ->
  all_given 0 3 (i_Fa i) -> all_given 0 3 (i_Ta i) -> all_given33 0 (i_Ea i) ->
  split_given Nd nfixd (i_Ub i) (i_Fb i) -> rest_missing Nd nfixd (i_Ub i) ->
  split_given Nd nfixd (i_HalfDUb i) (i_DFb i) ->
  exists o, generate_output inv solve 0 Nd duf extract R0 i second = Ok o /\
    keeps 0 nfixd (i_Ub i) (o_Ub o) /\ keeps nfixd Nd (i_Fb i) (o_Fb o) /\
    keeps 0 nfixd (i_HalfDUb i) (o_HalfDUb o) /\ keeps nfixd Nd (i_DFb i) (o_DFb o) /\
    resistance_relation 0 Nd R0 (o_Fa o) (o_Ta o) (o_Sa o) (o_Fb o) (o_DFb o)
                                (o_Ua o) (o_Oa o) (o_Ea o) (o_Ub o) (o_HalfDUb o).
Proof.
  intros Hs Hp HF HT HE HUb. assert (Hkd : (nfixd <= Nd)%nat) by apply HUb. revert HF HT HE HUb.
  destruct (duf_chain inv Hinv nfixd Nd R0 Hkd Hs Hp) as (I1 & I2 & P1).
  exact (C25_duf inv solve Nd nfixd extract R0 i second Hs I1 I2 (Hsolve _ _ P1)).
Qed.
End Forms.
Print Assumptions C64_fts.
Print Assumptions C64_fte.
Print Assumptions C64_ufte.
Print Assumptions C64_ufteu.
Print Assumptions C64_duf.

(** The drag matrix of particles of positive size is such a matrix, and adding
    a near field that dissipates (x . N x >= 0) keeps a matrix so. *)
Theorem C64_drag p mu : 0 < mu ->
  (forall i, (i < num_spheres p)%nat -> 0 < sphere_sizes p i) ->
  (forall i, (i < num_dumbbells p)%nat -> 0 < dumbbell_sizes p i) ->
  msym (11 * num_spheres p + 6 * num_dumbbells p) (drag_Minfinity_inverse p mu) /\
  pos_def (11 * num_spheres p + 6 * num_dumbbells p) (drag_Minfinity_inverse p mu).
Proof. exact (drag_pos_def p mu). Qed.
Print Assumptions C64_drag.

Theorem C64_sum n A N : pos_def n A -> (forall x, 0 <= rsum n (fun i => x i * mvec n N x i)) -> pos_def n (madd A N).
Proof. exact (pos_def_add n A N). Qed.
Print Assumptions C64_sum.

(** Routines as assumed exist: inversion by elimination.  The matrix of C23's
    example (2 on the diagonal, couplings 1) is positive definite. *)
Example C64_example : inverts_posdef pinv /\ solves_posdef psolve /\ msym 17 exR /\ pos_def 17 exR /\ exR 0%nat 6%nat = 1.
Proof.
  split; [exact pinv_ok|]. split; [exact psolve_ok|]. split; [exact (proj1 C23_example)|]. split; [|reflexivity].
  apply pos_def_of. intros x Hx. pose proof (sum_squares_pos 17 x Hx) as P. revert P. unfold mvec, exR. cbn [rsum Nat.eqb andb orb].
  intros P. assert (Q : 0 <= (x 0%nat + x 6%nat) ^ 2 /\ 0 <= (x 1%nat + x 12%nat) ^ 2) by (split; apply pow2_ge_0).
  assert (T : forall k, 0 <= x k * x k) by (intros; nra).
  pose proof (T 2%nat); pose proof (T 3%nat); pose proof (T 4%nat); pose proof (T 5%nat); pose proof (T 7%nat); pose proof (T 8%nat);
  pose proof (T 9%nat); pose proof (T 10%nat); pose proof (T 11%nat); pose proof (T 13%nat); pose proof (T 14%nat);
  pose proof (T 15%nat); pose proof (T 16%nat). destruct Q as [Q1 Q2]. ring_simplify in Q1. ring_simplify in Q2. ring_simplify. ring_simplify in P.
  clear Hx. nra.
Qed.
