(** Every form of the problem with a positive definite resistance matrix is
    solved without meeting a singular matrix. *)
From Coq Require Import Reals List Arith Bool Lia Lra.
From Verif Require Import Base Py Model_Pack Model_Convert Spec_Convert Proof_Convert Model_Output Spec_Output Proof_Output2
  Model_Minf Model_Grand Spec_Posdef Proof_Posdef.
Local Open Scope R_scope.

Section S.
Variable inv : nat -> mat -> mat.
Variable solve : nat -> mat -> list R -> list R.
Hypothesis Hinv : inverts_posdef inv.

Lemma fte_chain Ns Nd R0 : (0 < Ns)%nat -> msym (11 * Ns + 6 * Nd) R0 -> pos_def (11 * Ns + 6 * Nd) R0 ->
  inv_ok inv (5 * Ns) (slice R0 (6 * Ns) (6 * Ns)) /\
  exists Rfte, fts_to_fte_matrix inv Ns Nd R0 = Ok Rfte /\ sign_symmetric (11 * Ns + 6 * Nd) (strain_set Ns) Rfte /\
    pos_def (11 * Ns + 6 * Nd) Rfte.
Proof.
  intros HNs Hs Hp.
  assert (I1 : inv_ok inv (5 * Ns) (slice R0 (6 * Ns) (6 * Ns))) by (apply Hinv, (pos_def_slice (11 * Ns + 6 * Nd)); [lia|exact Hp]).
  split; [exact I1|]. destruct (fts_to_fte_correct inv Ns Nd R0 HNs Hs I1) as (R1 & E1 & P1 & S1).
  exists R1. split; [exact E1|]. split; [exact S1|]. exact (pos_def_same _ _ _ _ Hp P1).
Qed.

Lemma ufte_chain nfix Ns Nd Rfte : (0 < Ns)%nat -> (nfix <= Ns)%nat ->
  sign_symmetric (11 * Ns + 6 * Nd) (strain_set Ns) Rfte -> pos_def (11 * Ns + 6 * Nd) Rfte ->
  inv_ok inv (3 * nfix) (slice Rfte 0 0) /\
  exists Rufte, fte_to_ufte_matrix inv nfix Ns Nd Rfte = Ok Rufte /\
    sign_symmetric (11 * Ns + 6 * Nd) (union_set (strain_set Ns) (fixed_spheres_set nfix)) Rufte /\ pos_def (11 * Ns + 6 * Nd) Rufte.
Proof.
  intros HNs Hk Hs Hp.
  assert (I2 : inv_ok inv (3 * nfix) (slice Rfte 0 0)) by (apply Hinv, (pos_def_slice (11 * Ns + 6 * Nd)); [lia|exact Hp]).
  split; [exact I2|]. destruct (fte_to_ufte_correct inv nfix Ns Nd Rfte HNs Hk Hs I2) as (R2 & E2 & P2 & S2).
  exists R2. split; [exact E2|]. split; [exact S2|]. exact (pos_def_same _ _ _ _ Hp P2).
Qed.

Lemma ufteu_chain nfixd nfix Ns Nd Rufte : (nfix <= Ns)%nat -> (nfixd <= Nd)%nat ->
  sign_symmetric (11 * Ns + 6 * Nd) (union_set (strain_set Ns) (fixed_spheres_set nfix)) Rufte -> pos_def (11 * Ns + 6 * Nd) Rufte ->
  inv_ok inv (3 * nfixd) (slice Rufte (11 * Ns) (11 * Ns)) /\
  inv_ok inv (3 * nfixd) (slice (ufte_to_ufteu_step1 inv nfixd nfix Ns Nd Rufte) (11 * Ns + 3 * Nd) (11 * Ns + 3 * Nd)) /\
  pos_def (11 * Ns + 6 * Nd) (ufte_to_ufteu_matrix inv nfixd nfix Ns Nd Rufte).
Proof.
  intros Hk Hkd Hs Hp.
  assert (I3 : inv_ok inv (3 * nfixd) (slice Rufte (11 * Ns) (11 * Ns))) by (apply Hinv, (pos_def_slice (11 * Ns + 6 * Nd)); [lia|exact Hp]).
  destruct (ufteu_step1_correct inv nfixd nfix Ns Nd Rufte Hk Hkd Hs I3) as [P3 _].
  assert (I4 : inv_ok inv (3 * nfixd) (slice (ufte_to_ufteu_step1 inv nfixd nfix Ns Nd Rufte) (11 * Ns + 3 * Nd) (11 * Ns + 3 * Nd))).
  { apply Hinv, (pos_def_slice (11 * Ns + 6 * Nd)); [lia|]. exact (pos_def_same _ _ _ _ Hp P3). }
  split; [exact I3|]. split; [exact I4|].
  exact (pos_def_same _ _ _ _ Hp (ufte_to_ufteu_correct inv nfixd nfix Ns Nd Rufte Hk Hkd Hs I3 I4)).
Qed.

Lemma duf_chain nfixd Nd R0 : (nfixd <= Nd)%nat -> msym (6 * Nd) R0 -> pos_def (6 * Nd) R0 ->
  inv_ok inv (3 * nfixd) (slice R0 0 0) /\
  inv_ok inv (3 * nfixd) (slice (fts_to_duf_step1 inv nfixd Nd R0) (3 * Nd) (3 * Nd)) /\
  pos_def (6 * Nd) (fts_to_duf_matrix inv nfixd Nd R0).
Proof.
  intros Hkd Hs Hp.
  assert (I1 : inv_ok inv (3 * nfixd) (slice R0 0 0)) by (apply Hinv, (pos_def_slice (6 * Nd)); [lia|exact Hp]).
  destruct (duf_step1_correct inv nfixd Nd Hkd R0 Hs I1) as [P1 _].
  assert (I2 : inv_ok inv (3 * nfixd) (slice (fts_to_duf_step1 inv nfixd Nd R0) (3 * Nd) (3 * Nd))).
  { apply Hinv, (pos_def_slice (6 * Nd)); [lia|]. exact (pos_def_same _ _ _ _ Hp P1). }
  split; [exact I1|]. split; [exact I2|].
  exact (pos_def_same _ _ _ _ Hp (fts_to_duf_correct inv nfixd Nd Hkd R0 Hs I1 I2)).
Qed.
End S.

(** Solving with [pinv]. *)
Lemma lvec_map_seq (f : nat -> R) n i : (i < n)%nat -> lvec (map f (seq 0 n)) i = f i.
Proof.
  intros Hi. unfold lvec. rewrite (nth_indep _ 0 (f 0%nat)) by (rewrite map_length, seq_length; exact Hi).
  rewrite map_nth, seq_nth by exact Hi. reflexivity.
Qed.
Definition psolve (n : nat) (A : mat) (b : list R) : list R := map (mvec n (pinv n A) (lvec b)) (seq 0 n).
Lemma psolve_ok : solves_posdef psolve.
Proof.
  intros n A H b Hb. unfold psolve. rewrite map_length, seq_length. split; [reflexivity|].
  pose proof (pinv_ok n A H) as I. intros i Hi.
  rewrite (rsum_ext n _ (fun j => A i j * mvec n (pinv n A) (lvec b) j)) by (intros j Hj; rewrite lvec_map_seq by exact Hj; reflexivity).
  pose proof (is_inv_mvec n A (pinv n A) (mvec n (pinv n A) (lvec b)) (lvec b) I) as [_ K]. exact (K ltac:(reflexivity) i Hi).
Qed.

(** The drag matrix. *)
Lemma drag_pos_def p mu : 0 < mu ->
  (forall i, (i < num_spheres p)%nat -> 0 < sphere_sizes p i) ->
  (forall i, (i < num_dumbbells p)%nat -> 0 < dumbbell_sizes p i) ->
  msym (11 * num_spheres p + 6 * num_dumbbells p) (drag_Minfinity_inverse p mu) /\
  pos_def (11 * num_spheres p + 6 * num_dumbbells p) (drag_Minfinity_inverse p mu).
Proof.
  intros Hmu Hs Hd. split.
  - intros i j _ _. unfold drag_Minfinity_inverse. rewrite (Nat.eqb_sym j i). destruct (Nat.eqb_spec i j); [subst|]; reflexivity.
  - apply (pos_def_diag _ (fun i => drag_Minfinity_inverse p mu i i)).
    + intros i Hi. unfold drag_Minfinity_inverse. rewrite Nat.eqb_refl. apply Rmult_lt_0_compat; [exact Hmu|].
      assert (D : forall a b k, (a < k * b)%nat -> (0 < k)%nat -> (a / k < b)%nat) by (intros a b k H H0; apply Nat.div_lt_upper_bound; lia).
      repeat match goal with |- context [Nat.ltb ?a ?b] => destruct (Nat.ltb_spec a b) end;
        repeat apply Rmult_lt_0_compat; try apply pow_lt; try lra; first [apply Hs|apply Hd]; apply D; lia.
    + intros i j Hi Hj. unfold drag_Minfinity_inverse. rewrite Nat.eqb_refl. destruct (Nat.eqb_spec i j); [reflexivity|ring].
Qed.
