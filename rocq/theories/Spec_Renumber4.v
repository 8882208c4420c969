(** Conditions on Runge-Kutta runs for comparing runs with the particles listed
    in another order. *)
From Coq Require Import Reals List Arith Bool.
From Verif Require Import Base Py Model_Step Model_Output Model_Frame Model_Inputs Model_Sim Spec_Run Spec_Run4 Spec_Renumber.
Local Open Scope R_scope.

(** In every stage the near-field pairs have reciprocal scalars. *)
Definition reciprocal_run4 inv inv3 solve sc table h stale Ns Nd fm bb minf_only cutoff_factor g input p0 : Prop :=
  let frames := run_frames inv3 Ns Nd (far_inverse inv h stale Ns Nd bb g input)
    (solve_rest inv inv3 solve sc table h stale Ns Nd fm false bb minf_only cutoff_factor g input) g (fresh p0) in
  let reached := fun m p => exists st, frames (seq 0 m) = Ok st /\ s_pos st = p in
  forall m pos K q L fl o, (m < g_num_frames g)%nat -> (K < 4)%nat ->
    (forall k, (k <= m)%nat -> reached k (pos k)) ->
    stages inv3 sc table h stale Ns Nd fm bb minf_only cutoff_factor g input pos m K q L fl o ->
    reciprocal_pairs sc table cutoff_factor Ns Nd (q K).
