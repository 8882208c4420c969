(** Conditions on Runge-Kutta runs for comparing turned runs. *)
From Coq Require Import Reals List Arith Bool.
From Verif Require Import Base Py Model_Minf Model_Grand Model_Close Model_R2B Model_GrandP Model_Step
  Model_Output Model_Frame Model_Inputs Model_Sim Spec_Minf Spec_Convert Spec_Output Spec_Rotate Spec_Step Spec_Frame Spec_Posdef Spec_Run Spec_Run4 Spec_Turn.
Local Open Scope R_scope.

(** A run to which C83 applies; matrices of hydrodynamic interaction are of
    beads apart from each other, in the stages as well. *)
Definition posed_run4 inv inv3 solve sc table h stale Ns Nd fm bb minf_only cutoff_factor g input p0 : Prop :=
  let N := g_num_frames g in
  let frames := run_frames inv3 Ns Nd (far_inverse inv h stale Ns Nd bb g input)
    (solve_rest inv inv3 solve sc table h stale Ns Nd fm false bb minf_only cutoff_factor g input) g (fresh p0) in
  let reached := fun m p => exists st, frames (seq 0 m) = Ok st /\ s_pos st = p in
  (forall m st, (m < N)%nat -> frames (seq 0 m) = Ok st -> s_error st = false) /\
  posed_stages inv3 sc table h stale Ns Nd fm bb minf_only cutoff_factor g input reached /\
  (g_use_drag g = false \/ minf_only = false -> forall m pos K q L fl o, (m < N)%nat -> (K < 4)%nat ->
     (forall k, (k <= m)%nat -> reached k (pos k)) ->
     stages inv3 sc table h stale Ns Nd fm bb minf_only cutoff_factor g input pos m K q L fl o ->
     distinct_beads (Ns + 2 * Nd) (bead_positions (posdata_of Ns Nd (q K))) (bead_sizes (posdata_of Ns Nd (q K)))).
