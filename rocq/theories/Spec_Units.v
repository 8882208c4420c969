(** Runs that differ in the units of length, time and mass, and in the origin
    of coordinates. *)
From Coq Require Import Reals List Arith Bool.
From Verif Require Import Base Py Model_Mob Model_Minf Model_Grand Model_Close Model_R2B Model_GrandP Model_Step
  Model_Output Model_Frame Model_Inputs Model_Sim
  Spec_Pack Spec_Minf Spec_Convert Spec_Output Spec_Step Spec_Frame Spec_Posdef Spec_Run Spec_Run4 Spec_Rescale Spec_Turn.
Import ListNotations.
Local Open Scope R_scope.

Section Units.
(** Lengths are multiplied by [lam], velocities by [ups], the viscosity by
    [kap]; the origin moves to [org]. *)
Variables lam ups kap : R.
Variable org : vec.
Variables Ns Nd : nat.
(** Forces are viscosity times velocity times length; torques and stresslets
    carry one more length. *)
Definition force_unit : R := kap * ups * lam.
Definition torque_unit : R := force_unit * lam.
Definition rate_unit : R := ups / lam.

Definition vec_times (k : R) (v v' : vec) : Prop := forall l, (l < 3)%nat -> v' l = k * v l.
Definition mat_times (k : R) (A A' : mat) : Prop := forall a b, (a < 3)%nat -> (b < 3)%nat -> A' a b = k * A a b.
Definition point_moved (x x' : vec) : Prop := forall l, (l < 3)%nat -> x' l = lam * x l + org l.

Definition config_scaled (p p' : config) : Prop :=
  c_ssizes p' = (fun j => lam * c_ssizes p j) /\ c_dsizes p' = (fun j => lam * c_dsizes p j) /\
  (forall j, (j < Ns)%nat -> point_moved (c_spos p j) (c_spos p' j)) /\
  (forall j k, (j < Ns)%nat -> (k < 2)%nat -> point_moved (c_srot p j k) (c_srot p' j k)) /\
  (forall d, (d < Nd)%nat -> point_moved (c_dpos p d) (c_dpos p' d) /\ vec_times lam (c_ddx p d) (c_ddx p' d)).

(** Placeholders in the inputs stay placeholders. *)
Definition rows_times (k : R) := lists_turned (fun r r' => vec_times k (row_vec r) (row_vec r')).
Definition tensors_times (k : R) := lists_turned (fun t t' => mat_times k (tensor_mat t) (tensor_mat t')).
Definition inputs_scaled (i i' : inputs) : Prop :=
  rows_times force_unit (i_Fa i) (i_Fa i') /\ rows_times torque_unit (i_Ta i) (i_Ta i') /\ tensors_times torque_unit (i_Sa i) (i_Sa i') /\
  rows_times force_unit (i_Fb i) (i_Fb i') /\ rows_times force_unit (i_DFb i) (i_DFb i') /\
  rows_times ups (i_Ua i) (i_Ua i') /\ tensors_times rate_unit (i_Ea i) (i_Ea i') /\
  rows_times ups (i_Ub i) (i_Ub i') /\ rows_times ups (i_HalfDUb i) (i_HalfDUb i') /\
  given_st (i_Sa i) /\ given_st (i_Sa i') /\ given_st (i_Ea i) /\ given_st (i_Ea i').
(** Background flow; no periodic box.  [calm]: there is neither rotation nor
    strain, so that its centre does not matter. *)
Definition flow_scaled (calm : bool) (f f' : flow) : Prop :=
  vec_times ups (f_U f) (f_U f') /\ vec_times rate_unit (f_O f) (f_O f') /\
  f_mu f' = kap * f_mu f /\ 0 < f_mu f /\ unbounded f /\ unbounded f' /\
  (if calm then forall l, (l < 3)%nat -> f_O f l = 0 else point_moved (f_centre f) (f_centre f')).
Definition no_strain (fm : form) (i : inputs) : Prop :=
  fm <> fts /\ forall t, In (Some t) (i_Ea i) -> forall a b, (a < 3)%nat -> (b < 3)%nat -> tensor_mat t a b = 0.
(** Configurations that differ in units get inputs that do (inputs are asked
    for by frame number, not by time). *)
Definition input_scaled (calm : bool) (fm : form) (input input' : config -> R -> res (inputs * flow)) : Prop :=
  forall p p' t i f i' f', config_scaled p p' -> input p t = Ok (i, f) -> input' p' t = Ok (i', f') ->
    inputs_scaled i i' /\ flow_scaled calm f f' /\ (calm = true -> no_strain fm i).

(** Saved positions and forces. *)
Definition snapshot_scaled (s s' : snapshot) : Prop :=
  (forall j, (j < Ns + Nd)%nat -> point_moved (n_pos s j) (n_pos s' j)) /\
  (forall j k, (j < Ns)%nat -> (k < 2)%nat -> point_moved (n_rot s j k) (n_rot s' j k)) /\
  (forall d, (d < Nd)%nat -> vec_times lam (n_dx s d) (n_dx s' d)).
Definition forces_scaled (f f' : fsnapshot) : Prop :=
  (forall j, (j < Ns)%nat -> vec_times force_unit (n_Fa f j) (n_Fa f' j) /\ mat_times torque_unit (n_Sa f j) (n_Sa f' j)) /\
  (forall d, (d < Nd)%nat -> vec_times force_unit (n_Fb f d) (n_Fb f' d) /\ vec_times force_unit (n_DFb f d) (n_DFb f' d)).

(** All beads are more than 1e-8 apart, before and after (nearer ones are
    treated differently: C66). *)
Definition apart_both (p : config) : Prop :=
  (forall b, (b < Ns + 2 * Nd)%nat -> 0 < bead_sizes (posdata_of Ns Nd p) b) /\
  apart (Ns + 2 * Nd) (bead_positions (posdata_of Ns Nd p)) /\
  apart (Ns + 2 * Nd) (fun b => vscal lam (bead_positions (posdata_of Ns Nd p) b)).
End Units.

(** The same settings with another timestep. *)
Definition retimed (dt : R) (g : settings) : settings :=
  mkSettings (g_scheme g) dt (g_num_frames g) (g_start g) (g_invert_every g) (g_use_drag g) (g_rk4_each g)
    (g_fully_2d g) (g_explosion g) (g_box_bl g) (g_box_tr g) (g_save_pos g) (g_save_forces g) (g_save_after g)
    (g_temp g) (g_temp_every g).

(** Beads apart in all configurations a run meets. *)
Definition spread_run lam inv inv3 solve sc table h stale Ns Nd fm bb minf_only cutoff_factor g input p0 : Prop :=
  let frames := run_frames inv3 Ns Nd (far_inverse inv h stale Ns Nd bb g input)
    (solve_rest inv inv3 solve sc table h stale Ns Nd fm false bb minf_only cutoff_factor g input) g (fresh p0) in
  let reached := fun m p => exists st, frames (seq 0 m) = Ok st /\ s_pos st = p in
  g_use_drag g = false \/ minf_only = false -> forall m p, (m < g_num_frames g)%nat -> reached m p -> apart_both lam Ns Nd p.
Definition spread_run4 lam inv inv3 solve sc table h stale Ns Nd fm bb minf_only cutoff_factor g input p0 : Prop :=
  let frames := run_frames inv3 Ns Nd (far_inverse inv h stale Ns Nd bb g input)
    (solve_rest inv inv3 solve sc table h stale Ns Nd fm false bb minf_only cutoff_factor g input) g (fresh p0) in
  let reached := fun m p => exists st, frames (seq 0 m) = Ok st /\ s_pos st = p in
  g_use_drag g = false \/ minf_only = false -> forall m pos K q L fl o, (m < g_num_frames g)%nat -> (K < 4)%nat ->
     (forall k, (k <= m)%nat -> reached k (pos k)) ->
     stages inv3 sc table h stale Ns Nd fm bb minf_only cutoff_factor g input pos m K q L fl o ->
     apart_both lam Ns Nd (q K).
