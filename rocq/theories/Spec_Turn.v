(** Runs that differ by a rotation or reflection of space. *)
From Coq Require Import Reals List Arith Bool.
From Verif Require Import Base Py Model_Minf Model_Step Model_Output Model_Frame Model_Inputs Model_Sim
  Spec_Pack Spec_Minf Spec_Rotate Spec_Posdef Spec_Run Spec_Frame.
Import ListNotations.
Local Open Scope R_scope.

Section Turn.
Variable Q : mat.
Variables Ns Nd : nat.

(** [v'] is the vector [v] turned; pseudovectors (angular velocities, torques)
    also change sign when reflected. *)
Definition vec_turned (v v' : vec) : Prop := forall l, (l < 3)%nat -> v' l = rot Q v l.
Definition pseudo_turned (v v' : vec) : Prop := forall l, (l < 3)%nat -> v' l = det3 Q * rot Q v l.
Definition mat_turned (A A' : mat) : Prop := forall k l, (k < 3)%nat -> (l < 3)%nat -> A' k l = rot2 Q A k l.

Definition config_turned (p p' : config) : Prop :=
  c_ssizes p' = c_ssizes p /\ c_dsizes p' = c_dsizes p /\
  (forall j, (j < Ns)%nat -> vec_turned (c_spos p j) (c_spos p' j)) /\
  (forall j k, (j < Ns)%nat -> (k < 2)%nat -> vec_turned (c_srot p j k) (c_srot p' j k)) /\
  (forall d, (d < Nd)%nat -> vec_turned (c_dpos p d) (c_dpos p' d) /\ vec_turned (c_ddx p d) (c_ddx p' d)).

(** Rows and tensors of the inputs: placeholders stay placeholders. *)
Definition lists_turned {A} (rel : A -> A -> Prop) (l l' : list (option A)) : Prop :=
  length l' = length l /\
  forall j, match nth_error l j, nth_error l' j with
            | Some (Some x), Some (Some x') => rel x x'
            | Some None, Some None => True
            | None, None => True
            | _, _ => False
            end.
Definition row_vec (r : list R) : vec := fun a => nth a r 0.
Definition tensor_mat (t : list (list R)) : mat := fun a b => nth b (nth a t []) 0.
Definition rows_turned := lists_turned (fun r r' => vec_turned (row_vec r) (row_vec r')).
Definition pseudo_rows_turned := lists_turned (fun r r' => pseudo_turned (row_vec r) (row_vec r')).
Definition tensors_turned := lists_turned (fun t t' => mat_turned (tensor_mat t) (tensor_mat t')).
(** Given tensors are symmetric and traceless. *)
Definition given_st (l : list (option (list (list R)))) : Prop := forall t, In (Some t) l -> sym_traceless t.

Definition inputs_turned (i i' : inputs) : Prop :=
  rows_turned (i_Fa i) (i_Fa i') /\ pseudo_rows_turned (i_Ta i) (i_Ta i') /\ tensors_turned (i_Sa i) (i_Sa i') /\
  rows_turned (i_Fb i) (i_Fb i') /\ rows_turned (i_DFb i) (i_DFb i') /\
  rows_turned (i_Ua i) (i_Ua i') /\ tensors_turned (i_Ea i) (i_Ea i') /\
  rows_turned (i_Ub i) (i_Ub i') /\ rows_turned (i_HalfDUb i) (i_HalfDUb i') /\
  given_st (i_Sa i) /\ given_st (i_Sa i') /\ given_st (i_Ea i) /\ given_st (i_Ea i').

(** Background flow, turned; no periodic box. *)
Definition flow_turned (f f' : flow) : Prop :=
  vec_turned (f_U f) (f_U f') /\ pseudo_turned (f_O f) (f_O f') /\ vec_turned (f_centre f) (f_centre f') /\ f_mu f' = f_mu f /\
  unbounded f /\ unbounded f'.

(** Turned configurations get turned inputs. *)
Definition input_turned (input input' : config -> R -> res (inputs * flow)) : Prop :=
  forall p p' t i f i' f', config_turned p p' -> input p t = Ok (i, f) -> input' p' t = Ok (i', f') ->
    inputs_turned i i' /\ flow_turned f f'.

(** Saved positions and forces. *)
Definition snapshot_turned (s s' : snapshot) : Prop :=
  (forall j, (j < Ns + Nd)%nat -> vec_turned (n_pos s j) (n_pos s' j)) /\
  (forall j k, (j < Ns)%nat -> (k < 2)%nat -> vec_turned (n_rot s j k) (n_rot s' j k)) /\
  (forall d, (d < Nd)%nat -> vec_turned (n_dx s d) (n_dx s' d)).
Definition forces_turned (f f' : fsnapshot) : Prop :=
  (forall j, (j < Ns)%nat -> vec_turned (n_Fa f j) (n_Fa f' j) /\ mat_turned (n_Sa f j) (n_Sa f' j)) /\
  (forall d, (d < Nd)%nat -> vec_turned (n_Fb f d) (n_Fb f' d) /\ vec_turned (n_DFb f d) (n_DFb f' d)).
End Turn.

(** No periodic box. *)
Definition no_box_g (g : settings) : Prop := forall l, (l < 3)%nat -> g_box_bl g l = g_box_tr g l.
(** No orientation point of a sphere is at its centre. *)
Definition oriented (Ns : nat) (p : config) : Prop :=
  forall j k, (j < Ns)%nat -> (k < 2)%nat -> exists l, (l < 3)%nat /\ c_srot p j k l <> c_spos p j l.

(** A run to which C65 applies: in the configurations met, inputs are what the
    form asks for, matrices are positive definite, no dumbbell is broken. *)
Definition posed_run inv inv3 solve sc table h stale Ns Nd fm bb minf_only cutoff_factor g input p0 : Prop :=
  let N := g_num_frames g in
  let n := (11 * Ns + 6 * Nd)%nat in
  let frames := run_frames inv3 Ns Nd (far_inverse inv h stale Ns Nd bb g input)
    (solve_rest inv inv3 solve sc table h stale Ns Nd fm false bb minf_only cutoff_factor g input) g (fresh p0) in
  let reached := fun m p => exists st, frames (seq 0 m) = Ok st /\ s_pos st = p in
  (forall m st, (m < N)%nat -> frames (seq 0 m) = Ok st -> s_error st = false) /\
  (forall m p i f, (m < N)%nat -> reached m p -> input p (INR m) = Ok (i, f) -> well_posed Ns Nd fm i) /\
  (forall m p i f M, (m < N)%nat -> g_use_drag g = false -> reached m p -> input p (INR m) = Ok (i, f) ->
     far_mobility h stale Ns Nd bb p f M -> pos_def n M) /\
  (forall m pos i f L N0, (m < N)%nat -> (forall k, (k <= m)%nat -> reached k (pos k)) -> input (pos m) (INR m) = Ok (i, f) ->
     far_resistance h stale Ns Nd bb g input pos m L -> near_field inv3 sc table Ns Nd bb minf_only cutoff_factor (pos m) f N0 ->
     pos_def n (fun a b => L a b + N0 a b)) /\
  (* matrices of hydrodynamic interaction are of beads apart from each other *)
  (g_use_drag g = false \/ minf_only = false -> forall m p, (m < N)%nat -> reached m p ->
     distinct_beads (Ns + 2 * Nd) (bead_positions (posdata_of Ns Nd p)) (bead_sizes (posdata_of Ns Nd p))).

(** Reflection in the plane y = 0. *)
Definition mirror_y : mat := fun i j =>
  match i, j with 0%nat, 0%nat => 1 | 1%nat, 1%nat => -1 | 2%nat, 2%nat => 1 | _, _ => 0 end.
(** [Q] keeps the vertical axis. *)
Definition keeps_z (Q : mat) : Prop := Q 0%nat 2%nat = 0 /\ Q 1%nat 2%nat = 0 /\ Q 2%nat 2%nat = 1.

(** Everything in the plane y = 0. *)
Definition flat_config (Ns Nd : nat) (p : config) : Prop :=
  (forall j, (j < Ns)%nat -> c_spos p j 1%nat = 0 /\ forall k, (k < 2)%nat -> c_srot p j k 1%nat = 0) /\
  (forall d, (d < Nd)%nat -> c_dpos p d 1%nat = 0 /\ c_ddx p d 1%nat = 0).
Definition flat_snapshot (Ns Nd : nat) (s : snapshot) : Prop :=
  (forall j, (j < Ns + Nd)%nat -> n_pos s j 1%nat = 0) /\
  (forall j k, (j < Ns)%nat -> (k < 2)%nat -> n_rot s j k 1%nat = 0) /\
  (forall d, (d < Nd)%nat -> n_dx s d 1%nat = 0).
(** Forces in the plane, no stresslets out of it. *)
Definition flat_forces (Ns Nd : nat) (f : fsnapshot) : Prop :=
  (forall j, (j < Ns)%nat -> n_Fa f j 1%nat = 0 /\ n_Sa f j 0%nat 1%nat = 0 /\ n_Sa f j 1%nat 0%nat = 0 /\ n_Sa f j 1%nat 2%nat = 0 /\ n_Sa f j 2%nat 1%nat = 0) /\
  (forall d, (d < Nd)%nat -> n_Fb f d 1%nat = 0 /\ n_DFb f d 1%nat = 0).
