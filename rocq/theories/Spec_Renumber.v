(** Runs that differ by a rotation or reflection of space and by the order in
    which the particles are listed. *)
From Coq Require Import Reals List Arith Bool.
From Verif Require Import Base Py Model_Mob Model_Minf Model_Step Model_Output Model_Frame Model_Inputs Model_Sim
  Spec_Pack Spec_Minf Spec_Rotate Spec_R2B Spec_Posdef Spec_Run Spec_Frame Spec_Turn Spec_Close Model_R2B.
Import ListNotations.
Local Open Scope R_scope.

Section Renumber.
Variable Q : mat.
(** New sphere [j] is old sphere [s j], new dumbbell [d] is old dumbbell [t d]. *)
Variables s t : nat -> nat.
Variables Ns Nd : nat.

Definition config_renumbered (p p' : config) : Prop :=
  (forall j, c_ssizes p' j = c_ssizes p (s j)) /\ (forall d, c_dsizes p' d = c_dsizes p (t d)) /\
  (forall j, (j < Ns)%nat -> vec_turned Q (c_spos p (s j)) (c_spos p' j) /\
     forall k, (k < 2)%nat -> vec_turned Q (c_srot p (s j) k) (c_srot p' j k)) /\
  (forall d, (d < Nd)%nat -> vec_turned Q (c_dpos p (t d)) (c_dpos p' d) /\ vec_turned Q (c_ddx p (t d)) (c_ddx p' d)).

(** The first [N] rows or tensors of the inputs: placeholders stay placeholders. *)
Definition lists_renumbered {A} (rel : A -> A -> Prop) (N : nat) (r : nat -> nat) (l l' : list (option A)) : Prop :=
  forall j, (j < N)%nat ->
    match nth_error l (r j), nth_error l' j with
    | Some (Some x), Some (Some x') => rel x x'
    | Some None, Some None => True
    | None, None => True
    | _, _ => False
    end.
Definition same_rows := lists_renumbered (fun r r' => vec_turned Q (row_vec r) (row_vec r')).
Definition same_pseudo_rows := lists_renumbered (fun r r' => pseudo_turned Q (row_vec r) (row_vec r')).
Definition same_tensors := lists_renumbered (fun u u' => mat_turned Q (tensor_mat u) (tensor_mat u')).

Definition inputs_renumbered (i i' : inputs) : Prop :=
  same_rows Ns s (i_Fa i) (i_Fa i') /\ same_pseudo_rows Ns s (i_Ta i) (i_Ta i') /\ same_tensors Ns s (i_Sa i) (i_Sa i') /\
  same_rows Nd t (i_Fb i) (i_Fb i') /\ same_rows Nd t (i_DFb i) (i_DFb i') /\
  same_rows Ns s (i_Ua i) (i_Ua i') /\ same_tensors Ns s (i_Ea i) (i_Ea i') /\
  same_rows Nd t (i_Ub i) (i_Ub i') /\ same_rows Nd t (i_HalfDUb i) (i_HalfDUb i') /\
  given_st (i_Sa i) /\ given_st (i_Sa i') /\ given_st (i_Ea i) /\ given_st (i_Ea i').

Definition input_renumbered (input input' : config -> R -> res (inputs * flow)) : Prop :=
  forall p p' t i f i' f', config_renumbered p p' -> input p t = Ok (i, f) -> input' p' t = Ok (i', f') ->
    inputs_renumbered i i' /\ flow_turned Q f f'.

(** Saved positions (spheres, then dumbbells) and forces. *)
Definition snapshot_renumbered (a b : snapshot) : Prop :=
  (forall j, (j < Ns)%nat -> vec_turned Q (n_pos a (s j)) (n_pos b j) /\
     forall k, (k < 2)%nat -> vec_turned Q (n_rot a (s j) k) (n_rot b j k)) /\
  (forall d, (d < Nd)%nat -> vec_turned Q (n_pos a (Ns + t d)%nat) (n_pos b (Ns + d)%nat) /\ vec_turned Q (n_dx a (t d)) (n_dx b d)).
Definition forces_renumbered (a b : fsnapshot) : Prop :=
  (forall j, (j < Ns)%nat -> vec_turned Q (n_Fa a (s j)) (n_Fa b j) /\ mat_turned Q (n_Sa a (s j)) (n_Sa b j)) /\
  (forall d, (d < Nd)%nat -> vec_turned Q (n_Fb a (t d)) (n_Fb b d) /\ vec_turned Q (n_DFb a (t d)) (n_DFb b d)).
End Renumber.

(** The dumbbells are moved with the strain of the first sphere: there are
    none, the first sphere stays the first, or the strain is given and the same
    for all spheres. *)
Definition one_strain (s : nat -> nat) (Ns Nd : nat) (fm : form) (input : config -> R -> res (inputs * flow)) : Prop :=
  Nd = 0%nat \/ s 0%nat = 0%nat \/
  (fm <> fts /\ forall p t i f, input p t = Ok (i, f) -> forall j, (j < Ns)%nat -> nth_error (i_Ea i) j = nth_error (i_Ea i) 0).

(** [Q] keeps the y axis. *)
Definition keeps_y (Q : mat) : Prop := Q 0%nat 1%nat = 0 /\ Q 2%nat 1%nat = 0 /\ Q 1%nat 0%nat = 0 /\ Q 1%nat 2%nat = 0.

(** Reflection in the origin and in the plane x = 0. *)
Definition inversion : mat := fun i j => - delta i j.
Definition mirror_x : mat := fun i j =>
  match i, j with 0%nat, 0%nat => -1 | 1%nat, 1%nat => 1 | 2%nat, 2%nat => 1 | _, _ => 0 end.

(** Sphere [s j] is opposite sphere [j] and dumbbell [t d] opposite dumbbell
    [d] with respect to the origin: positions and forces are opposite,
    stresslets equal. *)
Definition centred_config (s t : nat -> nat) (Ns Nd : nat) (p : config) : Prop :=
  (forall j, c_ssizes p j = c_ssizes p (s j)) /\ (forall d, c_dsizes p d = c_dsizes p (t d)) /\
  (forall j l, (j < Ns)%nat -> (l < 3)%nat -> c_spos p j l = - c_spos p (s j) l /\
     forall k, (k < 2)%nat -> c_srot p j k l = - c_srot p (s j) k l) /\
  (forall d l, (d < Nd)%nat -> (l < 3)%nat -> c_dpos p d l = - c_dpos p (t d) l /\ c_ddx p d l = - c_ddx p (t d) l).
Definition centred_snapshot (s t : nat -> nat) (Ns Nd : nat) (a : snapshot) : Prop :=
  (forall j l, (j < Ns)%nat -> (l < 3)%nat -> n_pos a j l = - n_pos a (s j) l /\
     forall k, (k < 2)%nat -> n_rot a j k l = - n_rot a (s j) k l) /\
  (forall d l, (d < Nd)%nat -> (l < 3)%nat -> n_pos a (Ns + d)%nat l = - n_pos a (Ns + t d)%nat l /\ n_dx a d l = - n_dx a (t d) l).
Definition centred_forces (s t : nat -> nat) (Ns Nd : nat) (a : fsnapshot) : Prop :=
  (forall j l, (j < Ns)%nat -> (l < 3)%nat -> n_Fa a j l = - n_Fa a (s j) l /\
     forall k, (k < 3)%nat -> n_Sa a j l k = n_Sa a (s j) l k) /\
  (forall d l, (d < Nd)%nat -> (l < 3)%nat -> n_Fb a d l = - n_Fb a (t d) l /\ n_DFb a d l = - n_DFb a (t d) l).

(** The same particles in another order, and what is then saved. *)
Definition relisted (s t : nat -> nat) (p : config) : config :=
  mkConfig (fun j => c_ssizes p (s j)) (fun j => c_spos p (s j)) (fun j => c_srot p (s j))
    (fun d => c_dsizes p (t d)) (fun d => c_dpos p (t d)) (fun d => c_ddx p (t d)).
Definition relisted_snapshot (s t : nat -> nat) (Ns Nd : nat) (a b : snapshot) : Prop :=
  (forall j l, (j < Ns)%nat -> (l < 3)%nat -> n_pos b j l = n_pos a (s j) l /\ forall k, (k < 2)%nat -> n_rot b j k l = n_rot a (s j) k l) /\
  (forall d l, (d < Nd)%nat -> (l < 3)%nat -> n_pos b (Ns + d)%nat l = n_pos a (Ns + t d)%nat l /\ n_dx b d l = n_dx a (t d) l).
Definition relisted_forces (s t : nat -> nat) (Ns Nd : nat) (a b : fsnapshot) : Prop :=
  (forall j l, (j < Ns)%nat -> (l < 3)%nat -> n_Fa b j l = n_Fa a (s j) l /\ forall k, (k < 3)%nat -> n_Sa b j l k = n_Sa a (s j) l k) /\
  (forall d l, (d < Nd)%nat -> (l < 3)%nat -> n_Fb b d l = n_Fb a (t d) l /\ n_DFb b d l = n_DFb a (t d) l).

(** Sizes are positive, and for near-field pairs the tabulated functions obey
    the reciprocity of Jeffrey and Onishi (1984): both orders of a pair give the
    same forces (C16). *)
Definition reciprocal_pairs sc table (cutoff_factor : R) (Ns Nd : nat) (p : config) : Prop :=
  let P := posdata_of Ns Nd p in
  let x := bead_positions P in
  let a := bead_sizes P in
  (forall b, (b < Ns + 2 * Nd)%nat -> 0 < a b) /\
  (forall u v, (u < Ns + 2 * Nd)%nat -> (v < Ns + 2 * Nd)%nat -> u <> v -> scaled_distance x a u v < 2 * cutoff_factor ->
     reciprocal_scalars sc (lam_ix table) (scaled_distance x a u v) (a u) (a v)).
