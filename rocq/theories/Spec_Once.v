(** Runge-Kutta frames that use one far field throughout. *)
From Coq Require Import Reals List Arith Bool.
From Verif Require Import Base Py Model_Step Model_Output Model_Frame Model_Inputs Model_Sim Spec_Frame Spec_Run Spec_Run4.
Local Open Scope R_scope.

(** The same settings with Euler's scheme. *)
Definition as_euler (g : settings) : settings :=
  mkSettings euler (g_dt g) (g_num_frames g) (g_start g) (g_invert_every g) (g_use_drag g) (g_rk4_each g)
    (g_fully_2d g) (g_explosion g) (g_box_bl g) (g_box_tr g) (g_save_pos g) (g_save_forces g) (g_save_after g)
    (g_temp g) (g_temp_every g).

(** The stages of frame [m] do not compute far fields of their own. *)
Definition one_far_field (g : settings) (m : nat) : Prop :=
  g_use_drag g = true \/ g_rk4_each g = false \/ ~ inversion_due 0 (g_invert_every g) m.

(** Forces and flow depend neither on the configuration nor on time. *)
Definition steady (input : config -> R -> res (inputs * flow)) : Prop := forall p p' t t', input p t = input p' t'.

(** The saved numbers agree. *)
Definition snapshot_same (Ns Nd : nat) (s s' : snapshot) : Prop :=
  (forall j l, (j < Ns + Nd)%nat -> (l < 3)%nat -> n_pos s' j l = n_pos s j l) /\
  (forall j k l, (j < Ns)%nat -> (k < 2)%nat -> (l < 3)%nat -> n_rot s' j k l = n_rot s j k l) /\
  (forall d l, (d < Nd)%nat -> (l < 3)%nat -> n_dx s' d l = n_dx s d l).
Definition forces_same (Ns Nd : nat) (f f' : fsnapshot) : Prop :=
  (forall j l, (j < Ns)%nat -> (l < 3)%nat -> n_Fa f' j l = n_Fa f j l) /\
  (forall j k l, (j < Ns)%nat -> (k < 3)%nat -> (l < 3)%nat -> n_Sa f' j k l = n_Sa f j k l) /\
  (forall d l, (d < Nd)%nat -> (l < 3)%nat -> n_Fb f' d l = n_Fb f d l /\ n_DFb f' d l = n_DFb f d l).
