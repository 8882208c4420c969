(** Two equal spheres pulled alike. *)
From Coq Require Import Reals List Arith.
From Verif Require Import Base Py Model_Output Model_Frame Model_Inputs Model_Sim Spec_Run Spec_Work.
Import ListNotations.
Local Open Scope R_scope.

(** Both spheres are given the force [F], always, and nothing else: no
    velocities, torques, strain or flow; unbounded fluid of viscosity [mu]. *)
Definition pulled_alike (fm : form) (mu : R) (F : list R) (input : config -> R -> res (inputs * flow)) : Prop :=
  forall p t i f, input p t = Ok (i, f) ->
    forced_only i f /\ unbounded f /\ f_mu f = mu /\ i_Fa i = [Some F; Some F] /\
    (fm = fte \/ fm = ufte /\ i_Ua i = [None; None]).

(** The spheres after time [t] at velocity [U]. *)
Definition carried (p : config) (U : vec) (t : R) (x : snapshot) : Prop :=
  forall j l, (j < 2)%nat -> (l < 3)%nat -> n_pos x j l = c_spos p j l + t * U l.
(** Their stresslets are opposite. *)
Definition opposite_stresslets (S : mat) (f : fsnapshot) : Prop :=
  forall a b, (a < 3)%nat -> (b < 3)%nat -> n_Sa f 0%nat a b = S a b /\ n_Sa f 1%nat a b = - S a b.
