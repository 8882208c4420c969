(** Rigid displacement of a configuration and of everything a run records. *)
From Coq Require Import Reals List.
From Verif Require Import Base Py Model_Output Model_Frame Model_Inputs.
Import ListNotations.
Local Open Scope R_scope.

(** Sphere centres, orientation points and dumbbell centres move by [d]; sizes
    and dumbbell vectors do not change. *)
Definition moved (d : vec) (p : config) : config :=
  mkConfig (c_ssizes p) (fun i => vadd (c_spos p i) d) (fun i j => vadd (c_srot p i j) d)
           (c_dsizes p) (fun i => vadd (c_dpos p i) d) (c_ddx p).
Definition moved_snap (d : vec) (s : snapshot) : snapshot :=
  mkSnap (fun i => vadd (n_pos s i) d) (fun i j => vadd (n_rot s i j) d) (n_dx s).
(** In a saved file positions and orientations move; forces do not change. *)
Definition moved_file (d : vec) (r : list snapshot * list fsnapshot) : list snapshot * list fsnapshot :=
  (map (moved_snap d) (fst r), snd r).
Definition moved_state (d : vec) (st : state) : state :=
  mkState (moved d (s_pos st)) (s_error st) (s_minv st) (s_vel st)
    (option_map (map (moved_snap d)) (s_saved st)) (s_fsaved st) (option_map (moved_file d) (s_tempfile st)).

Definition map_res {A B} (f : A -> B) (r : res A) : res B :=
  match r with Ok a => Ok (f a) | Raise e => Raise e end.

(** The inputs of the displaced problem are those of the original problem
    with the centre of the background flow displaced. *)
Definition moves_with (d : vec) (input input' : config -> R -> res (inputs * flow)) : Prop :=
  forall p t, input' (moved d p) t =
    map_res (fun r => (fst r, mkFlow (f_U (snd r)) (f_O (snd r)) (vadd (f_centre (snd r)) d) (f_Ot (snd r)) (f_Et (snd r))
                                     (f_bl (snd r)) (f_tr (snd r)) (f_mu (snd r)))) (input p t).

(** There is no periodic box. *)
Definition no_box (input : config -> R -> res (inputs * flow)) : Prop :=
  forall p t i f, input p t = Ok (i, f) -> forall l, (l < 3)%nat -> f_bl f l = f_tr f l.

(** The inputs depend on relative positions only. *)
Definition relative_inputs (d : vec) (input : config -> R -> res (inputs * flow)) : Prop :=
  forall p t, input (moved d p) t = input p t.
(** There is no background rotation and every prescribed strain is zero. *)
Definition no_strain (input : config -> R -> res (inputs * flow)) : Prop :=
  forall p t i f, input p t = Ok (i, f) ->
    (forall l, (l < 3)%nat -> f_O f l = 0) /\
    forall m, In (Some m) (i_Ea i) -> forall r x, In r m -> In x r -> x = 0.
