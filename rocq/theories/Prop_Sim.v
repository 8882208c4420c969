(** C60: translation of a whole run. *)
From Coq Require Import Reals List Arith ZArith Bool Lra Lia.
From Verif Require Import Base Py Model_Step Model_Mob Model_Minf Model_Grand Model_Close Model_GrandP Model_Convert Model_Shear Model_Output Model_Frame Model_Inputs
  Model_Sim Spec_Sim Proof_Output3 Proof_Sim Proof_Sim2.
Import ListNotations.
Local Open Scope R_scope.

(** The whole output of a run of any number of frames, with any time stepping
    scheme, form and options, is displaced with the particles when the centre
    of the background flow is: positions and orientations move, forces stay the
    same, and an exception stays the same exception. *)
Theorem C60_translation inv inv3 solve sc table h stale Ns Nd fm extract bb minf_only cutoff_factor g d input input' p :
  periodic g = false -> no_box input -> moves_with d input input' ->
  let run := full_simulation inv inv3 solve sc table h stale Ns Nd fm extract bb minf_only cutoff_factor g in
  run input' (moved d p) = map_res (option_map (moved_file d)) (run input p).
Proof. exact (fun A B C => translation inv inv3 solve sc table h stale Ns Nd fm extract bb minf_only cutoff_factor g d input input' p A B C). Qed.
Print Assumptions C60_translation.

(** Without background rotation and strain only relative positions matter. *)
Theorem C60_no_background_flow inv inv3 solve sc table h stale Ns Nd fm extract bb minf_only cutoff_factor g d input p :
  periodic g = false -> no_box input -> relative_inputs d input -> no_strain input -> fm <> fts ->
  let run := full_simulation inv inv3 solve sc table h stale Ns Nd fm extract bb minf_only cutoff_factor g in
  run input (moved d p) = map_res (option_map (moved_file d)) (run input p).
Proof. exact (fun A B C D E => translation_no_flow inv inv3 solve sc table h stale Ns Nd fm extract bb minf_only cutoff_factor g d input p A B C D E). Qed.
Print Assumptions C60_no_background_flow.

(** The built-in inputs for which that holds: gravity, repulsion, prescribed
    velocities, mixed, and the test forces and torques. *)
Theorem C60_builtin_inputs inv inv3 solve sc table h stale Ns Nd fm extract bb minf_only cutoff_factor g d n dt p :
  In n [-1; -2; -3; -4; -5; -6; -7; -8; -12; -13; 1; 4; 5; 6]%Z -> fm <> fts -> periodic g = false ->
  let run := full_simulation inv inv3 solve sc table h stale Ns Nd fm extract bb minf_only cutoff_factor g in
  let input := fun p t => input_ftsuoe n fm Ns Nd p t dt in
  run input (moved d p) = map_res (option_map (moved_file d)) (run input p).
Proof. exact (fun A B C => translation_builtin inv inv3 solve sc table h stale Ns Nd fm extract bb minf_only cutoff_factor g d n dt p A B C). Qed.
Print Assumptions C60_builtin_inputs.

(** Constant and oscillatory shear: displacing the particles and the centre of
    the flow displaces the run. *)
Theorem C60_shear inv inv3 solve sc table h stale Ns Nd fm extract bb minf_only cutoff_factor g d p :
  periodic g = false ->
  let run := full_simulation inv inv3 solve sc table h stale Ns Nd fm extract bb minf_only cutoff_factor g in
  (forall gammadot dt c,
     let input c := fun (_ : config) t => Ok (with_shear (default_inputs fm Ns Nd) (constant_shear gammadot t dt c Ns)) in
     run (input (vadd c d)) (moved d p) = map_res (option_map (moved_file d)) (run (input c) p)) /\
  (forall amplitude period dt phase axis tr opp c,
     let input c := fun (q : config) t =>
       let i := with_DFb (default_inputs fm Ns Nd) (map (fun k => Some (spring_force (c_ddx q k))) (seq 0 Nd)) in
       do h <- oscillatory_shear amplitude period t dt phase c Ns axis tr opp ;; Ok (with_shear i h) in
     run (input (vadd c d)) (moved d p) = map_res (option_map (moved_file d)) (run (input c) p)).
Proof.
  intros Hp run. split.
  - intros gd dt c input. apply translation; [exact Hp| |].
    + intros q t i f H. injection H as <- <-. reflexivity.
    + intros q t. reflexivity.
  - intros am pe dt ph ax tr op c input. apply translation; [exact Hp| |].
    + intros q t i f H. unfold input in H. apply bind_ok in H. destruct H as (s & _ & H). injection H as <- <-. reflexivity.
    + intros q t. unfold input, oscillatory_shear. destruct (Reqb pe 0); [reflexivity|].
      destruct ax as [|[|[|ax]]]; reflexivity.
Qed.
Print Assumptions C60_shear.

(** In form fts the solved strain of each particle is added as a background
    flow about the centre, so there the run of a single sphere with a given
    stresslet, without any background flow, depends on where the sphere is. *)
Theorem C60_form_fts_refuted inv sc c : exists d, let input := fun (_ : config) (_ : R) => Ok (squeezed, default_flow) in
  relative_inputs d input /\ no_box input /\ no_strain input /\ periodic one_frame = false /\
  let run := full_simulation inv (fun m => m) dsolve sc [] 0 (fun _ _ => 0) 1 0 fts false true true 2 one_frame input in
  run (moved d (one_at c)) <> map_res (option_map (moved_file d)) (run (one_at c)).
Proof. exact (fts_origin inv sc c). Qed.
Print Assumptions C60_form_fts_refuted.

(** A run under gravity: one frame, drag matrix; the sphere falls by 1. *)
Lemma gravity_matrix inv c : exists M, fts_to_fte_matrix inv 1 0 (drag_Minfinity_inverse (posdata_of 1 0 (one_at c)) 1) = Ok M /\
  M 0%nat 0%nat = 1 /\ M 1%nat 1%nat = 1 /\ M 2%nat 2%nat = 1.
Proof.
  eexists. split; [reflexivity|]. generalize (inv (11 * 1 - 6 * 1)%nat (slice (drag_Minfinity_inverse (posdata_of 1 0 (one_at c)) 1) (6 * 1) (6 * 1))).
  intros w. unfold swap_form, vecmat_mat_vecmat, vec_mat_cross.
  repeat split; cbn; unfold msub, put, mmul, mopp, nthm, nthn, slice, mtr, drag_Minfinity_inverse, rsum; cbn; unfold mzero; ring.
Qed.
Example C60_example_gravity inv sc c : exists x fs,
  full_simulation inv (fun m => m) dsolve sc [] 0 (fun _ _ => 0) 1 0 fte false true true 2 one_frame
    (fun p t => input_ftsuoe 1 fte 1 0 p t 1) (one_at c) = Ok (Some ([snap 1 (one_at c); x], fs)) /\
  n_pos x 0%nat 0%nat = c 0%nat /\ n_pos x 0%nat 2%nat = c 2%nat - 1.
Proof.
  set (input := fun (p : config) t => input_ftsuoe 1 fte 1 0 p t 1).
  set (far := far_inverse inv 0 (fun _ _ => 0) 1 0 true one_frame input).
  assert (Hfar : far (one_at c) (INR 0) = drag_Minfinity_inverse (posdata_of 1 0 (one_at c)) 1).
  { unfold far, far_inverse, input. cbn [input_ftsuoe Z.ltb Z.compare]. rewrite free_default. reflexivity. }
  set (rst := solve_rest inv (fun m => m) dsolve sc [] 0 (fun _ _ => 0) 1 0 fte false true true 2 one_frame input).
  destruct (gravity_matrix inv c) as (M & HM & M0 & M1 & M2).
  assert (HS : exists s, rst (one_at c) (INR 0) zero_vel (far (one_at c) (INR 0)) = Ok s /\
    length (o_Ea s) = 1%nat /\ o_Ua s 0%nat 0%nat = 0 /\ o_Ua s 0%nat 2%nat = - (1) /\
    (forall i j, nth 0 (o_Ea s) mzero i j = 0) /\ o_Uinf s = v3 0 0 0 /\ o_Oinf s = v3 0 0 0).
  { rewrite Hfar. unfold rst, solve_rest, input. cbn [input_ftsuoe Z.ltb Z.compare bind]. rewrite free_default.
    unfold grand_resistance_free, Minfinity_inverse, add_near. cbn [bind andb negb orb].
    unfold generate_output, output_fte. rewrite HM. cbn [bind].
    eexists. split.
    - cbn -[Rdiv sqrt]. reflexivity.
    - repeat split.
      + cbn -[Rdiv]. rewrite M0. unfold Rdiv. ring.
      + cbn -[Rdiv]. rewrite M2. field.
      + intros i j. cbn. destruct i as [|[|[|i]]]; [destruct j as [|[|[|[|j]]]]..|]; try reflexivity; try (destruct i, j; reflexivity). }
  destruct HS as (s & Hs & HL & U0 & U2 & HE & H1 & H2).
  destruct (one_frame_run far rst c s Hs HL) as (x & fs & E & Hx).
  exists x, fs. split; [exact E|]. rewrite !Hx. unfold mvec, rsum, cross, vsub. rewrite H1, H2, U0, U2, !HE. split; cbn; ring.
Qed.
