(** C101: runs with the drag matrix in closed form. *)
From Coq Require Import Reals List Arith ZArith Bool Lia Lra.
From Verif Require Import Base Py Model_Mob Model_Layout Model_Minf Model_Grand Model_Step
  Model_Shear Model_Output Model_Frame Model_Inputs Model_Sim Spec_Output Spec_Step Spec_Frame Spec_Posdef Spec_Run Spec_Run4
  Spec_Turn Spec_Push Spec_Tow Spec_Alone Spec_Drag
  Proof_Posdef Proof_Posdef2 Proof_Frame Proof_Run Proof_Run2 Spec_Runs Proof_Runs2 Proof_Runs3 Prop_Runs Prop_Run Proof_Turn2 Proof_Work3 Proof_Tow4
  Prop_Push Prop_Alone Prop_Alone2 Proof_Drag.
From Verif Require Proof_Step.
Import ListNotations.
Local Open Scope R_scope.

(** Every completed run of form fte with the drag matrix, without near field and
    box, whatever the forces, torques, strains and the flow: every sphere and
    every bead moves by itself, and what is saved. *)
Theorem C101_euler :
  forall inv inv3 solve sc table h stale Ns Nd bb cutoff_factor g input p0 s fs,
    let N := g_num_frames g in
    inverts_posdef inv -> solves_posdef solve -> (0 < Ns)%nat -> g_explosion g = false -> g_use_drag g = true -> g_start g = 0%nat -> no_box_g g ->
    (0 < g_save_pos g)%nat -> (0 < g_save_forces g)%nat ->
    (g_save_after g mod g_save_pos g = 0)%nat -> (g_save_after g mod g_save_forces g = 0)%nat ->
    (forall p t i f, input p t = Ok (i, f) -> well_posed Ns Nd fte i /\ (forall j, (j < Ns)%nat -> symmetric_traceless (strain_given (i_Ea i) j)) /\ 0 < f_mu f) ->
    (forall j, (j < Ns)%nat -> 0 < c_ssizes p0 j) -> (forall j, (j < Nd)%nat -> 0 < c_dsizes p0 j) ->
    full_simulation inv inv3 solve sc table h stale Ns Nd fte false bb true cutoff_factor g input p0 = Ok (Some (s, fs)) ->
    (g_scheme g = euler \/ (g_scheme g = ab2 /\ Nd = 0%nat)) ->
    exists (pos : nat -> config) (inp : nat -> inputs) (fl : nat -> flow) (frc : nat -> fsnapshot),
      pos 0%nat = p0 /\
      (forall m, (m < N)%nat -> input (pos m) (INR m) = Ok (inp m, fl m)) /\
      (forall m, (m < N)%nat ->
         let first := match g_scheme g with euler => true | _ => Nat.eqb m 0 end in
         let V := fun m b l => planar Ns g b l (drag_speed Ns Nd p0 (pos m) (fl m) (inp m) (inp m) b l) in
         let W := fun m => drag_turn p0 (fl m) (inp m) in
         carried Ns Nd inv3 (g_dt g) (fun b l => if first then V m b l else 3 / 2 * V m b l - 1 / 2 * V (m - 1)%nat b l)
           (fun j l => if first then W m j l else 3 / 2 * W m j l - 1 / 2 * W (m - 1)%nat j l) (pos m) (pos (S m))) /\
      (forall m, (m < N)%nat ->
         (forall j l, (j < Ns)%nat -> n_Fa (frc m) j l = load (i_Fa (inp m)) j l) /\
         (forall j k l, (j < Ns)%nat -> (k < 3)%nat -> (l < 3)%nat -> n_Sa (frc m) j k l = drag_stresslet p0 (f_mu (fl m)) (inp m) j k l) /\
         (forall j l, (j < Nd)%nat -> n_Fb (frc m) j l = load (i_Fb (inp m)) j l /\ n_DFb (frc m) j l = load (i_DFb (inp m)) j l)) /\
      s = map (fun m => snap Ns (pos m)) (due_frames (g_save_pos g) (g_save_after g) N)
          ++ (if save_due (g_save_pos g) (g_save_after g) (N - 1) then [snap Ns (pos N)] else []) /\
      fs = map frc (due_frames (g_save_forces g) (g_save_after g) N).
Proof. intros. eapply drag_run; eassumption. Qed.
Print Assumptions C101_euler.

(** Runge-Kutta: all stages, and the frames they make up. *)
Theorem C101_rk4 :
  forall inv inv3 solve sc table h stale Ns Nd bb cutoff_factor g input p0 s fs,
    let N := g_num_frames g in
    inverts_posdef inv -> solves_posdef solve -> (0 < Ns)%nat -> g_explosion g = false -> g_use_drag g = true -> g_start g = 0%nat -> no_box_g g ->
    (0 < g_save_pos g)%nat -> (0 < g_save_forces g)%nat ->
    (g_save_after g mod g_save_pos g = 0)%nat -> (g_save_after g mod g_save_forces g = 0)%nat ->
    (forall p t i f, input p t = Ok (i, f) -> well_posed Ns Nd fte i /\ (forall j, (j < Ns)%nat -> symmetric_traceless (strain_given (i_Ea i) j)) /\ 0 < f_mu f) ->
    (forall j, (j < Ns)%nat -> 0 < c_ssizes p0 j) -> (forall j, (j < Nd)%nat -> 0 < c_dsizes p0 j) ->
    full_simulation inv inv3 solve sc table h stale Ns Nd fte false bb true cutoff_factor g input p0 = Ok (Some (s, fs)) ->
    g_scheme g = rk4 ->
    exists (pos : nat -> config) (q : nat -> nat -> config) (inp : nat -> nat -> inputs) (fl : nat -> nat -> flow) (frc : nat -> fsnapshot),
      pos 0%nat = p0 /\
      (forall m, (m < N)%nat ->
         let V := fun k => drag_speed Ns Nd p0 (pos m) (fl m k) (inp m k) (inp m (strain_stage k)) in
         let W := fun k => drag_turn p0 (fl m k) (inp m k) in
         (forall k, (k < 4)%nat -> input (q m k) (stage_time m k) = Ok (inp m k, fl m k)) /\
         q m 0%nat = pos m /\
         (forall k, (k < 3)%nat -> carried Ns Nd inv3 (stage_step (g_dt g) k) (V k) (W k) (pos m) (q m (S k))) /\
         carried Ns Nd inv3 (g_dt g) (fun b l => planar Ns g b l (mean4 (fun k => V k b l))) (fun j l => mean4 (fun k => W k j l)) (pos m) (pos (S m))) /\
      (forall m, (m < N)%nat ->
         (forall j l, (j < Ns)%nat -> n_Fa (frc m) j l = mean4 (fun k => load (i_Fa (inp m k)) j l)) /\
         (forall j k l, (j < Ns)%nat -> (k < 3)%nat -> (l < 3)%nat -> n_Sa (frc m) j k l = mean4 (fun r => drag_stresslet p0 (f_mu (fl m r)) (inp m r) j k l)) /\
         (forall j l, (j < Nd)%nat -> n_Fb (frc m) j l = mean4 (fun k => load (i_Fb (inp m k)) j l) /\ n_DFb (frc m) j l = mean4 (fun k => load (i_DFb (inp m k)) j l))) /\
      s = map (fun m => snap Ns (pos m)) (due_frames (g_save_pos g) (g_save_after g) N)
          ++ (if save_due (g_save_pos g) (g_save_after g) (N - 1) then [snap Ns (pos N)] else []) /\
      fs = map frc (due_frames (g_save_forces g) (g_save_after g) N).
Proof. intros. eapply drag_run4; eassumption. Qed.
Print Assumptions C101_rk4.

(** ** Shear *)
Lemma ok_pair {A B} (x y : A) (u v : B) : Ok (x, u) = Ok (y, v) -> x = y /\ u = v.
Proof. intros E. injection E as -> ->. split; reflexivity. Qed.
Lemma shear_all osc Ns Nd p t dt : exists Ot Et,
  let r := shear_rate osc (t * dt) in
  input_ftsuoe (shear_input osc) fte Ns Nd p t dt =
    Ok (with_Ea (with_DFb (default_inputs fte Ns Nd) (if osc then map (fun k => Some (spring_force (c_ddx p k))) (seq 0 Nd) else repeat (Some zeros3) Nd))
          (map (fun m => Some (row2 m)) (repeat (literal_xz (5 / 10 * r)) (Nat.max 1 Ns))),
        mkFlow (v3 0 0 0) (v3 0 (5 / 10 * r) 0) (v3 (still_height osc) 0 (still_height osc)) Ot Et (v3 0 0 0) (v3 0 0 0) 1).
Proof.
  destruct osc; cbn [shear_input].
  - unfold input_ftsuoe. cbn [Z.ltb Z.compare]. cbv zeta. unfold oscillatory_shear. cbv zeta.
    assert (Reqb 10 0 = false) as ->. { unfold Reqb. destruct (Req_EM_T 10 0); [lra|reflexivity]. }
    cbn [bind shear_rate still_height]. unfold with_shear. cbn [h_Ea h_U h_O h_centre h_Ot h_Et].
    replace (t * dt * (2 * PI / 10) + 0) with (2 * PI * (t * dt) / 10) by field.
    replace (1 * (5 / 10)) with (5 / 10) by ring. replace (225 / 100) with (9 / 4) by lra. eexists. eexists. reflexivity.
  - eexists. eexists. unfold input_ftsuoe. cbn [Z.ltb Z.compare]. cbv zeta. unfold constant_shear. cbv zeta.
    unfold with_shear. cbn [h_Ea h_U h_O h_centre h_Ot h_Et shear_rate still_height]. reflexivity.
Qed.
Lemma strain_all c n j a b : (j < n)%nat -> (a < 3)%nat -> (b < 3)%nat ->
  strain_given (map (fun m => Some (row2 m)) (repeat (literal_xz c) (Nat.max 1 n))) j a b = literal_xz c a b.
Proof.
  intros Hj Ha Hb. unfold strain_given. rewrite nth_error_map, (nth_error_nth' _ mzero) by (rewrite repeat_length; lia).
  rewrite (nth_indep _ mzero (literal_xz c)) by (rewrite repeat_length; lia). rewrite nth_repeat. cbn [option_map]. idx3 Ha; idx3 Hb; reflexivity.
Qed.
Lemma zero_loads n j l : load (repeat (Some zeros3) n) j l = 0.
Proof.
  unfold load. destruct (nth_error (repeat (Some zeros3) n) j) eqn:E; [|reflexivity]. apply nth_error_In, repeat_spec in E. subst. unfold zeros3.
  destruct l as [|[|[|[|l]]]]; reflexivity.
Qed.
Lemma spring_loads (osc : bool) n (p : config) j l : (j < n)%nat -> (l < 3)%nat ->
  load (if osc then map (fun k => Some (spring_force (c_ddx p k))) (seq 0 n) else repeat (Some zeros3) n) j l = spring osc (c_ddx p j) l.
Proof.
  intros Hj Hl. destruct osc; [|apply zero_loads]. unfold load. rewrite nth_error_map, (nth_error_nth' _ 0%nat) by (rewrite seq_length; exact Hj).
  rewrite seq_nth by exact Hj. cbn [option_map plus]. unfold spring_force, spring. idx3 Hl; cbn; unfold Rdiv; ring.
Qed.
Lemma shear_posed osc Ns Nd dt : (0 < Ns)%nat -> forall p t i f, input_ftsuoe (shear_input osc) fte Ns Nd p t dt = Ok (i, f) ->
  well_posed Ns Nd fte i /\ (forall j, (j < Ns)%nat -> symmetric_traceless (strain_given (i_Ea i) j)) /\ 0 < f_mu f.
Proof.
  intros HN p t i f EI. destruct (shear_all osc Ns Nd p t dt) as (Ot & Et & E'). cbv zeta in E'. rewrite EI in E'. apply ok_pair in E'. destruct E' as [-> ->]. split; [|split; [|cbn; lra]].
  - unfold well_posed. cbn [with_Ea with_DFb default_inputs i_Ta i_Fa i_Ea i_Fb i_DFb].
    split; [exact (zeros_given Ns)|]. split; [exact (zeros_given Ns)|]. split; [exact (shear_given Ns _ HN)|]. split; [exact (zeros_given Nd)|].
    destruct osc; [|exact (zeros_given Nd)]. split; [rewrite map_length, seq_length; reflexivity|].
    intros o Ho. apply in_map_iff in Ho. destruct Ho as (k & <- & _). eexists. split; reflexivity.
  - intros j Hj. cbn [with_Ea i_Ea]. destruct (xz_st (5 / 10 * shear_rate osc (t * dt))) as [A B]. split.
    + intros a b Ha Hb. rewrite !strain_all by assumption. apply A; assumption.
    + rewrite !strain_all by (assumption || lia). exact B.
Qed.
Lemma shear_completes inv inv3 solve sc table h stale Ns Nd bb cf g dt osc p0 :
  solves_shape solve -> (0 < Ns)%nat -> usable g Nd ->
  exists s fs, full_simulation inv inv3 solve sc table h stale Ns Nd fte false bb true cf g (fun p t => input_ftsuoe (shear_input osc) fte Ns Nd p t dt) p0 = Ok (Some (s, fs)).
Proof.
  intros Hsh HN HU.
  destruct (C62_complete inv inv3 solve sc table h stale Ns Nd fte false bb true cf g (fun p t => input_ftsuoe (shear_input osc) fte Ns Nd p t dt) p0
    (map (c_ssizes p0) (seq 0 Ns) ++ map (c_dsizes p0) (seq 0 Nd)) Hsh) as (s & fs & E & _).
  - intros i Hi'. apply in_or_app. left. apply in_map, in_seq. lia.
  - intros i Hi'. apply in_or_app. right. apply in_map, in_seq. lia.
  - left. reflexivity.
  - discriminate.
  - intros p t _ _. destruct (shear_all osc Ns Nd p t dt) as (Ot & Et & E).
    destruct (given_inputs (shear_input osc) fte Ns Nd p t dt) as (i & f & E' & C & _).
    + destruct osc; cbn; lia.
    + unfold workable. destruct (Nat.eqb_spec Ns 0); [lia|left]. destruct osc; discriminate.
    + exists i, f. split; [exact E'|]. split; [exact C|]. left. rewrite E in E'. injection E' as _ <-. unfold free_space. cbn [f_bl f_tr]. exact free_default.
  - exact HU.
  - exists s, fs. exact E.
Qed.

Section Shear.
Variables (Ns Nd : nat) (p0 : config) (osc : bool) (dt : R).
Hypothesis HN : (0 < Ns)%nat.
Notation rate := (shear_rate osc).
Notation still := (still_height osc).
Notation input p t := (input_ftsuoe (shear_input osc) fte Ns Nd p t dt).
Lemma sphere_in_shear p q t i f i' j l : input q t = Ok (i, f) -> (j < Ns)%nat -> (l < 3)%nat ->
  drag_speed Ns Nd p0 p f i i' j l = v3 (rate (t * dt) * (c_spos p j 2%nat - still)) 0 0 l.
Proof.
  intros E Hj Hl. destruct (shear_all osc Ns Nd q t dt) as (Ot & Et & X). cbv zeta in X. rewrite E in X. apply ok_pair in X. destruct X as [-> ->].
  unfold drag_speed, drag_velocity, bead_force, beads_of. destruct (Nat.ltb_spec j Ns); [|lia].
  cbn [with_Ea with_DFb i_Ea i_Fa default_inputs f_U f_O f_centre f_mu]. rewrite !zero_loads.
  unfold linear_flow, mvec, rsum, cross, vsub. rewrite !strain_all by (assumption || lia). unfold Rdiv. idx3 Hl; cbn [v3 literal_xz]; ring || lra.
Qed.
(** Beads, in the flow of one time with the strain of another. *)
Lemma beads_in_shear p q q' t t' i f i' f' j l : input q t = Ok (i, f) -> input q' t' = Ok (i', f') -> (j < Nd)%nat -> 0 < c_dsizes p0 j -> (l < 3)%nat ->
  let V := drag_speed Ns Nd p0 p f i i' in
  (V (Ns + j)%nat l + V (Ns + Nd + j)%nat l) / 2 =
    v3 ((rate (t * dt) + rate (t' * dt)) / 2 * (c_dpos p j 2%nat - still)) 0 ((rate (t' * dt) - rate (t * dt)) / 2 * (c_dpos p j 0%nat - still)) l /\
  V (Ns + Nd + j)%nat l - V (Ns + j)%nat l = spring osc (c_ddx q j) l / c_dsizes p0 j +
    v3 ((rate (t * dt) + rate (t' * dt)) / 2 * c_ddx p j 2%nat) 0 ((rate (t' * dt) - rate (t * dt)) / 2 * c_ddx p j 0%nat) l.
Proof.
  intros E E' Hj Hp Hl V. destruct (shear_all osc Ns Nd q t dt) as (Ot & Et & X). destruct (shear_all osc Ns Nd q' t' dt) as (Ot' & Et' & X').
  cbv zeta in X, X'. rewrite E in X. rewrite E' in X'. apply ok_pair in X. destruct X as [-> ->]. apply ok_pair in X'. destruct X' as [-> ->].
  unfold V, drag_speed, drag_velocity, bead_force, radii_of. rewrite first_bead, second_bead by exact Hj.
  destruct (Nat.ltb_spec (Ns + j) Ns); [lia|]. destruct (Nat.ltb_spec (Ns + Nd + j) Ns); [lia|].
  destruct (Nat.ltb_spec (Ns + j) (Ns + Nd)); [|lia]. destruct (Nat.ltb_spec (Ns + Nd + j) (Ns + Nd)); [lia|].
  replace (Ns + j - Ns)%nat with j by lia. replace (Ns + Nd + j - Ns - Nd)%nat with j by lia.
  cbn [with_Ea with_DFb i_Ea i_Fa i_Fb i_DFb default_inputs f_U f_O f_centre f_mu]. rewrite !zero_loads, !spring_loads by assumption.
  unfold linear_flow, mvec, rsum, cross, vsub, bead_minus, bead_plus. rewrite !strain_all by (assumption || lia).
  idx3 Hl; cbn [v3 literal_xz]; split; field; apply Rgt_not_eq, Hp.
Qed.
Lemma turn_in_shear q t i f j l : input q t = Ok (i, f) -> (l < 3)%nat -> drag_turn p0 f i j l = v3 0 (rate (t * dt) / 2) 0 l.
Proof.
  intros E Hl. destruct (shear_all osc Ns Nd q t dt) as (Ot & Et & X). cbv zeta in X. rewrite E in X. apply ok_pair in X. destruct X as [-> ->].
  unfold drag_turn, drag_spin. cbn [with_Ea with_DFb i_Ta default_inputs f_O f_mu]. rewrite zero_loads. unfold Rdiv. idx3 Hl; cbn [v3]; ring || lra.
Qed.
Lemma stresslet_in_shear q t i f j k l : input q t = Ok (i, f) -> (j < Ns)%nat -> (k < 3)%nat -> (l < 3)%nat ->
  drag_stresslet p0 (f_mu f) i j k l = if ((Nat.eqb k 0 && Nat.eqb l 2) || (Nat.eqb k 2 && Nat.eqb l 0))%bool then 5 / 9 * c_ssizes p0 j ^ 3 * rate (t * dt) else 0.
Proof.
  intros E Hj Hk Hl. destruct (shear_all osc Ns Nd q t dt) as (Ot & Et & X). cbv zeta in X. rewrite E in X. apply ok_pair in X. destruct X as [-> ->].
  unfold drag_stresslet. cbn [with_Ea i_Ea f_mu]. rewrite strain_all by assumption. idx3 Hk; idx3 Hl; cbn [literal_xz Nat.eqb andb orb]; field.
Qed.
Lemma centre_mean p j : (j < Nd)%nat -> forall l, centre_of Ns p (Ns + j) l = (beads_of Ns Nd p (Ns + j) l + beads_of Ns Nd p (Ns + Nd + j) l) / 2 /\
  c_ddx p j l = beads_of Ns Nd p (Ns + Nd + j) l - beads_of Ns Nd p (Ns + j) l.
Proof.
  intros Hj l. unfold centre_of. destruct (Nat.ltb_spec (Ns + j) Ns); [lia|]. rewrite first_bead, second_bead by exact Hj.
  replace (Ns + j - Ns)%nat with j by lia. unfold bead_minus, bead_plus. split; field.
Qed.
End Shear.

(** Adding up the steps of a shear with rates [u]. *)
Lemma sheared (x : nat -> vec) dt h u N : (forall m l, (m < N)%nat -> (l < 3)%nat -> x (S m) l = x m l + dt * v3 (u m * (x m 2%nat - h)) 0 0 l) ->
  forall m l, (m <= N)%nat -> (l < 3)%nat -> x m l = v3 (x 0%nat 0%nat + dt * rsum m u * (x 0%nat 2%nat - h)) (x 0%nat 1%nat) (x 0%nat 2%nat) l.
Proof.
  intros S. induction m as [|m IH]; intros l Hm Hl.
  - cbn [rsum]. idx3 Hl; cbn [v3]; ring.
  - rewrite S by lia. rewrite (IH l) by lia. pose proof (IH 2%nat ltac:(lia) ltac:(lia)) as Z. cbn [v3] in Z. rewrite Z. cbn [rsum]. idx3 Hl; cbn [v3]; ring.
Qed.
Lemma turned (x : nat -> vec) dt u N : (forall m, (m < N)%nat -> (exists l, (l < 3)%nat /\ x m l <> 0) -> forall l, (l < 3)%nat -> x (S m) l = turned_y (u m / 2 * dt) (x m) l) ->
  (exists l, (l < 3)%nat /\ x 0%nat l <> 0) ->
  forall m l, (m <= N)%nat -> (l < 3)%nat -> x m l = turned_y (dt * rsum m u / 2) (x 0%nat) l.
Proof.
  intros S NZ. induction m as [|m IH]; intros l Hm Hl.
  - cbn [rsum]. replace (dt * 0 / 2) with 0 by field. rewrite turned_y_zero by exact Hl. reflexivity.
  - assert (IR : forall l, (l < 3)%nat -> x m l = turned_y (dt * rsum m u / 2) (x 0%nat) l) by (intros; apply IH; lia).
    rewrite S by (lia || (destruct (turned_y_nonzero (dt * rsum m u / 2) _ NZ) as (c & Hc & Q); exists c; split; [exact Hc|]; rewrite <- (IR c Hc) in Q; exact Q)).
    rewrite (turned_y_ext _ _ _ l IR), turned_y_add by exact Hl. f_equal. cbn [rsum]. field.
Qed.

(** Spheres and dumbbells of any number, sizes and places in the constant and the
    oscillating shear, with Euler's steps (or, with spheres only, those of Adams
    and Bashforth): the run completes, all centres move along the flow, the
    spheres turn with half the shear, and every dumbbell stretches as the spring
    and the flow make it, whatever the others do. *)
Theorem C101_shear :
  forall inv inv3 solve sc table h stale Ns Nd bb cutoff_factor g oscillating p0,
    let N := g_num_frames g in
    let dt := g_dt g in
    let rate := shear_rate oscillating in
    inverts_posdef inv -> solves_posdef solve -> solves_shape solve -> (0 < Ns)%nat ->
    usable g Nd -> g_scheme g <> rk4 -> g_explosion g = false -> g_use_drag g = true -> no_box_g g ->
    (forall j, (j < Ns)%nat -> 0 < c_ssizes p0 j) -> (forall j, (j < Nd)%nat -> 0 < c_dsizes p0 j) ->
    exists s fs, full_simulation inv inv3 solve sc table h stale Ns Nd fte false bb true cutoff_factor g
        (fun p t => input_ftsuoe (shear_input oscillating) fte Ns Nd p t dt) p0 = Ok (Some (s, fs)) /\
      exists (pos : nat -> config) (frc : nat -> fsnapshot),
        pos 0%nat = p0 /\
        (forall m, (m <= N)%nat ->
           let strain := strain_summed g rate m in
           (forall j l, (j < Ns + Nd)%nat -> (l < 3)%nat -> let x := centre_of Ns p0 j in
              centre_of Ns (pos m) j l = v3 (x 0%nat + strain * (x 2%nat - still_height oscillating)) (x 1%nat) (x 2%nat) l) /\
           forall j k, (j < Ns)%nat -> inverts inv3 -> (exists l, (l < 3)%nat /\ arm p0 j k l <> 0) ->
             forall l, (l < 3)%nat -> arm (pos m) j k l = turned_y (strain / 2) (arm p0 j k) l) /\
        (forall m, (m < N)%nat ->
           (forall j l, (j < Nd)%nat -> (l < 3)%nat ->
              let dx := c_ddx (pos m) j in
              c_ddx (pos (S m)) j l = dx l + dt * (spring oscillating dx l / c_dsizes p0 j + v3 (rate (INR m * dt) * dx 2%nat) 0 0 l) /\
              n_Fb (frc m) j l = 0 /\ n_DFb (frc m) j l = spring oscillating dx l) /\
           (forall j l, (j < Ns)%nat -> n_Fa (frc m) j l = 0) /\
           forall j k l, (j < Ns)%nat -> (k < 3)%nat -> (l < 3)%nat -> n_Sa (frc m) j k l =
             if ((Nat.eqb k 0 && Nat.eqb l 2) || (Nat.eqb k 2 && Nat.eqb l 0))%bool then 5 / 9 * c_ssizes p0 j ^ 3 * rate (INR m * dt) else 0) /\
        s = map (fun m => snap Ns (pos m)) (due_frames (g_save_pos g) 0 N) ++ (if save_due (g_save_pos g) 0 (N - 1) then [snap Ns (pos N)] else []) /\
        fs = map frc (due_frames (g_save_forces g) 0 N).
Proof.
  intros inv inv3 solve sc table h stale Ns Nd bb cf g osc p0 N dt rate Hi Hs Hsh HN HU Hr He Hd Hb HRs HRd.
  destruct (shear_completes inv inv3 solve sc table h stale Ns Nd bb cf g dt osc p0 Hsh HN HU) as (s & fs & E). exists s, fs. split; [exact E|].
  pose proof HU as (SC & U1 & U2 & U3 & U4 & U5 & U6 & U7).
  assert (Hsch : g_scheme g = euler \/ (g_scheme g = ab2 /\ Nd = 0%nat)) by (destruct SC as [C|[C|[C ND]]]; [left; exact C|contradiction|right; split; assumption]).
  assert (M0 : forall e, (0 < e)%nat -> (g_save_after g mod e = 0)%nat) by (intros e Hp; rewrite U7; apply Nat.mod_0_l; lia).
  destruct (C101_euler inv inv3 solve sc table h stale Ns Nd bb cf g _ p0 s fs Hi Hs HN He Hd U2 Hb U5 U6 (M0 _ U5) (M0 _ U6) (shear_posed osc Ns Nd dt HN) HRs HRd E Hsch)
    as (pos & inp & fl & frc & P0 & PI & PC & PF & PS & PFS).
  rewrite U7 in PS, PFS. exists pos, frc. split; [exact P0|].
  set (u := fun k => if match g_scheme g with euler => true | _ => Nat.eqb k 0 end then rate (INR k * dt) else 3 / 2 * rate (INR k * dt) - 1 / 2 * rate (INR (k - 1) * dt)).
  assert (SPH : forall j m l, (j < Ns)%nat -> (m < N)%nat -> (l < 3)%nat -> planar Ns g j l (drag_speed Ns Nd p0 (pos m) (fl m) (inp m) (inp m) j l) = v3 (rate (INR m * dt) * (c_spos (pos m) j 2%nat - still_height osc)) 0 0 l).
  { intros j m l Hj Hm Hl. rewrite (sphere_in_shear Ns Nd p0 osc dt HN (pos m) (pos m) (INR m) _ _ _ j l (PI m Hm) Hj Hl).
    unfold planar. destruct (_ && _ && _)%bool eqn:B; [|reflexivity]. apply andb_prop in B. destruct B as [B _]. apply andb_prop in B. destruct B as [_ B].
    apply Nat.eqb_eq in B. subst l. reflexivity. }
  split; [|split; [|split; [exact PS|exact PFS]]].
  - intros m Hm strain. split.
    + intros j l Hj Hl x. unfold x. rewrite <- P0. unfold strain.
      refine (sheared (fun m => centre_of Ns (pos m) j) dt (still_height osc) u N _ m l Hm Hl).
      clear m Hm strain l Hl x. intros m l Hm Hl. destruct (PC m Hm) as [CB _].
      destruct (Nat.lt_ge_cases j Ns) as [Hjs|Hjs].
      * unfold centre_of. destruct (Nat.ltb_spec j Ns); [|lia]. specialize (CB j l ltac:(lia) Hl). unfold beads_of in CB. destruct (Nat.ltb_spec j Ns); [|lia].
        rewrite CB. f_equal. f_equal. unfold u. rewrite SPH by assumption.
        destruct (match g_scheme g with euler => true | _ => Nat.eqb m 0 end) eqn:EF; [reflexivity|].
        assert (M1 : (0 < m)%nat). { destruct Hsch as [C|[C _]]; rewrite C in EF; [discriminate|]. apply Nat.eqb_neq in EF. lia. }
        rewrite SPH by (assumption || lia).
        assert (Z : c_spos (pos m) j 2%nat = c_spos (pos (m - 1)%nat) j 2%nat).
        { destruct (PC (m - 1)%nat ltac:(lia)) as [CB' _]. specialize (CB' j 2%nat ltac:(lia) ltac:(lia)). cbv beta zeta in CB'.
          replace (S (m - 1)) with m in CB' by lia. unfold beads_of in CB'. destruct (Nat.ltb_spec j Ns); [|lia]. rewrite CB'.
          rewrite SPH by (assumption || lia). destruct (match g_scheme g with euler => true | _ => Nat.eqb (m - 1) 0 end) eqn:EF'; [cbn [v3]; ring|].
          assert (M2 : (0 < m - 1)%nat). { destruct Hsch as [C|[C _]]; rewrite C in EF'; [discriminate|]. apply Nat.eqb_neq in EF'. lia. }
          rewrite SPH by (assumption || lia). cbn [v3]. ring. }
        rewrite <- Z. idx3 Hl; cbn [v3]; ring.
      * assert (Esch : g_scheme g = euler) by (destruct Hsch as [C|[_ C]]; [exact C|lia]).
        replace j with (Ns + (j - Ns))%nat by lia. set (k := (j - Ns)%nat). assert (Hk : (k < Nd)%nat) by lia.
        destruct (centre_mean Ns Nd HN (pos (S m)) k Hk l) as [-> _]. destruct (centre_mean Ns Nd HN (pos m) k Hk l) as [-> _]. destruct (centre_mean Ns Nd HN (pos m) k Hk 2%nat) as [CZ _].
        rewrite !CB by lia. rewrite Esch. unfold u. rewrite Esch. cbv iota. unfold planar. destruct (Nat.ltb_spec (Ns + k) Ns); [lia|]. destruct (Nat.ltb_spec (Ns + Nd + k) Ns); [lia|]. rewrite !andb_false_r.
        destruct (beads_in_shear Ns Nd p0 osc dt HN (pos m) (pos m) (pos m) (INR m) (INR m) _ _ _ _ k l (PI m Hm) (PI m Hm) Hk (HRd k Hk) Hl) as [BM _].
        unfold centre_of. destruct (Nat.ltb_spec (Ns + k) Ns); [lia|]. replace (Ns + k - Ns)%nat with k by lia.
        set (v := v3 (rate (INR m * dt) * (c_dpos (pos m) k 2%nat - still_height osc)) 0 0 l).
        assert (BM' : v = (drag_speed Ns Nd p0 (pos m) (fl m) (inp m) (inp m) (Ns + k)%nat l + drag_speed Ns Nd p0 (pos m) (fl m) (inp m) (inp m) (Ns + Nd + k)%nat l) / 2).
        { rewrite BM. unfold v. fold rate. idx3 Hl; cbn [v3]; field. }
        rewrite BM'. fold dt. field.
    + intros j k Hj Hin NZ l Hl. unfold strain. rewrite <- P0 in NZ |- *.
      refine (turned (fun m => arm (pos m) j k) dt u N _ NZ m l Hm Hl).
      clear m Hm strain l Hl. intros m Hm NZm l Hl. destruct (PC m Hm) as [_ CT]. rewrite (CT j k Hj Hin NZm l Hl).
      assert (W : forall n c, (n < N)%nat -> (c < 3)%nat -> drag_turn p0 (fl n) (inp n) j c = v3 0 (rate (INR n * dt) / 2) 0 c) by (intros n c Hn Hc; exact (turn_in_shear Ns Nd p0 osc dt (pos n) (INR n) _ _ j c (PI n Hn) Hc)).
      assert (W' : forall c, (c < 3)%nat -> (if match g_scheme g with euler => true | _ => Nat.eqb m 0 end then drag_turn p0 (fl m) (inp m) j c else 3 / 2 * drag_turn p0 (fl m) (inp m) j c - 1 / 2 * drag_turn p0 (fl (m - 1)%nat) (inp (m - 1)%nat) j c) = v3 0 (u m / 2) 0 c).
      { intros c Hc. unfold u. rewrite !W by (assumption || lia). destruct (match g_scheme g with euler => true | _ => Nat.eqb m 0 end); idx3 Hc; cbn [v3]; field || ring. }
      apply rodrigues_y; [apply (W' 0%nat); lia|apply (W' 1%nat); lia|apply (W' 2%nat); lia|exact Hl].
  - intros m Hm. destruct (PF m Hm) as (FA & FS & FB). destruct (shear_all osc Ns Nd (pos m) (INR m) dt) as (Ot & Et & X). cbv zeta in X. rewrite (PI m Hm) in X. apply ok_pair in X. destruct X as [XI XF].
    split; [|split].
    + intros j l Hj Hl dx. destruct (FB j l Hj) as [-> ->]. rewrite XI. cbn [with_Ea with_DFb i_Fb i_DFb default_inputs]. rewrite zero_loads, spring_loads by assumption.
      split; [|split; reflexivity].
      assert (Esch : g_scheme g = euler) by (destruct Hsch as [C|[_ C]]; [exact C|lia]).
      destruct (PC m Hm) as [CB _]. cbv zeta in CB. rewrite Esch in CB.
      unfold dx. destruct (centre_mean Ns Nd HN (pos (S m)) j Hj l) as [_ ->]. rewrite !CB by lia.
      unfold planar. destruct (Nat.ltb_spec (Ns + j) Ns); [lia|]. destruct (Nat.ltb_spec (Ns + Nd + j) Ns); [lia|]. rewrite !andb_false_r.
      destruct (beads_in_shear Ns Nd p0 osc dt HN (pos m) (pos m) (pos m) (INR m) (INR m) _ _ _ _ j l (PI m Hm) (PI m Hm) Hj (HRd j Hj) Hl) as [_ BD].
      destruct (centre_mean Ns Nd HN (pos m) j Hj l) as [_ CD]. rewrite CD at 1. fold dt.
      assert (BD' : spring osc (c_ddx (pos m) j) l / c_dsizes p0 j + v3 (rate (INR m * dt) * c_ddx (pos m) j 2%nat) 0 0 l =
        drag_speed Ns Nd p0 (pos m) (fl m) (inp m) (inp m) (Ns + Nd + j)%nat l - drag_speed Ns Nd p0 (pos m) (fl m) (inp m) (inp m) (Ns + j)%nat l).
      { rewrite BD. f_equal. fold rate. idx3 Hl; cbn [v3]; field. }
      rewrite BD'. ring.
    + intros j l Hj. rewrite FA by exact Hj. rewrite XI. apply zero_loads.
    + intros j k l Hj Hk Hl. rewrite FS by assumption. exact (stresslet_in_shear Ns Nd p0 osc dt (pos m) (INR m) _ _ j k l (PI m Hm) Hj Hk Hl).
Qed.
Print Assumptions C101_shear.

(** The same with Runge-Kutta steps.  Spheres keep to the flow, with the strain
    of Simpson's rule; so do dumbbells in the constant shear.  In the oscillating
    shear dumbbells move differently: the half step's flow is turned into
    velocities with the strain of the step's start (run_simulation.py 416). *)
Theorem C101_shear_rk4 :
  forall inv inv3 solve sc table h stale Ns Nd bb cutoff_factor g oscillating p0,
    let N := g_num_frames g in
    let dt := g_dt g in
    let rate := shear_rate oscillating in
    let still := still_height oscillating in
    inverts_posdef inv -> solves_posdef solve -> solves_shape solve -> (0 < Ns)%nat ->
    usable g Nd -> g_scheme g = rk4 -> g_explosion g = false -> g_use_drag g = true -> no_box_g g ->
    (forall j, (j < Ns)%nat -> 0 < c_ssizes p0 j) -> (forall j, (j < Nd)%nat -> 0 < c_dsizes p0 j) ->
    exists s fs, full_simulation inv inv3 solve sc table h stale Ns Nd fte false bb true cutoff_factor g
        (fun p t => input_ftsuoe (shear_input oscillating) fte Ns Nd p t dt) p0 = Ok (Some (s, fs)) /\
      exists (pos : nat -> config) (frc : nat -> fsnapshot),
        pos 0%nat = p0 /\
        (forall m, (m <= N)%nat ->
           let strain := strain_simpson dt rate m in
           (forall j l, (j < Ns \/ (j < Ns + Nd /\ oscillating = false))%nat -> (l < 3)%nat -> let x := centre_of Ns p0 j in
              centre_of Ns (pos m) j l = v3 (x 0%nat + strain * (x 2%nat - still)) (x 1%nat) (x 2%nat) l) /\
           forall j k, (j < Ns)%nat -> inverts inv3 -> (exists l, (l < 3)%nat /\ arm p0 j k l <> 0) ->
             forall l, (l < 3)%nat -> arm (pos m) j k l = turned_y (strain / 2) (arm p0 j k) l) /\
        (forall m, (m < N)%nat ->
           (forall j l, (j < Nd)%nat -> (l < 3)%nat ->
              let x := c_dpos (pos m) j in
              let c := half_step_change dt rate m / 6 in
              c_dpos (pos (S m)) j l = x l + dt * v3 ((simpson_rate dt rate m + c) * (x 2%nat - still)) 0 (c * (x 0%nat - still)) l /\
              n_Fb (frc m) j l = 0) /\
           (forall j l, (j < Ns)%nat -> n_Fa (frc m) j l = 0) /\
           forall j k l, (j < Ns)%nat -> (k < 3)%nat -> (l < 3)%nat -> n_Sa (frc m) j k l =
             if ((Nat.eqb k 0 && Nat.eqb l 2) || (Nat.eqb k 2 && Nat.eqb l 0))%bool then 5 / 9 * c_ssizes p0 j ^ 3 * simpson_rate dt rate m else 0) /\
        s = map (fun m => snap Ns (pos m)) (due_frames (g_save_pos g) 0 N) ++ (if save_due (g_save_pos g) 0 (N - 1) then [snap Ns (pos N)] else []) /\
        fs = map frc (due_frames (g_save_forces g) 0 N).
Proof.
  intros inv inv3 solve sc table h stale Ns Nd bb cf g osc p0 N dt rate still Hi Hs Hsh HN HU Hsch He Hd Hb HRs HRd.
  destruct (shear_completes inv inv3 solve sc table h stale Ns Nd bb cf g dt osc p0 Hsh HN HU) as (s & fs & E). exists s, fs. split; [exact E|].
  pose proof HU as (SC & U1 & U2 & U3 & U4 & U5 & U6 & U7).
  assert (M0 : forall e, (0 < e)%nat -> (g_save_after g mod e = 0)%nat) by (intros e Hp; rewrite U7; apply Nat.mod_0_l; lia).
  destruct (C101_rk4 inv inv3 solve sc table h stale Ns Nd bb cf g _ p0 s fs Hi Hs HN He Hd U2 Hb U5 U6 (M0 _ U5) (M0 _ U6) (shear_posed osc Ns Nd dt HN) HRs HRd E Hsch)
    as (pos & q & inp & fl & frc & P0 & PC & PF & PS & PFS).
  rewrite U7 in PS, PFS. exists pos, frc. split; [exact P0|].
  set (u := simpson_rate dt rate).
  assert (MR : forall m, mean4 (fun k => rate (stage_time m k * dt)) = u m).
  { intros m. unfold mean4, u, simpson_rate, stage_time. cbn [INR]. unfold Rdiv.
    repeat match goal with |- context [rate ?x] => let y := fresh "r" in set (y := rate x) end. ring. }
  assert (ST : forall m, (m < N)%nat -> forall k, (k < 4)%nat -> input_ftsuoe (shear_input osc) fte Ns Nd (q m k) (stage_time m k) dt = Ok (inp m k, fl m k)) by (intros m Hm; destruct (PC m Hm) as [P _]; exact P).
  assert (D : forall m j l, (m < N)%nat -> (j < Nd)%nat -> (l < 3)%nat ->
    c_dpos (pos (S m)) j l = c_dpos (pos m) j l + dt * v3 ((u m + half_step_change dt rate m / 6) * (c_dpos (pos m) j 2%nat - still)) 0 (half_step_change dt rate m / 6 * (c_dpos (pos m) j 0%nat - still)) l).
  { intros m j l Hm Hj Hl. destruct (PC m Hm) as (_ & _ & _ & CB & _).
    destruct (centre_mean Ns Nd HN (pos (S m)) j Hj l) as [CS _]. destruct (centre_mean Ns Nd HN (pos m) j Hj l) as [C0 _].
    unfold centre_of in CS, C0. destruct (Nat.ltb_spec (Ns + j) Ns) as [L|L]; [lia|]. replace (Ns + j - Ns)%nat with j in CS, C0 by lia.
    rewrite CS, !CB by lia. rewrite C0. clear CS C0.
    unfold planar. destruct (Nat.ltb_spec (Ns + j) Ns); [lia|]. destruct (Nat.ltb_spec (Ns + Nd + j) Ns); [lia|]. rewrite !andb_false_r.
    assert (B : forall k, (k < 4)%nat -> (drag_speed Ns Nd p0 (pos m) (fl m k) (inp m k) (inp m (strain_stage k)) (Ns + j)%nat l + drag_speed Ns Nd p0 (pos m) (fl m k) (inp m k) (inp m (strain_stage k)) (Ns + Nd + j)%nat l) / 2 =
      v3 ((rate (stage_time m k * dt) + rate (stage_time m (strain_stage k) * dt)) / 2 * (c_dpos (pos m) j 2%nat - still)) 0 ((rate (stage_time m (strain_stage k) * dt) - rate (stage_time m k * dt)) / 2 * (c_dpos (pos m) j 0%nat - still)) l).
    { intros k Hk. assert (Hk' : (strain_stage k < 4)%nat) by (unfold strain_stage; destruct k as [|[|[|[|k]]]]; cbn; lia).
      destruct (beads_in_shear Ns Nd p0 osc dt HN (pos m) (q m k) (q m (strain_stage k)) _ _ _ _ _ _ j l (ST m Hm k Hk) (ST m Hm _ Hk') Hj (HRd j Hj) Hl) as [BM _]. exact BM. }
    pose proof (B 0%nat ltac:(lia)) as B0. pose proof (B 1%nat ltac:(lia)) as B1. pose proof (B 2%nat ltac:(lia)) as B2. pose proof (B 3%nat ltac:(lia)) as B3. clear B.
    unfold mean4, u, simpson_rate, half_step_change. unfold strain_stage, stage_time in B0, B1, B2, B3 |- *. cbn [Nat.eqb] in B0, B1, B2, B3 |- *.
    unfold half_step_change. idx3 Hl; cbn [v3] in B0, B1, B2, B3 |- *; fold dt; nra. }
  split; [|split; [|split; [exact PS|exact PFS]]].
  - intros m Hm strain. split.
    + intros j l Hj Hl x. unfold x. rewrite <- P0. unfold strain.
      refine (sheared (fun m => centre_of Ns (pos m) j) dt still u N _ m l Hm Hl).
      clear m Hm strain l Hl x. intros m l Hm Hl. unfold centre_of. destruct (Nat.ltb_spec j Ns) as [L|L].
      * destruct (PC m Hm) as (_ & _ & _ & CB & _). specialize (CB j l ltac:(lia) Hl). unfold beads_of in CB. destruct (Nat.ltb_spec j Ns); [|lia]. rewrite CB.
        f_equal. f_equal. rewrite <- MR. unfold mean4. rewrite !(fun k Hk => sphere_in_shear Ns Nd p0 osc dt HN (pos m) (q m k) (stage_time m k) _ _ _ j l (ST m Hm k Hk) L Hl) by lia.
        fold rate. fold still. unfold planar. destruct (_ && _ && _)%bool eqn:B; [|idx3 Hl; cbn [v3]; field].
        apply andb_prop in B. destruct B as [B _]. apply andb_prop in B. destruct B as [_ B]. apply Nat.eqb_eq in B. subst l. reflexivity.
      * destruct Hj as [Hj|[Hj Ho]]; [lia|]. rewrite D by (assumption || lia).
        assert (Z : half_step_change dt rate m = 0) by (unfold half_step_change, rate, shear_rate; rewrite Ho; ring). rewrite Z.
        idx3 Hl; cbn [v3]; unfold Rdiv; ring.
    + intros j k Hj Hin NZ l Hl. unfold strain. rewrite <- P0 in NZ |- *.
      refine (turned (fun m => arm (pos m) j k) dt u N _ NZ m l Hm Hl).
      clear m Hm strain l Hl. intros m Hm NZm l Hl. destruct (PC m Hm) as (_ & _ & _ & _ & CT). rewrite (CT j k Hj Hin NZm l Hl).
      assert (W : forall c, (c < 3)%nat -> mean4 (fun r => drag_turn p0 (fl m r) (inp m r) j c) = v3 0 (u m / 2) 0 c).
      { intros c Hc. rewrite <- MR. unfold mean4. rewrite !(fun k Hk => turn_in_shear Ns Nd p0 osc dt (q m k) (stage_time m k) _ _ j c (ST m Hm k Hk) Hc) by lia.
        fold rate. idx3 Hc; cbn [v3]; field. }
      apply rodrigues_y; [apply (W 0%nat); lia|apply (W 1%nat); lia|apply (W 2%nat); lia|exact Hl].
  - intros m Hm. destruct (PF m Hm) as (FA & FS & FB).
    assert (LD : forall k, (k < 4)%nat -> (forall j l, load (i_Fa (inp m k)) j l = 0) /\ forall j l, load (i_Fb (inp m k)) j l = 0).
    { intros k Hk. destruct (shear_all osc Ns Nd (q m k) (stage_time m k) dt) as (Ot & Et & X). cbv zeta in X. rewrite (ST m Hm k Hk) in X. apply ok_pair in X. destruct X as [-> _].
      split; intros j l; apply zero_loads. }
    split; [|split].
    + intros j l Hj Hl x c. split; [apply D; assumption|]. destruct (FB j l Hj) as [-> _]. unfold mean4. rewrite !(fun k Hk => proj2 (LD k Hk)) by lia. ring.
    + intros j l Hj. rewrite FA by exact Hj. unfold mean4. rewrite !(fun k Hk => proj1 (LD k Hk)) by lia. ring.
    + intros j k l Hj Hk Hl. rewrite FS by assumption. fold u. rewrite <- MR. unfold mean4.
      rewrite !(fun r Hr => stresslet_in_shear Ns Nd p0 osc dt (q m r) (stage_time m r) _ _ j k l (ST m Hm r Hr) Hj Hk Hl) by lia.
      fold rate. destruct (_ || _)%bool; field.
Qed.
Print Assumptions C101_shear_rk4.

(** Finding: in the oscillating shear flow, which is along x everywhere and always,
    a dumbbell that is not straight above or below the origin of the flow leaves
    its height already in the first Runge-Kutta step. *)
Theorem C101_crossing_refuted :
  forall inv inv3 solve sc table h stale Ns Nd bb cutoff_factor g p0 j,
    let dt := g_dt g in
    inverts_posdef inv -> solves_posdef solve -> solves_shape solve -> (0 < Ns)%nat -> (j < Nd)%nat ->
    usable g Nd -> g_scheme g = rk4 -> g_explosion g = false -> g_use_drag g = true -> no_box_g g -> g_save_pos g = 1%nat ->
    (forall j, (j < Ns)%nat -> 0 < c_ssizes p0 j) -> (forall j, (j < Nd)%nat -> 0 < c_dsizes p0 j) ->
    0 < dt < 10 -> c_dpos p0 j 0%nat <> 9 / 4 ->
    exists a b s fs, full_simulation inv inv3 solve sc table h stale Ns Nd fte false bb true cutoff_factor g
        (fun p t => input_ftsuoe 3 fte Ns Nd p t dt) p0 = Ok (Some (a :: b :: s, fs)) /\
      n_pos b (Ns + j)%nat 2%nat = n_pos a (Ns + j)%nat 2%nat + PI * dt / 90 * (1 - cos (PI * dt / 10)) * (c_dpos p0 j 0%nat - 9 / 4) /\
      n_pos b (Ns + j)%nat 2%nat <> n_pos a (Ns + j)%nat 2%nat.
Proof.
  intros inv inv3 solve sc table h stale Ns Nd bb cf g p0 j dt Hi Hs Hsh HN Hj HU Hsch He Hd Hb HS HRs HRd Hdt Hx.
  destruct (C101_shear_rk4 inv inv3 solve sc table h stale Ns Nd bb cf g true p0 Hi Hs Hsh HN HU Hsch He Hd Hb HRs HRd) as (s & fs & E & pos & frc & P0 & _ & PD & PS & _).
  pose proof HU as (_ & U1 & _). destruct (g_num_frames g) as [|n] eqn:EN; [lia|]. rewrite HS in PS.
  assert (SD : forall f, save_due 1 0 f = true) by (intros f; unfold save_due; rewrite Nat.mod_1_r; reflexivity).
  assert (DF : due_frames 1 0 (S n) = seq 0 (S n)).
  { unfold due_frames. generalize (seq 0 (S n)). intros l. induction l as [|a l IH]; [reflexivity|]. cbn [filter]. rewrite SD, IH. reflexivity. }
  rewrite DF, SD in PS. replace (S n - 1)%nat with n in PS by lia.
  assert (S2 : exists r, s = snap Ns (pos 0%nat) :: snap Ns (pos 1%nat) :: r) by (rewrite PS; cbn [seq map app]; destruct n as [|n]; cbn [seq map app]; eexists; reflexivity).
  destruct S2 as (r & S2). rewrite S2 in E. do 4 eexists. split; [exact E|].
  destruct (PD 0%nat ltac:(lia)) as (D & _). destruct (D j 2%nat Hj ltac:(lia)) as [D2 _]. cbv zeta in D2. cbn [v3] in D2. fold dt in D2.
  assert (C : half_step_change dt (shear_rate true) 0 / 6 = PI / 90 * (1 - cos (PI * dt / 10))).
  { unfold half_step_change, shear_rate. cbn [INR]. replace (2 * PI * (0 * dt) / 10) with 0 by field. rewrite cos_0.
    replace (2 * PI * ((0 + 1 / 2) * dt) / 10) with (PI * dt / 10) by field. field. }
  assert (NP : forall p, n_pos (snap Ns p) (Ns + j)%nat 2%nat = c_dpos p j 2%nat).
  { intros p. unfold snap. cbn [n_pos]. unfold append_rows. destruct (Nat.ltb_spec (Ns + j) Ns); [lia|]. replace (Ns + j - Ns)%nat with j by lia. reflexivity. }
  rewrite !NP, D2, P0, C. cbn [still_height]. split; [field|].
  assert (cos (PI * dt / 10) < 1).
  { rewrite <- cos_0. pose proof PI_RGT_0 as P. pose proof (Rmult_lt_0_compat PI dt P (proj1 Hdt)). pose proof (Rmult_lt_compat_l PI dt 10 P (proj2 Hdt)).
    apply cos_decreasing_1; lra. }
  assert (NZ : dt * (PI / 90 * (1 - cos (PI * dt / 10)) * (c_dpos p0 j 0%nat - 9 / 4)) <> 0).
  { pose proof PI_RGT_0. apply Rmult_integral_contrapositive_currified; [lra|]. apply Rmult_integral_contrapositive_currified; [apply Rmult_integral_contrapositive_currified|]; lra. }
  lra.
Qed.
Print Assumptions C101_crossing_refuted.

(** A sphere and a dumbbell, both at the same place of the flow (x = 0, z = 4):
    Euler keeps their heights, Runge-Kutta only that of the sphere. *)
Definition sphere_and_dumbbell : config :=
  mkConfig (fun _ => 1) (fun _ => v3 0 0 4) (fun _ k => if Nat.eqb k 0 then v3 0 0 5 else v3 1 0 4) (fun _ => 1 / 2) (fun _ => v3 0 10 4) (fun _ => v3 3 0 0).
Definition drag_settings (sch : scheme) : settings := mkSettings sch 1 8 0 1 true false false false (v3 0 0 0) (v3 0 0 0) 1 1 0 false 1.
Example C101_example sc :
  (exists s fs, full_simulation pinv Proof_Step.inv3 psolve sc [] 0 (fun _ _ => 0) 1 1 fte false true true 2 (drag_settings euler)
      (fun p t => input_ftsuoe 3 fte 1 1 p t 1) sphere_and_dumbbell = Ok (Some (s, fs)) /\
     forall x, nth_error s 8 = Some x -> n_pos x 0%nat 2%nat = 4 /\ n_pos x 1%nat 2%nat = 4) /\
  (exists a b s fs, full_simulation pinv Proof_Step.inv3 psolve sc [] 0 (fun _ _ => 0) 1 1 fte false true true 2 (drag_settings rk4)
      (fun p t => input_ftsuoe 3 fte 1 1 p t 1) sphere_and_dumbbell = Ok (Some (a :: b :: s, fs)) /\ n_pos b 1%nat 2%nat <> n_pos a 1%nat 2%nat).
Proof.
  assert (SH : solves_shape psolve) by (intros n A b _; unfold psolve; rewrite map_length, seq_length; reflexivity).
  assert (UE : usable (drag_settings euler) 1) by (repeat split; try (left; reflexivity); cbn; lia).
  assert (UR : usable (drag_settings rk4) 1) by (repeat split; try (right; left; reflexivity); cbn; lia).
  assert (R1 : forall j, (j < 1)%nat -> 0 < c_ssizes sphere_and_dumbbell j) by (intros; cbn; lra).
  assert (R2 : forall j, (j < 1)%nat -> 0 < c_dsizes sphere_and_dumbbell j) by (intros; cbn; lra).
  split.
  - destruct (C101_shear pinv Proof_Step.inv3 psolve sc [] 0 (fun _ _ => 0) 1 1 true 2 (drag_settings euler) true sphere_and_dumbbell pinv_ok psolve_ok SH
      ltac:(lia) UE ltac:(discriminate) eq_refl eq_refl ltac:(intros l Hl; reflexivity) R1 R2) as (s & fs & E & pos & frc & P0 & PM & _ & PS & _).
    exists s, fs. split; [exact E|]. intros x Hx. rewrite PS in Hx. cbn in Hx. injection Hx as <-.
    destruct (PM 8%nat ltac:(cbn; lia)) as [C _]. split.
    + exact (C 0%nat 2%nat ltac:(lia) ltac:(lia)).
    + exact (C 1%nat 2%nat ltac:(lia) ltac:(lia)).
  - destruct (C101_crossing_refuted pinv Proof_Step.inv3 psolve sc [] 0 (fun _ _ => 0) 1 1 true 2 (drag_settings rk4) sphere_and_dumbbell 0 pinv_ok psolve_ok SH
      ltac:(lia) ltac:(lia) UR eq_refl eq_refl eq_refl ltac:(intros l Hl; reflexivity) eq_refl R1 R2 ltac:(cbn; lra) ltac:(cbn; lra)) as (a & b & s & fs & E & _ & D).
    exists a, b, s, fs. split; [exact E|exact D].
Qed.
