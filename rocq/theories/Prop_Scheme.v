(** Properties C27 (time stepping schemes), C30 (orientations along a run) and
    C37 (stopping and resuming). *)
From Coq Require Import Reals List Arith Bool Lia Lra.
From Verif Require Import Base Py Model_Mob Model_Close Model_Step Model_Frame Spec_Frame Spec_Scheme Spec_Step
  Proof_Step Proof_Frame Proof_Frame3 Proof_Frame4 Proof_Frame5 Proof_Scheme Proof_Scheme2 Proof_Scheme3 Proof_Resume.
Import ListNotations.
Local Open Scope R_scope.

(** C27.  Velocities depending on time only: displacements over a run of [n]
    frames are the sums of the increments of the scheme (Spec_Scheme). *)
Theorem C27_increments :
  forall inv Ns Nd far rest g VU VB VD n st0 st,
    periodic g = false -> g_fully_2d g = false ->
    (forall p t v M s, rest p t v M = Ok s -> still s /\
       (forall i l, (i < Ns)%nat -> (l < 3)%nat -> o_Ua s i l = VU t i l) /\
       (forall i l, (i < Nd)%nat -> (l < 3)%nat -> o_Ub s i l = VB t i l) /\
       (forall i l, (i < Nd)%nat -> (l < 3)%nat -> o_HalfDUb s i l = VD t i l)) ->
    run_frames inv Ns Nd far rest g st0 (seq (g_start g) n) = Ok st -> s_error st = false ->
    let total V i l := rsum n (fun k => increment (g_scheme g) (g_start g) (fun t => V t i l) (g_start g + k)) in
    (forall i l, (i < Ns)%nat -> (l < 3)%nat -> c_spos (s_pos st) i l = c_spos (s_pos st0) i l + g_dt g * total VU i l) /\
    (forall i l, (i < Nd)%nat -> (l < 3)%nat -> c_dpos (s_pos st) i l = c_dpos (s_pos st0) i l + g_dt g * total VB i l) /\
    (forall i l, (i < Nd)%nat -> (l < 3)%nat -> c_ddx (s_pos st) i l = c_ddx (s_pos st0) i l + g_dt g * (2 * total VD i l)).
Proof.
  intros inv Ns Nd far rest g VU VB VD n st0 st Hp H2 Hr H He.
  exact (proj2 (run_total inv Ns Nd far rest g Hp H2 VU VB VD Hr n st0 st H He)).
Qed.
Print Assumptions C27_increments.

(** Constant velocity: every scheme is exact. *)
Theorem C27_constant :
  forall inv Ns Nd far rest g VU VB VD n st0 st,
    periodic g = false -> g_fully_2d g = false ->
    (forall p t v M s, rest p t v M = Ok s -> still s /\
       (forall i l, (i < Ns)%nat -> (l < 3)%nat -> o_Ua s i l = VU i l) /\
       (forall i l, (i < Nd)%nat -> (l < 3)%nat -> o_Ub s i l = VB i l) /\
       (forall i l, (i < Nd)%nat -> (l < 3)%nat -> o_HalfDUb s i l = VD i l)) ->
    run_frames inv Ns Nd far rest g st0 (seq (g_start g) n) = Ok st -> s_error st = false ->
    (forall i l, (i < Ns)%nat -> (l < 3)%nat -> c_spos (s_pos st) i l = c_spos (s_pos st0) i l + INR n * g_dt g * VU i l) /\
    (forall i l, (i < Nd)%nat -> (l < 3)%nat -> c_dpos (s_pos st) i l = c_dpos (s_pos st0) i l + INR n * g_dt g * VB i l) /\
    (forall i l, (i < Nd)%nat -> (l < 3)%nat -> c_ddx (s_pos st) i l = c_ddx (s_pos st0) i l + INR n * g_dt g * (2 * VD i l)).
Proof. exact run_constant. Qed.
Print Assumptions C27_constant.

(** RK4 is exact for velocities cubic in time (spheres and dumbbells). *)
Theorem C27_rk4_cubic :
  forall inv Ns Nd far rest g (aU bU cU dU aB bB cB dB : nat -> vec) n st0 st,
    periodic g = false -> g_fully_2d g = false -> g_scheme g = rk4 ->
    (forall p t v M s, rest p t v M = Ok s -> still s /\
       (forall i l, (i < Ns)%nat -> (l < 3)%nat -> o_Ua s i l = cubic (aU i l) (bU i l) (cU i l) (dU i l) t) /\
       (forall i l, (i < Nd)%nat -> (l < 3)%nat -> o_Ub s i l = cubic (aB i l) (bB i l) (cB i l) (dB i l) t) /\
       (forall i l, (i < Nd)%nat -> (l < 3)%nat -> o_HalfDUb s i l = 0)) ->
    run_frames inv Ns Nd far rest g st0 (seq (g_start g) n) = Ok st -> s_error st = false ->
    let t0 := INR (g_start g) in let t1 := INR (g_start g + n) in
    (forall i l, (i < Ns)%nat -> (l < 3)%nat -> c_spos (s_pos st) i l = c_spos (s_pos st0) i l +
       g_dt g * (antiderivative (aU i l) (bU i l) (cU i l) (dU i l) t1 - antiderivative (aU i l) (bU i l) (cU i l) (dU i l) t0)) /\
    (forall i l, (i < Nd)%nat -> (l < 3)%nat -> c_dpos (s_pos st) i l = c_dpos (s_pos st0) i l +
       g_dt g * (antiderivative (aB i l) (bB i l) (cB i l) (dB i l) t1 - antiderivative (aB i l) (bB i l) (cB i l) (dB i l) t0)).
Proof. exact run_cubic. Qed.
Print Assumptions C27_rk4_cubic.

(** AB2 (spheres): Euler in the first frame, then exact for velocities linear
    in time. *)
Theorem C27_ab2_linear :
  forall inv Ns Nd far rest g (a b : nat -> vec) n st0 st,
    periodic g = false -> g_fully_2d g = false -> g_scheme g = ab2 -> Nd = 0%nat ->
    (forall p t v M s, rest p t v M = Ok s -> still s /\
       (forall i l, (i < Ns)%nat -> (l < 3)%nat -> o_Ua s i l = cubic (a i l) (b i l) 0 0 t)) ->
    run_frames inv Ns Nd far rest g st0 (seq (g_start g) (S n)) = Ok st ->
    s_error st = false ->
    let t0 := INR (g_start g) in let t1 := INR (g_start g + S n) in
    forall i l, (i < Ns)%nat -> (l < 3)%nat -> c_spos (s_pos st) i l = c_spos (s_pos st0) i l +
      g_dt g * cubic (a i l) (b i l) 0 0 t0 +
      g_dt g * (antiderivative (a i l) (b i l) 0 0 t1 - antiderivative (a i l) (b i l) 0 0 (t0 + 1)).
Proof. exact run_linear. Qed.
Print Assumptions C27_ab2_linear.

(** The first frame of AB2 is the first frame of Euler. *)
Theorem C27_ab2_first :
  forall inv Ns Nd far rest g st, Nd = 0%nat ->
    generate_frame inv Ns Nd far rest (with_scheme g ab2) st (g_start g) =
    generate_frame inv Ns Nd far rest (with_scheme g euler) st (g_start g).
Proof. exact ab2_first. Qed.
Print Assumptions C27_ab2_first.

(** Without background flow, one frame of RK4 is the classical Runge-Kutta
    step for velocities depending on configuration and time. *)
Theorem C27_rk4_classical :
  forall inv Ns Nd far rest g FU FB FD f st st',
    periodic g = false -> g_fully_2d g = false -> g_scheme g = rk4 ->
    (forall p t v M s, rest p t v M = Ok s -> still s /\
       (forall i l, (i < Ns)%nat -> (l < 3)%nat -> o_Ua s i l = FU p t i l) /\
       (forall i l, (i < Nd)%nat -> (l < 3)%nat -> o_Ub s i l = FB p t i l) /\
       (forall i l, (i < Nd)%nat -> (l < 3)%nat -> o_HalfDUb s i l = FD p t i l)) ->
    s_error st = false -> generate_frame inv Ns Nd far rest g st f = Ok st' ->
    let moved p q h (U B D : nat -> vec) :=
      (forall i l, (i < Ns)%nat -> (l < 3)%nat -> c_spos q i l = c_spos p i l + h * U i l) /\
      (forall i l, (i < Nd)%nat -> (l < 3)%nat -> c_dpos q i l = c_dpos p i l + h * B i l) /\
      (forall i l, (i < Nd)%nat -> (l < 3)%nat -> c_ddx q i l = c_ddx p i l + h * (2 * D i l)) in
    let p := s_pos st in let t := INR f in let dt := g_dt g in
    exists p1 p2 p3,
      moved p p1 (dt / 2) (FU p t) (FB p t) (FD p t) /\
      moved p p2 (dt / 2) (FU p1 (t + 1 / 2)) (FB p1 (t + 1 / 2)) (FD p1 (t + 1 / 2)) /\
      moved p p3 dt (FU p2 (t + 1 / 2)) (FB p2 (t + 1 / 2)) (FD p2 (t + 1 / 2)) /\
      let mean (F : config -> R -> nat -> vec) : nat -> vec := fun i l =>
        (F p t i l + 2 * F p1 (t + 1 / 2) i l + 2 * F p2 (t + 1 / 2) i l + F p3 (t + 1) i l) / 6 in
      moved p (s_pos st') dt (mean FU) (mean FB) (mean FD).
Proof. exact frame_rk4. Qed.
Print Assumptions C27_rk4_classical.

(** Findings.  Force-free spheres in a steady linear background flow: one frame
    of RK4 is an Euler step, because the flow is evaluated at the positions at
    the start of the frame in all four stages. *)
Theorem C27_rk4_background :
  forall inv Ns Nd far rest g U W E c f st st' i l,
    periodic g = false -> g_fully_2d g = false -> g_scheme g = rk4 ->
    (forall p t v M s, rest p t v M = Ok s ->
       o_Uinf s = U /\ o_Oinf s = W /\ o_centre s = c /\ (forall E', In E' (o_Ea s) -> E' = E) /\
       (forall i l, (i < Ns)%nat -> (l < 3)%nat -> o_Ua s i l = 0)) ->
    s_error st = false -> generate_frame inv Ns Nd far rest g st f = Ok st' -> (i < Ns)%nat -> (l < 3)%nat ->
    c_spos (s_pos st') i l = c_spos (s_pos st) i l + g_dt g * linear_flow U W E c (c_spos (s_pos st) i) l.
Proof. exact frame_background. Qed.
Print Assumptions C27_rk4_background.

Theorem C27_rk4_background_refuted :
  exists st', generate_frame inv3 1 0 (fun _ _ => no_matrix) (fun _ _ _ _ => Ok (spin_solution (v3 0 0 1)))
      (ex_settings rk4 1 1 1 0) (fresh spin_config) 0 = Ok st' /\
    c_spos (s_pos st') 0%nat 0%nat = 1 /\
    classical_rk4 (linear_flow (v3 0 0 0) (v3 0 0 1) mzero (v3 0 0 0)) (c_spos spin_config 0%nat) 1 0%nat = 13 / 24.
Proof. exact spin_refuted. Qed.
Print Assumptions C27_rk4_background_refuted.

(** AB2 with dumbbells always raises. *)
Theorem C27_ab2_dumbbells_refuted :
  forall inv Ns Nd far rest g st f st',
    g_scheme g = ab2 -> (0 < Nd)%nat -> s_error st = false ->
    generate_frame inv Ns Nd far rest g st f <> Ok st'.
Proof. exact ab2_dumbbells. Qed.
Print Assumptions C27_ab2_dumbbells_refuted.

(** Instance: constant velocity (2, 0, 0), 3 frames, each scheme. *)
Example C27_example :
  forall sch, In sch [euler; ab2; rk4] ->
  exists st, run_frames (fun A => A) 1 0 (fun _ _ => no_matrix) (ex_rest (v3 2 0 0)) (ex_settings sch 5 1 1 0) (fresh ex_config) (seq 0 3) = Ok st /\
    c_spos (s_pos st) 0%nat 0%nat = 6.
Proof.
  intros sch Hsch.
  assert (Hok : is_ok (run_frames (fun A => A) 1 0 (fun _ _ => no_matrix) (ex_rest (v3 2 0 0)) (ex_settings sch 5 1 1 0) (fresh ex_config) (seq 0 3))
                      (fun st => negb (s_error st)) = true)
    by (destruct Hsch as [<-|[<-|[<-|[]]]]; lazy; reflexivity).
  apply is_ok_spec in Hok. destruct Hok as (st & H & He). exists st. split; [exact H|].
  destruct (C27_constant (fun A => A) 1 0 (fun _ _ => no_matrix) (ex_rest (v3 2 0 0)) (ex_settings sch 5 1 1 0) (fun _ => v3 2 0 0) (fun _ => v3 0 0 0) (fun _ => v3 0 0 0) 3 (fresh ex_config) st) as (C & _).
  - unfold periodic. cbn [g_box_bl g_box_tr ex_settings]. replace (is_zero3 _) with true; [reflexivity|].
    symmetry. apply zero3_spec. intros l Hl. unfold vsub. ring.
  - reflexivity.
  - intros p t v M s Hs. injection Hs as <-. split; [|split; [reflexivity|split; intros; lia]].
    split; [|split].
    + intros l Hl. destruct l as [|[|[|l]]]; [reflexivity|reflexivity|reflexivity|lia].
    + intros l Hl. destruct l as [|[|[|l]]]; [reflexivity|reflexivity|reflexivity|lia].
    + intros E [<-|[]] k l _ _. reflexivity.
  - exact H.
  - apply negb_true_iff; exact He.
  - rewrite C by lia. cbn [fresh s_pos ex_config c_spos g_dt ex_settings INR v3]. lra.
Qed.

(** C30.  Orientation points start at the radius along two axes; without a
    periodic box, or with RK4, they stay at the radius and perpendicular. *)
Theorem C30_attached :
  forall inv Ns Nd far rest g p0 l st i,
    inverts inv -> periodic g = false \/ g_scheme g = rk4 ->
    c_srot p0 = add_sphere_rotations (c_spos p0) (c_ssizes p0) (fun j => match j with 0%nat => v3 1 0 0 | _ => v3 0 0 1 end) ->
    0 < c_ssizes p0 i ->
    run_frames inv Ns Nd far rest g (fresh p0) l = Ok st ->
    (forall j, (j < 2)%nat -> norm (vsub (c_srot (s_pos st) i j) (c_spos (s_pos st) i)) = c_ssizes (s_pos st) i) /\
    dot3 (vsub (c_srot (s_pos st) i 0%nat) (c_spos (s_pos st) i)) (vsub (c_srot (s_pos st) i 1%nat) (c_spos (s_pos st) i)) = 0.
Proof. exact attached. Qed.
Print Assumptions C30_attached.

(** Any initial orientations: lengths and angle are kept. *)
Theorem C30_rigid :
  forall inv Ns Nd far rest g st l st' i,
    inverts inv -> periodic g = false \/ g_scheme g = rk4 ->
    run_frames inv Ns Nd far rest g st l = Ok st' ->
    (forall j, (j < 2)%nat -> exists l, (l < 3)%nat /\ c_srot (s_pos st) i j l <> c_spos (s_pos st) i l) ->
    c_ssizes (s_pos st') = c_ssizes (s_pos st) /\
    let arm p j := vsub (c_srot p i j) (c_spos p i) in
    forall j j', (j < 2)%nat -> (j' < 2)%nat ->
      dot3 (arm (s_pos st') j) (arm (s_pos st') j') = dot3 (arm (s_pos st) j) (arm (s_pos st) j').
Proof. exact run_arms. Qed.
Print Assumptions C30_rigid.

(** Finding: in a periodic box with Euler the sphere is wrapped and its
    orientation points are not. *)
Theorem C30_periodic_refuted : exists st,
  run_frames inv3 1 0 (fun _ _ => no_matrix) (ex_rest (v3 1 0 0)) (box_settings euler) (fresh box_config) (seq 0 1) = Ok st /\
  norm (vsub (c_srot box_config 0%nat 0%nat) (c_spos box_config 0%nat)) = 1 /\
  norm (vsub (c_srot (s_pos st) 0%nat 0%nat) (c_spos (s_pos st) 0%nat)) = 3.
Proof. exact detached. Qed.
Print Assumptions C30_periodic_refuted.

Example C30_example :
  inverts inv3 /\ periodic (ex_settings euler 5 1 1 0) = false /\
  exists st, run_frames inv3 1 0 (fun _ _ => no_matrix) (fun _ _ _ _ => Ok (spin_solution (v3 0 0 1))) (ex_settings euler 5 1 1 0)
    (fresh (mkConfig (fun _ => 1) (fun _ => v3 1 0 0) (add_sphere_rotations (fun _ => v3 1 0 0) (fun _ => 1) axes) (fun _ => 1)
           (fun _ => v3 0 0 0) (fun _ => v3 1 0 0))) (seq 0 3) = Ok st.
Proof.
  split; [exact inv3_inverts|split].
  - unfold periodic. cbn [g_box_bl g_box_tr ex_settings]. replace (is_zero3 _) with true; [reflexivity|].
    symmetry. apply zero3_spec. intros l Hl. unfold vsub. ring.
  - match goal with |- exists st, ?x = Ok st => assert (Hok : is_ok x (fun _ => true) = true) by (lazy; reflexivity) end.
    apply is_ok_spec in Hok. destruct Hok as (st & H & _). exists st. exact H.
Qed.

(** C37.  Saving every frame from frame 0 on, with a backup written in frame
    [m]: resuming from it continues at frame [m + 1] with the configuration of
    the start of frame [m]; saved data are as at the crash. *)
Theorem C37_resumed_state :
  forall inv Ns Nd far rest g p0 setup m st s f,
    g_start g = 0%nat -> g_save_pos g = 1%nat -> g_save_forces g = 1%nat -> g_save_after g = 0%nat -> g_temp g = true ->
    run_frames inv Ns Nd far rest g (fresh p0) (seq 0 (S m)) = Ok st ->
    (forall k stk, (k < S m)%nat -> run_frames inv Ns Nd far rest g (fresh p0) (seq 0 k) = Ok stk -> s_error stk = false) ->
    (S m < g_num_frames g)%nat -> (exists q, m = (q * g_temp_every g)%nat) -> s_tempfile st = Some (s, f) ->
    exists stm, run_frames inv Ns Nd far rest g (fresh p0) (seq 0 m) = Ok stm /\
      let '(st', start) := resume Ns setup (s, f) in
      start = S m /\ s_saved st' = s_saved st /\ s_fsaved st' = s_fsaved st /\ s_error st' = false /\
      (forall i, (i < Ns)%nat -> c_spos (s_pos st') i = c_spos (s_pos stm) i) /\
      (forall i, c_dpos (s_pos st') i = c_dpos (s_pos stm) i) /\
      (forall i, c_ddx (s_pos st') i = c_ddx (s_pos stm) i).
Proof. intros inv Ns Nd far rest g p0 setup m st s f H1 H2 H3 H4 H5. exact (resume_state inv Ns Nd far rest g p0 H1 H2 H3 H4 H5 setup m st s f). Qed.
Print Assumptions C37_resumed_state.

(** Finding: the displacement of frame [m] is lost.  Euler, velocities
    depending on time only; [stN] ends the uninterrupted run, [stR] the resumed
    one. *)
Theorem C37_lost_timestep :
  forall inv Ns Nd far rest g p0 setup m st s f stN stR VU VB VD,
    g_start g = 0%nat -> g_save_pos g = 1%nat -> g_save_forces g = 1%nat -> g_save_after g = 0%nat -> g_temp g = true ->
    g_scheme g = euler -> periodic g = false -> g_fully_2d g = false ->
    (forall p t v M s, rest p t v M = Ok s -> still s /\
       (forall i l, (i < Ns)%nat -> (l < 3)%nat -> o_Ua s i l = VU t i l) /\
       (forall i l, (i < Nd)%nat -> (l < 3)%nat -> o_Ub s i l = VB t i l) /\
       (forall i l, (i < Nd)%nat -> (l < 3)%nat -> o_HalfDUb s i l = VD t i l)) ->
    run_frames inv Ns Nd far rest g (fresh p0) (seq 0 (S m)) = Ok st -> (S m < g_num_frames g)%nat ->
    (exists q, m = (q * g_temp_every g)%nat) -> s_tempfile st = Some (s, f) ->
    run inv Ns Nd far rest g (fresh p0) = Ok stN -> s_error stN = false ->
    run inv Ns Nd far rest (restarted g (snd (resume Ns setup (s, f)))) (fst (resume Ns setup (s, f))) = Ok stR -> s_error stR = false ->
    (forall i l, (i < Ns)%nat -> (l < 3)%nat -> c_spos (s_pos stR) i l = c_spos (s_pos stN) i l - g_dt g * VU (INR m) i l) /\
    (forall i l, (i < Nd)%nat -> (l < 3)%nat -> c_dpos (s_pos stR) i l = c_dpos (s_pos stN) i l - g_dt g * VB (INR m) i l) /\
    (forall i l, (i < Nd)%nat -> (l < 3)%nat -> c_ddx (s_pos stR) i l = c_ddx (s_pos stN) i l - g_dt g * (2 * VD (INR m) i l)).
Proof.
  intros inv Ns Nd far rest g p0 setup m st s f stN stR VU VB VD H1 H2 H3 H4 H5.
  exact (lost_timestep inv Ns Nd far rest g p0 H1 H2 H3 H4 H5 setup m st s f stN stR VU VB VD).
Qed.
Print Assumptions C37_lost_timestep.

(** For any scheme and velocities the resumed run saves one position fewer. *)
Theorem C37_saved_fewer :
  forall inv Ns Nd far rest g p0 setup m st s f stN stR,
    g_start g = 0%nat -> g_save_pos g = 1%nat -> g_save_forces g = 1%nat -> g_save_after g = 0%nat -> g_temp g = true ->
    run_frames inv Ns Nd far rest g (fresh p0) (seq 0 (S m)) = Ok st -> (S m < g_num_frames g)%nat ->
    (exists q, m = (q * g_temp_every g)%nat) -> s_tempfile st = Some (s, f) ->
    run inv Ns Nd far rest g (fresh p0) = Ok stN -> s_error stN = false ->
    run inv Ns Nd far rest (restarted g (snd (resume Ns setup (s, f)))) (fst (resume Ns setup (s, f))) = Ok stR -> s_error stR = false ->
    exists sN sR, s_saved stN = Some sN /\ s_saved stR = Some sR /\ length sN = S (g_num_frames g) /\ length sR = g_num_frames g.
Proof.
  intros inv Ns Nd far rest g p0 setup m st s f stN stR H1 H2 H3 H4 H5.
  exact (resumed_total inv Ns Nd far rest g p0 H1 H2 H3 H4 H5 setup m st s f stN stR).
Qed.
Print Assumptions C37_saved_fewer.

(** So the resumed run is not the uninterrupted one: velocity (1, 0, 0), 5
    frames of length 1, interrupted after frame 2. *)
Theorem C37_same_run_refuted :
  exists st s f stN stR,
    run_frames inv3 1 0 (fun _ _ => no_matrix) (ex_rest (v3 1 0 0)) crash_settings (fresh ex_config) (seq 0 3) = Ok st /\
    s_tempfile st = Some (s, f) /\
    run inv3 1 0 (fun _ _ => no_matrix) (ex_rest (v3 1 0 0)) crash_settings (fresh ex_config) = Ok stN /\
    run inv3 1 0 (fun _ _ => no_matrix) (ex_rest (v3 1 0 0)) (restarted crash_settings (snd (resume 1 ex_config (s, f)))) (fst (resume 1 ex_config (s, f))) = Ok stR /\
    c_spos (s_pos stN) 0%nat 0%nat = 5 /\ c_spos (s_pos stR) 0%nat 0%nat = 4.
Proof. exact same_run_refuted. Qed.
Print Assumptions C37_same_run_refuted.
