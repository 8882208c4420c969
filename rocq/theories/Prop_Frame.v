(** Properties C26 (far-field schedule), C35 (saved data) and C36 (errors) of
    the simulation loop. *)
From Coq Require Import Reals List Arith Bool Lia Lra.
From Verif Require Import Base Py Model_Mob Model_Close Model_Step Model_Frame Spec_Frame
  Proof_Frame Proof_Frame2 Proof_Frame3 Proof_Frame4 Proof_Frame5.
Import ListNotations.
Local Open Scope R_scope.

(** C26.  In frame [g_start + n] the far-field matrix used and stored is that
    of the configuration at the latest due frame [h].  Used: the frame gives
    the same result if every far-field matrix it consults is replaced by that
    one.  (RK4 with [g_rk4_each] recomputes it at the stages of a due frame.) *)
Theorem C26_latest_inverse :
  forall inv Ns Nd far rest g st0 n st st',
    g_use_drag g = false ->
    run_frames inv Ns Nd far rest g st0 (seq (g_start g) n) = Ok st -> s_error st = false ->
    generate_frame inv Ns Nd far rest g st (g_start g + n)%nat = Ok st' ->
    exists h sth, latest_due (g_start g) (g_invert_every g) (g_start g + n) h /\
      run_frames inv Ns Nd far rest g st0 (seq (g_start g) (h - g_start g)) = Ok sth /\ s_error sth = false /\
      s_minv st' = far (s_pos sth) (INR h) /\
      (g_scheme g <> rk4 \/ g_rk4_each g = false \/
         ~ inversion_due (g_start g) (g_invert_every g) (g_start g + n) ->
       generate_frame inv Ns Nd far (fun p t v _ => rest p t v (far (s_pos sth) (INR h))) g st (g_start g + n)%nat = Ok st').
Proof. exact far_schedule. Qed.
Print Assumptions C26_latest_inverse.

(** With drag matrices the far field of the current configuration is used. *)
Theorem C26_drag :
  forall inv Ns Nd far rest g st f st',
    g_use_drag g = true -> s_error st = false ->
    generate_frame inv Ns Nd far rest g st f = Ok st' -> s_minv st' = far (s_pos st) (INR f).
Proof. exact far_drag. Qed.
Print Assumptions C26_drag.

(** The latest due frame is unique, so C26 determines the matrix. *)
Theorem C26_unique :
  forall start every f h h', latest_due start every f h -> latest_due start every f h' -> h = h'.
Proof. exact latest_due_unique. Qed.
Print Assumptions C26_unique.

(** Instance: inverting every 2 frames, frame 3 uses the matrix of frame 2. *)
Example C26_example :
  (exists st, run_frames (fun A => A) 1 0 (fun p _ => fun _ _ => c_spos p 0%nat 0%nat) (ex_rest (v3 1 0 0)) (ex_settings euler 5 1 1 0)
     (fresh ex_config) (seq 0 3) = Ok st /\ s_error st = false /\
     exists st', generate_frame (fun A => A) 1 0 (fun p _ => fun _ _ => c_spos p 0%nat 0%nat) (ex_rest (v3 1 0 0)) (ex_settings euler 5 1 1 0) st 3 = Ok st') /\
  latest_due 0 2 3 2.
Proof.
  split.
  - apply (frames_next _ 1 0 _ _ _ _ 0 3); lazy; reflexivity.
  - split; [lia|split; [left; exists 1%nat; reflexivity|]].
    intros h' Hh [(q & Hq)|Hq]; lia.
Qed.

(** C35.  Positions saved after [n] of the [g_num_frames] frames of a fresh run. *)
Theorem C35_positions :
  forall inv Ns Nd far rest g p0 n st,
    let frames := run_frames inv Ns Nd far rest g (fresh p0) in
    g_start g = 0%nat -> (0 < g_save_pos g)%nat -> (g_save_after g mod g_save_pos g = 0)%nat ->
    (n <= g_num_frames g)%nat -> frames (seq 0 n) = Ok st ->
    (forall m st, (m < n)%nat -> frames (seq 0 m) = Ok st -> s_error st = false) ->
    exists pos, (forall m, (m <= n)%nat -> exists st, frames (seq 0 m) = Ok st /\ s_pos st = pos m) /\
      s_saved st = if Nat.leb n (g_save_after g) then None
                   else Some (map (fun m => snap Ns (pos m)) (due_frames (g_save_pos g) (g_save_after g) n)
                              ++ (if (Nat.eqb n (g_num_frames g) && save_due (g_save_pos g) (g_save_after g) (n - 1))%bool
                                  then [snap Ns (pos n)] else [])).
Proof. exact saved_positions_prefix. Qed.
Print Assumptions C35_positions.

(** The file written at the end of a run in which no error was flagged before
    the last frame: positions at the start of the due frames, then the final
    one if the last frame is due; one entry of forces per due frame, being the
    forces of that frame. *)
Theorem C35_output :
  forall inv Ns Nd far rest g p0 s f,
    let frames := run_frames inv Ns Nd far rest g (fresh p0) in
    let N := g_num_frames g in
    g_start g = 0%nat -> (0 < g_save_pos g)%nat -> (0 < g_save_forces g)%nat ->
    (g_save_after g mod g_save_pos g = 0)%nat -> (g_save_after g mod g_save_forces g = 0)%nat ->
    (forall m st, (m < N)%nat -> frames (seq 0 m) = Ok st -> s_error st = false) ->
    simulate inv Ns Nd far rest g (fresh p0) = Ok (Some (s, f)) ->
    exists pos frc,
      (forall m, (m <= N)%nat -> exists st, frames (seq 0 m) = Ok st /\ s_pos st = pos m) /\
      s = map (fun m => snap Ns (pos m)) (due_frames (g_save_pos g) (g_save_after g) N)
          ++ (if save_due (g_save_pos g) (g_save_after g) (N - 1) then [snap Ns (pos N)] else []) /\
      f = map frc (due_frames (g_save_forces g) (g_save_after g) N) /\
      forall m, (m < N)%nat -> exists st regen r, frames (seq 0 m) = Ok st /\ regenerate_now g m = Ok regen /\
        step inv Ns Nd far rest g m regen (s_pos st) false (if regen then no_matrix else s_minv st) (vel_at g st m) = Ok r /\
        frc m = t_forces r.
Proof. intros inv Ns Nd far rest g p0 s f. exact (output_complete inv Ns Nd far rest g p0 s f). Qed.
Print Assumptions C35_output.

(** With Euler and AB2 the forces of a frame are those of the solution found
    for the configuration at its start. *)
Theorem C35_forces :
  forall inv Ns Nd far rest g f regen p err minv vel r,
    g_scheme g = euler \/ g_scheme g = ab2 ->
    step inv Ns Nd far rest g f regen p err minv vel = Ok r ->
    exists s, rest p (INR f) vel (t_minv r) = Ok s /\
      t_forces r = mkFsnap (o_Fa s) (o_Fb s) (o_DFb s) (o_Sa s) (o_wall s).
Proof. exact euler_forces. Qed.
Print Assumptions C35_forces.

(** The backup file holds data saved up to some frame already done. *)
Theorem C35_backup :
  forall inv Ns Nd far rest g p0 n st s f,
    run_frames inv Ns Nd far rest g (fresh p0) (seq 0 n) = Ok st -> s_tempfile st = Some (s, f) ->
    exists m stm, (m <= n)%nat /\ run_frames inv Ns Nd far rest g (fresh p0) (seq 0 m) = Ok stm /\
      s_saved stm = Some s /\ s_fsaved stm = Some f.
Proof. exact backup_content. Qed.
Print Assumptions C35_backup.

(** Findings: a run which saves only positions or only forces, which is too
    short for [start_saving_after_timestep], or whose [start_saving_after] is
    not a multiple of the saving interval, ends in an exception and writes no
    output. *)
Theorem C35_only_one_refuted :
  forall inv Ns Nd far rest g p0 out, g_start g = 0%nat ->
    (g_save_pos g = 0%nat /\ g_save_forces g <> 0%nat) \/ (g_save_pos g <> 0%nat /\ g_save_forces g = 0%nat) ->
    simulate inv Ns Nd far rest g (fresh p0) <> Ok out.
Proof. intros inv Ns Nd far rest g p0 out H0 H. exact (no_output_one inv Ns Nd far rest g p0 H0 H out). Qed.
Print Assumptions C35_only_one_refuted.

Theorem C35_too_short_refuted :
  forall inv Ns Nd far rest g p0 out, g_start g = 0%nat ->
    (g_save_pos g <> 0 \/ g_save_forces g <> 0)%nat -> (g_num_frames g <= g_save_after g)%nat ->
    simulate inv Ns Nd far rest g (fresh p0) <> Ok out.
Proof. intros inv Ns Nd far rest g p0 out H0 H H1. exact (no_output_early inv Ns Nd far rest g p0 H0 H H1 out). Qed.
Print Assumptions C35_too_short_refuted.

Theorem C35_offset_refuted :
  forall inv Ns Nd far rest g p0 out, g_start g = 0%nat ->
    (0 < g_save_pos g)%nat -> (g_save_after g mod g_save_pos g <> 0)%nat -> g_explosion g = false ->
    (exists f, (f < g_num_frames g)%nat /\ save_due (g_save_pos g) (g_save_after g) f = true) ->
    simulate inv Ns Nd far rest g (fresh p0) <> Ok out.
Proof. intros inv Ns Nd far rest g p0 out H0 H1 H2 H3 H4. exact (no_output_offset inv Ns Nd far rest g p0 H0 H1 H2 H3 H4 out). Qed.
Print Assumptions C35_offset_refuted.

(** Instances: 6 frames, saving every 2 from frame 2 on: two entries, as the
    final frame 5 is not due; 5 frames: frames 2, 4 and the final position. *)
Example C35_example :
  (exists s f, simulate (fun A => A) 1 0 (fun _ _ => no_matrix) (ex_rest (v3 1 0 0)) (ex_settings euler 6 2 1 2) (fresh ex_config) = Ok (Some (s, f))
     /\ length s = 2%nat /\ length f = 4%nat) /\
  (exists s f, simulate (fun A => A) 1 0 (fun _ _ => no_matrix) (ex_rest (v3 1 0 0)) (ex_settings euler 5 2 1 2) (fresh ex_config) = Ok (Some (s, f))
     /\ length s = 3%nat /\ length f = 3%nat) /\
  (forall out, simulate (fun A => A) 1 0 (fun _ _ => no_matrix) (ex_rest (v3 1 0 0)) (ex_settings euler 5 1 0 0) (fresh ex_config) <> Ok out).
Proof.
  split; [|split].
  - match goal with |- exists s f, ?x = _ /\ _ =>
      assert (H : is_ok x (fun o => match o with Some (s, f) => (Nat.eqb (length s) 2 && Nat.eqb (length f) 4)%bool | None => false end) = true)
        by (lazy; reflexivity) end.
    apply is_ok_spec in H. destruct H as ([[s f]|] & H & E); [|discriminate]. exists s, f.
    apply andb_true_iff in E. rewrite !Nat.eqb_eq in E. split; [exact H|exact E].
  - match goal with |- exists s f, ?x = _ /\ _ =>
      assert (H : is_ok x (fun o => match o with Some (s, f) => (Nat.eqb (length s) 3 && Nat.eqb (length f) 3)%bool | None => false end) = true)
        by (lazy; reflexivity) end.
    apply is_ok_spec in H. destruct H as ([[s f]|] & H & E); [|discriminate]. exists s, f.
    apply andb_true_iff in E. rewrite !Nat.eqb_eq in E. split; [exact H|exact E].
  - intros out. apply C35_only_one_refuted; [reflexivity|right; split; [discriminate|reflexivity]].
Qed.

(** C36.  Once an error is flagged, any number of further frames leaves the
    whole state as it is: positions, saved data, backup file. *)
Theorem C36_freeze :
  forall inv Ns Nd far rest g st s n m st1,
    run_frames inv Ns Nd far rest g st (seq s n) = Ok st1 -> s_error st1 = true -> (n <= m)%nat ->
    run_frames inv Ns Nd far rest g st (seq s m) = Ok st1.
Proof. exact freeze. Qed.
Print Assumptions C36_freeze.

(** Euler and AB2: a frame flags an error exactly when explosion protection is
    on and it leaves some dumbbell longer than 5. *)
Theorem C36_flagged :
  forall inv Ns Nd far rest g st f st',
    s_error st = false -> generate_frame inv Ns Nd far rest g st f = Ok st' ->
    g_scheme g = euler \/ g_scheme g = ab2 ->
    (s_error st' = true <-> g_explosion g = true /\ exists i, (i < Nd)%nat /\ 5 < norm (c_ddx (s_pos st') i)).
Proof. exact flagged. Qed.
Print Assumptions C36_flagged.

(** Any scheme: a frame which flags no error leaves every dumbbell at most 5
    long; without protection nothing is ever flagged. *)
Theorem C36_unflagged :
  forall inv Ns Nd far rest g st f st',
    s_error st = false -> generate_frame inv Ns Nd far rest g st f = Ok st' -> s_error st' = false ->
    g_explosion g = true -> forall i, (i < Nd)%nat -> norm (c_ddx (s_pos st') i) <= 5.
Proof. exact unflagged. Qed.
Print Assumptions C36_unflagged.

Theorem C36_unprotected :
  forall inv Ns Nd far rest g st l st',
    s_error st = false -> g_explosion g = false ->
    run_frames inv Ns Nd far rest g st l = Ok st' -> s_error st' = false.
Proof. exact unprotected. Qed.
Print Assumptions C36_unprotected.

(** Instance: a dumbbell 7 long is flagged after the first frame and frozen. *)
Definition long_config : config :=
  mkConfig (fun _ => 1) (fun _ => v3 0 0 0) (fun _ _ => v3 1 0 0) (fun _ => 1) (fun _ => v3 0 0 0) (fun _ => v3 7 0 0).
Example C36_example :
  exists st1, run_frames (fun A => A) 0 1 (fun _ _ => no_matrix) (ex_rest (v3 1 0 0)) (ex_settings euler 6 1 1 0) (fresh long_config) (seq 0 1) = Ok st1
    /\ s_error st1 = true /\ s_saved st1 <> None.
Proof.
  eexists. split; [reflexivity|split; [|discriminate]]. cbn [s_error t_error].
  apply wrong_spec. right. split; [reflexivity|]. exists 0%nat. split; [lia|].
  unfold norm, eul, euler_timestep, twice, add_background_flow_dumbbell, cross, mvec, rsum, mzero. simpl.
  replace (_ + _ + _) with (7 * 7) by ring. rewrite sqrt_square; lra.
Qed.
