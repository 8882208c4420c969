(** Stopping and resuming. *)
From Coq Require Import Reals List Arith Bool Lia Lra.
From Verif Require Import Base Py Model_Mob Model_Close Model_Step Model_Frame Spec_Frame Spec_Scheme
  Proof_Close Proof_Frame Proof_Frame3 Proof_Frame4 Proof_Frame5 Proof_Scheme.
Import ListNotations.
Local Open Scope R_scope.

Lemma due_all n : due_frames 1 0 n = seq 0 n.
Proof.
  induction n as [|n IH]; [reflexivity|]. rewrite due_snoc, IH. unfold save_due. rewrite Nat.mod_1_r. cbn [Nat.eqb Nat.leb andb].
  replace (S n) with (n + 1)%nat by lia. rewrite seq_app. reflexivity.
Qed.

Section Resume.
Variable inv : mat -> mat.
Variables Ns Nd : nat.
Variable far : config -> R -> mat.
Variable rest : config -> R -> velocities -> mat -> res solution.
Variable g : settings.
Variable p0 : config.
Notation ran := (ran inv Ns Nd far rest g p0).
Notation quiet := (quiet inv Ns Nd far rest g p0).
Hypothesis Hstart : g_start g = 0%nat.
Hypothesis Hsp : g_save_pos g = 1%nat.
Hypothesis Hsf : g_save_forces g = 1%nat.
Hypothesis Hsa : g_save_after g = 0%nat.
Hypothesis Htemp : g_temp g = true.

(** A backup is written in frame [m] if [temp_every] divides [m]. *)
Lemma backup_written m st : ran (S m) st -> quiet (S m) -> (S m < g_num_frames g)%nat ->
  (exists q, m = (q * g_temp_every g)%nat) ->
  exists pos s f, (forall k, (k <= S m)%nat -> exists st, ran k st /\ s_pos st = pos k) /\
    s_tempfile st = Some (s, f) /\ s_saved st = Some s /\ s_fsaved st = Some f /\
    s = map (fun k => snap Ns (pos k)) (seq 0 (S m)) /\ length f = S m.
Proof.
  intros Hr Hq Hm Hd.
  destruct (positions_exist _ _ _ _ _ _ _ _ _ Hr) as (pos & Hp).
  pose proof (saved_positions _ _ _ _ _ _ _ (S m) st pos Hstart ltac:(lia) ltac:(rewrite Hsa, Hsp; reflexivity) ltac:(lia) Hr Hq Hp) as Es.
  destruct (saved_forces _ _ _ _ _ _ _ (S m) st Hstart ltac:(lia) ltac:(rewrite Hsa, Hsf; reflexivity) Hr Hq) as (frc & _ & Ef).
  rewrite Hsa, Hsp in Es. rewrite Hsa, Hsf in Ef. cbn [Nat.leb] in Es, Ef. rewrite due_all in Es, Ef.
  destruct (Nat.eqb_spec (S m) (g_num_frames g)); [lia|]. cbn [andb] in Es. rewrite app_nil_r in Es.
  exists pos, (map (fun k => snap Ns (pos k)) (seq 0 (S m))), (map frc (seq 0 (S m))).
  split; [exact Hp|]. split; [|repeat split; auto; rewrite map_length, seq_length; reflexivity].
  destruct (ran_S _ _ _ _ _ _ _ _ _ Hr) as (st1 & Hr1 & Hf).
  assert (He : s_error st1 = false) by (apply (Hq m); [lia|exact Hr1]).
  destruct (frame_inv _ _ _ _ _ _ _ _ _ He Hf) as (regen & r & R1 & R2 & R3 & _ & _ & _ & R7 & R8 & R9).
  unfold backup in R9. rewrite Hsp, Hsf, Hsa, Htemp in R9. binv R9. apply divides_spec in E. destruct E as [_ E].
  destruct a; [|exfalso; assert (false = true) by (apply E; exact Hd); discriminate].
  cbn [andb negb Nat.eqb Nat.leb] in R9. rewrite Es, Ef in R9. cbn [savez bind] in R9. congruence.
Qed.

Lemma append_rows_l a b i : (i < Ns)%nat -> append_rows Ns a b i = a i.
Proof. intros H. unfold append_rows. destruct (Nat.ltb_spec i Ns); [reflexivity|lia]. Qed.
Lemma append_rows_r a b i : append_rows Ns a b (Ns + i)%nat = b i.
Proof. unfold append_rows. destruct (Nat.ltb_spec (Ns + i) Ns); [lia|]. f_equal. lia. Qed.

(** Resuming from a backup written in frame [m]: frame number [m + 1],
    configuration of the start of frame [m]. *)
Lemma resume_state setup m st s f : ran (S m) st -> quiet (S m) -> (S m < g_num_frames g)%nat ->
  (exists q, m = (q * g_temp_every g)%nat) -> s_tempfile st = Some (s, f) ->
  exists stm, ran m stm /\
    let '(st', start) := resume Ns setup (s, f) in
    start = S m /\ s_saved st' = s_saved st /\ s_fsaved st' = s_fsaved st /\ s_error st' = false /\
    (forall i, (i < Ns)%nat -> c_spos (s_pos st') i = c_spos (s_pos stm) i) /\
    (forall i, c_dpos (s_pos st') i = c_dpos (s_pos stm) i) /\
    (forall i, c_ddx (s_pos st') i = c_ddx (s_pos stm) i).
Proof.
  intros Hr Hq Hm Hd Ht. destruct (backup_written m st Hr Hq Hm Hd) as (pos & s' & f' & Hp & E1 & E2 & E3 & E4 & E5).
  rewrite E1 in Ht. injection Ht as -> ->.
  destruct (Hp m ltac:(lia)) as (stm & Hrm & Em). exists stm. split; [exact Hrm|].
  unfold resume. cbn [s_saved s_fsaved s_error s_pos c_spos c_dpos c_ddx].
  assert (EL : last s (mkSnap (fun _ _ => 0) (fun _ _ _ => 0) (fun _ _ => 0)) = snap Ns (s_pos stm)).
  { rewrite E4, seq_S, map_app. cbn [map Nat.add]. rewrite last_last, Em. reflexivity. }
  rewrite EL, E2, E3. cbn [snap n_pos n_rot n_dx]. repeat split.
  - rewrite E4, map_length, seq_length. reflexivity.
  - intros i Hi. apply append_rows_l, Hi.
  - intros i. apply append_rows_r.
Qed.

(** One timestep lost: Euler with velocities depending on time only. *)
Lemma lost_timestep setup m st s f stN stR VU VB VD :
  g_scheme g = euler -> periodic g = false -> g_fully_2d g = false ->
  (forall p t v M s, rest p t v M = Ok s -> still s /\
     (forall i l, (i < Ns)%nat -> (l < 3)%nat -> o_Ua s i l = VU t i l) /\
     (forall i l, (i < Nd)%nat -> (l < 3)%nat -> o_Ub s i l = VB t i l) /\
     (forall i l, (i < Nd)%nat -> (l < 3)%nat -> o_HalfDUb s i l = VD t i l)) ->
  ran (S m) st -> (S m < g_num_frames g)%nat ->
  (exists q, m = (q * g_temp_every g)%nat) -> s_tempfile st = Some (s, f) ->
  run inv Ns Nd far rest g (fresh p0) = Ok stN -> s_error stN = false ->
  run inv Ns Nd far rest (restarted g (snd (resume Ns setup (s, f)))) (fst (resume Ns setup (s, f))) = Ok stR -> s_error stR = false ->
  (forall i l, (i < Ns)%nat -> (l < 3)%nat -> c_spos (s_pos stR) i l = c_spos (s_pos stN) i l - g_dt g * VU (INR m) i l) /\
  (forall i l, (i < Nd)%nat -> (l < 3)%nat -> c_dpos (s_pos stR) i l = c_dpos (s_pos stN) i l - g_dt g * VB (INR m) i l) /\
  (forall i l, (i < Nd)%nat -> (l < 3)%nat -> c_ddx (s_pos stR) i l = c_ddx (s_pos stN) i l - g_dt g * (2 * VD (INR m) i l)).
Proof.
  intros Hs Hp H2 Hrest Hr Hm Hd Ht HN HeN HR HeR.
  unfold run in HN. rewrite Hstart, Nat.sub_0_r in HN. set (N := g_num_frames g) in *.
  assert (Hall : forall k stk, (k <= N)%nat -> ran k stk -> s_error stk = false).
  { intros k stk Hk Hrk. exact (no_error_before _ _ _ _ _ _ _ _ _ _ _ _ HN Hk Hrk HeN). }
  assert (Hq : quiet (S m)) by (intros k stk Hk; apply Hall; lia).
  destruct (resume_state setup m st s f Hr Hq Hm Hd Ht) as (stm & Hrm & HS).
  destruct (resume Ns setup (s, f)) as [st' start]. destruct HS as (-> & _ & _ & _ & P1 & P2 & P3).
  cbn [fst snd] in HR. unfold run in HR. cbn [g_start restarted g_num_frames] in HR. fold N in HR.
  pose proof HN as HN'. rewrite <- Hstart in HN'.
  destruct (run_total inv Ns Nd far rest g Hp H2 VU VB VD Hrest N (fresh p0) stN HN' HeN) as (_ & T1 & T2 & T3).
  pose proof Hrm as Hrm'. unfold Proof_Frame3.ran in Hrm'. rewrite <- Hstart in Hrm' at 1.
  destruct (run_total inv Ns Nd far rest g Hp H2 VU VB VD Hrest m (fresh p0) stm Hrm' (Hall m stm ltac:(lia) Hrm)) as (_ & Q1 & Q2 & Q3).
  assert (Hp' : periodic (restarted g (S m)) = false) by exact Hp.
  destruct (run_total inv Ns Nd far rest (restarted g (S m)) Hp' H2 VU VB VD Hrest (N - S m) st' stR HR HeR) as (_ & U1 & U2 & U3).
  assert (HT : forall V i l, total g V N i l = total g V m i l + V (INR m) i l + total (restarted g (S m)) V (N - S m) i l).
  { intros V i l. unfold total, increment. cbn [g_scheme g_start restarted]. rewrite Hs, Hstart.
    replace N with (S m + (N - S m))%nat at 1 by lia. rewrite rsum_app. cbn [rsum]. cbn [Nat.add]. reflexivity. }
  split; [|split]; intros i l Hi Hl.
  - rewrite U1, P1, Q1, T1, HT by auto. cbn [g_dt restarted]. ring.
  - rewrite U2, P2, Q2, T2, HT by auto. cbn [g_dt restarted]. ring.
  - rewrite U3, P3, Q3, T3, HT by auto. cbn [g_dt restarted]. ring.
Qed.

(** The number of saved positions after [S k] frames of a resumed run. *)
Lemma resumed_count m st' k st s : (0 < m)%nat -> (m + S k <= g_num_frames g)%nat ->
  s_error st' = false -> s_saved st' = Some s ->
  run_frames inv Ns Nd far rest (restarted g m) st' (seq m (S k)) = Ok st -> s_error st = false ->
  exists s', s_saved st = Some (s ++ s') /\ length s' = (k + if Nat.eqb (m + S k) (g_num_frames g) then 1 else 0)%nat.
Proof.
  intros Hm Hk He' Hs' Hrun He. revert st Hrun He Hk. induction k as [|k IH]; intros st Hrun He Hk.
  - apply frames_snoc in Hrun. destruct Hrun as (st1 & E & Hf). cbn [seq run_frames] in E. injection E as <-.
    rewrite Nat.add_0_r in Hf.
    destruct (frame_inv _ _ _ _ _ _ _ _ _ He' Hf) as (regen & r & R1 & R2 & R3 & _ & _ & _ & R7 & _).
    unfold save_positions in R7. cbn [restarted g_save_pos g_save_after g_num_frames g_start] in R7. rewrite Hsp, Hsa, Hs' in R7.
    rewrite Nat.mod_1_r in R7. cbn [Nat.eqb Nat.leb andb] in R7.
    destruct (Nat.eqb_spec m 0); [lia|]. rewrite Nat.eqb_refl in R7. cbn [negb bind] in R7.
    replace (Nat.eqb (m + 1) (g_num_frames g)) with (Nat.eqb m (g_num_frames g - 1)).
    2:{ destruct (Nat.eqb_spec m (g_num_frames g - 1)), (Nat.eqb_spec (m + 1) (g_num_frames g)); try reflexivity; lia. }
    destruct (Nat.eqb m (g_num_frames g - 1)); injection R7 as <-.
    + eexists. split; [reflexivity|reflexivity].
    + exists []. rewrite app_nil_r. split; reflexivity.
  - pose proof Hrun as Hrun'. apply frames_snoc in Hrun. destruct Hrun as (st1 & E & Hf).
    assert (He1 : s_error st1 = false) by exact (no_error_before _ _ _ _ _ _ _ _ _ _ _ _ Hrun' (Nat.le_succ_diag_r (S k)) E He).
    destruct (IH st1 E He1 ltac:(lia)) as (s1 & I1 & I2).
    destruct (Nat.eqb_spec (m + S k) (g_num_frames g)); [lia|]. rewrite Nat.add_0_r in I2.
    destruct (frame_inv _ _ _ _ _ _ _ _ _ He1 Hf) as (regen & r & R1 & R2 & R3 & _ & _ & _ & R7 & _).
    unfold save_positions in R7. cbn [restarted g_save_pos g_save_after g_num_frames g_start] in R7. rewrite Hsp, Hsa, I1 in R7.
    rewrite Nat.mod_1_r in R7. cbn [Nat.leb andb] in R7. rewrite Nat.eqb_refl in R7. cbv iota in R7.
    destruct (Nat.eqb_spec (m + S k) 0); [lia|]. destruct (Nat.eqb_spec (m + S k) m); [lia|]. cbn [negb bind] in R7.
    replace (Nat.eqb (m + S (S k)) (g_num_frames g)) with (Nat.eqb (m + S k) (g_num_frames g - 1)).
    2:{ destruct (Nat.eqb_spec (m + S k) (g_num_frames g - 1)), (Nat.eqb_spec (m + S (S k)) (g_num_frames g)); try reflexivity; lia. }
    destruct (Nat.eqb (m + S k) (g_num_frames g - 1)); injection R7 as <-; rewrite <- ?app_assoc; eexists; (split; [reflexivity|]);
      rewrite ?app_length, I2; cbn [length]; lia.
Qed.

(** Altogether one saved position fewer than in the uninterrupted run. *)
Lemma resumed_total setup m st s f stN stR :
  ran (S m) st -> (S m < g_num_frames g)%nat ->
  (exists q, m = (q * g_temp_every g)%nat) -> s_tempfile st = Some (s, f) ->
  run inv Ns Nd far rest g (fresh p0) = Ok stN -> s_error stN = false ->
  run inv Ns Nd far rest (restarted g (snd (resume Ns setup (s, f)))) (fst (resume Ns setup (s, f))) = Ok stR -> s_error stR = false ->
  exists sN sR, s_saved stN = Some sN /\ s_saved stR = Some sR /\ length sN = S (g_num_frames g) /\ length sR = g_num_frames g.
Proof.
  intros Hr Hm Hd Ht HN HeN HR HeR.
  unfold run in HN. rewrite Hstart, Nat.sub_0_r in HN. set (N := g_num_frames g) in *.
  assert (Hall : forall k stk, (k <= N)%nat -> ran k stk -> s_error stk = false).
  { intros k stk Hk Hrk. exact (no_error_before _ _ _ _ _ _ _ _ _ _ _ _ HN Hk Hrk HeN). }
  assert (Hq : quiet (S m)) by (intros k stk Hk; apply Hall; lia).
  destruct (resume_state setup m st s f Hr Hq Hm Hd Ht) as (stm & Hrm & HS).
  destruct (backup_written m st Hr Hq Hm Hd) as (pos & s0 & f0 & Hp & E1 & E2 & E3 & E4 & E5).
  rewrite E1 in Ht. injection Ht as -> ->.
  destruct (resume Ns setup (s, f)) as [st' start]. destruct HS as (-> & S1 & _ & S2 & _).
  cbn [fst snd] in HR. unfold run in HR. cbn [g_start restarted g_num_frames] in HR. fold N in HR.
  rewrite E2 in S1.
  replace (N - S m)%nat with (S (N - S m - 1)) in HR by lia.
  destruct (resumed_count (S m) st' (N - S m - 1) stR s ltac:(lia) ltac:(lia) S2 S1 HR HeR) as (s' & L1 & L2).
  fold N in L2. replace (S m + S (N - S m - 1))%nat with N in L2 by lia. rewrite Nat.eqb_refl in L2.
  assert (HqN : quiet N) by (intros k stk Hk; apply Hall; lia).
  destruct (positions_exist _ _ _ _ _ _ _ _ _ HN) as (pos' & Hp').
  pose proof (saved_positions _ _ _ _ _ _ _ N stN pos' Hstart ltac:(lia) ltac:(rewrite Hsa, Hsp; reflexivity) (le_n _) HN HqN Hp') as Es.
  rewrite Hsa, Hsp in Es. fold N in Es. destruct (Nat.leb_spec N 0); [lia|]. rewrite due_all, Nat.eqb_refl in Es.
  unfold save_due in Es. rewrite Nat.mod_1_r in Es. cbn [Nat.eqb Nat.leb andb] in Es.
  eexists _, _. split; [exact Es|]. split; [exact L1|]. rewrite !app_length, L2, E4, !map_length, !seq_length. cbn [length]. lia.
Qed.
End Resume.
