(** What is saved. *)
From Coq Require Import Reals List Arith Bool Lia Lra.
From Verif Require Import Base Py Model_Mob Model_Close Model_Step Model_Frame Spec_Frame Proof_Close Proof_Frame.
Import ListNotations.
Local Open Scope R_scope.

Lemma due_snoc k a n : due_frames k a (S n) = due_frames k a n ++ (if save_due k a n then [n] else []).
Proof.
  unfold due_frames. replace (S n) with (n + 1)%nat by lia. rewrite seq_app, filter_app. reflexivity.
Qed.
Lemma due_none k a n : (n <= a)%nat -> due_frames k a n = [].
Proof.
  intros H. unfold due_frames. induction n as [|n IH]; [reflexivity|].
  replace (S n) with (n + 1)%nat by lia. rewrite seq_app, filter_app, IH by lia. cbn [seq filter app].
  unfold save_due. destruct (Nat.leb_spec a (0 + n)); [lia|]. rewrite andb_false_r. reflexivity.
Qed.

Section Save.
Variable inv : mat -> mat.
Variables Ns Nd : nat.
Variable far : config -> R -> mat.
Variable rest : config -> R -> velocities -> mat -> res solution.
Variable g : settings.
Variable p0 : config.
Notation frame := (generate_frame inv Ns Nd far rest g).
Definition ran (n : nat) (st : state) : Prop := run_frames inv Ns Nd far rest g (fresh p0) (seq 0 n) = Ok st.
Definition quiet (n : nat) : Prop := forall m st, (m < n)%nat -> ran m st -> s_error st = false.

Lemma ran_0 : ran 0 (fresh p0). Proof. reflexivity. Qed.
Lemma ran_S n st : ran (S n) st -> exists st1, ran n st1 /\ frame st1 n = Ok st.
Proof. intros H. apply frames_snoc in H. destruct H as (st1 & H1 & H2). exists st1. split; assumption. Qed.
Lemma ran_fun n st st' : ran n st -> ran n st' -> st = st'.
Proof. unfold ran. congruence. Qed.
Lemma quiet_S n : quiet (S n) -> quiet n.
Proof. intros H m st Hm. apply H. lia. Qed.

Definition positions_at (n : nat) (pos : nat -> config) : Prop :=
  forall m, (m <= n)%nat -> exists st, ran m st /\ s_pos st = pos m.

Lemma positions_exist n st : ran n st -> exists pos, positions_at n pos.
Proof.
  revert st. induction n as [|n IH]; intros st H.
  - exists (fun _ => p0). intros m Hm. exists (fresh p0). replace m with 0%nat by lia. split; reflexivity.
  - destruct (ran_S _ _ H) as (st1 & H1 & _). destruct (IH _ H1) as (pos & Hp).
    exists (fun m => if Nat.eqb m (S n) then s_pos st else pos m). intros m Hm.
    destruct (Nat.eqb_spec m (S n)) as [-> |Hne]; [exists st; split; [exact H|reflexivity]|]. apply Hp. lia.
Qed.

(** Positions. *)
Lemma saved_positions n st pos :
  g_start g = 0%nat -> (0 < g_save_pos g)%nat -> (g_save_after g mod g_save_pos g = 0)%nat ->
  (n <= g_num_frames g)%nat -> ran n st -> quiet n -> positions_at n pos ->
  s_saved st = if Nat.leb n (g_save_after g) then None
               else Some (map (fun f => snap Ns (pos f)) (due_frames (g_save_pos g) (g_save_after g) n)
                          ++ (if (Nat.eqb n (g_num_frames g) && save_due (g_save_pos g) (g_save_after g) (n - 1))%bool
                              then [snap Ns (pos n)] else [])).
Proof.
  intros Hst Hk Ha. revert st. induction n as [|n IH]; intros st Hn Hr Hq Hp.
  - assert (st = fresh p0) by (unfold ran in Hr; simpl in Hr; congruence). subst st. reflexivity.
  - destruct (ran_S _ _ Hr) as (st1 & Hr1 & Hf).
    assert (Hp1 : positions_at n pos) by (intros m Hm; apply Hp; lia).
    specialize (IH st1 ltac:(lia) Hr1 (quiet_S _ Hq) Hp1).
    assert (He : s_error st1 = false) by (apply (Hq n); [lia|exact Hr1]).
    destruct (frame_inv _ _ _ _ _ _ _ _ _ He Hf) as (regen & r & _ & _ & R3 & _ & _ & _ & R7 & _).
    assert (P1 : s_pos st1 = pos n).
    { destruct (Hp n ltac:(lia)) as (s & Hs & E). rewrite (ran_fun _ _ _ Hr1 Hs). exact E. }
    assert (P2 : t_pos r = pos (S n)).
    { destruct (Hp (S n) ltac:(lia)) as (s & Hs & E). rewrite <- R3, (ran_fun _ _ _ Hr Hs). exact E. }
    rewrite P1, P2 in R7. clear P1 P2.
    rewrite due_snoc. replace (S n - 1)%nat with n by lia.
    unfold save_positions in R7. destruct (g_save_pos g) as [|k'] eqn:Ek; [lia|]. rewrite <- Ek in *.
    fold (save_due (g_save_pos g) (g_save_after g) n) in R7.
    destruct (save_due (g_save_pos g) (g_save_after g) n) eqn:Edue.
    + assert (Hle : (g_save_after g <= n)%nat).
      { unfold save_due in Edue. apply andb_true_iff in Edue. destruct Edue as [_ E]. apply Nat.leb_le in E. exact E. }
      destruct (Nat.leb_spec (S n) (g_save_after g)); [lia|].
      binv R7.
      assert (A : a = Some (map (fun f => snap Ns (pos f)) (due_frames (g_save_pos g) (g_save_after g) n ++ [n]))).
      { rewrite map_app. destruct (Nat.eqb_spec n (g_save_after g)) as [En|En].
        - injection E as <-. rewrite due_none by lia. reflexivity.
        - assert (Hn0 : Nat.eqb n (g_start g) = false) by (apply Nat.eqb_neq; lia). rewrite Hn0 in E. simpl negb in E. cbv iota in E.
          destruct (Nat.leb_spec n (g_save_after g)); [lia|]. rewrite IH in E.
          assert (Hnf : Nat.eqb n (g_num_frames g) = false) by (apply Nat.eqb_neq; lia). rewrite Hnf in E. simpl andb in E. cbv iota in E.
          rewrite app_nil_r in E. injection E as <-. reflexivity. }
      rewrite A in R7. rewrite map_app in *. simpl map in *.
      assert (Hend : Nat.eqb (S n) (g_num_frames g) = Nat.eqb n (g_num_frames g - 1)).
      { destruct (Nat.eqb_spec (S n) (g_num_frames g)), (Nat.eqb_spec n (g_num_frames g - 1)); try reflexivity; lia. }
      rewrite Hend. rewrite andb_true_r.
      destruct (Nat.eqb n (g_num_frames g - 1)); injection R7 as <-; [reflexivity|rewrite app_nil_r; reflexivity].
    + rewrite andb_false_r, !app_nil_r. injection R7 as <-. rewrite IH.
      assert (Hnf : Nat.eqb n (g_num_frames g) = false) by (apply Nat.eqb_neq; lia). rewrite Hnf. simpl andb. cbv iota. rewrite app_nil_r.
      destruct (Nat.leb_spec n (g_save_after g)), (Nat.leb_spec (S n) (g_save_after g)); try reflexivity; try lia.
      exfalso. assert (n = g_save_after g) by lia. subst n.
      unfold save_due in Edue. rewrite Ha, Nat.leb_refl in Edue. discriminate.
Qed.

(** Forces: the forces of frame [m] are those of the step taken there. *)
Definition forces_at (n : nat) (frc : nat -> fsnapshot) : Prop :=
  forall m, (m < n)%nat -> exists st regen r, ran m st /\ regenerate_now g m = Ok regen /\
    step inv Ns Nd far rest g m regen (s_pos st) false (if regen then no_matrix else s_minv st) (vel_at g st m) = Ok r /\
    frc m = t_forces r.

Lemma forces_exist n st : ran n st -> quiet n -> exists frc, forces_at n frc /\
  forall m st1 st2 r, (m < n)%nat -> ran m st1 -> frame st1 m = Ok st2 ->
    step inv Ns Nd far rest g m (match regenerate_now g m with Ok b => b | _ => false end) (s_pos st1) false
      (if (match regenerate_now g m with Ok b => b | _ => false end) then no_matrix else s_minv st1) (vel_at g st1 m) = Ok r ->
    frc m = t_forces r.
Proof.
  revert st. induction n as [|n IH]; intros st H Hq.
  - exists (fun _ => mkFsnap (fun _ _ => 0) (fun _ _ => 0) (fun _ _ => 0) (fun _ _ _ => 0) (fun _ => 0)).
    split; [intros m Hm; lia|intros; lia].
  - destruct (ran_S _ _ H) as (st1 & H1 & Hf). destruct (IH _ H1 (quiet_S _ Hq)) as (frc & Hp & Hu).
    assert (He : s_error st1 = false) by (apply (Hq n); [lia|exact H1]).
    destruct (frame_inv _ _ _ _ _ _ _ _ _ He Hf) as (regen & r & R1 & R2 & _).
    exists (fun m => if Nat.eqb m n then t_forces r else frc m). split.
    + intros m Hm. destruct (Nat.eqb_spec m n) as [-> |Hne]; [exists st1, regen, r; auto|].
      apply Hp. lia.
    + intros m st1' st2 r' Hm Hr1 Hf' Hstep. destruct (Nat.eqb_spec m n) as [-> |Hne].
      * rewrite (ran_fun _ _ _ Hr1 H1) in Hstep. rewrite R1 in Hstep. congruence.
      * eapply Hu; eauto. lia.
Qed.

Lemma saved_forces n st :
  g_start g = 0%nat -> (0 < g_save_forces g)%nat -> (g_save_after g mod g_save_forces g = 0)%nat ->
  ran n st -> quiet n ->
  exists frc, forces_at n frc /\
  s_fsaved st = if Nat.leb n (g_save_after g) then None
                else Some (map frc (due_frames (g_save_forces g) (g_save_after g) n)).
Proof.
  intros Hst Hk Ha Hr Hq. destruct (forces_exist n st Hr Hq) as (frc & Hfrc & Hu). exists frc. split; [exact Hfrc|].
  revert st Hr. clear Hfrc. induction n as [|n IH]; intros st Hr.
  - assert (st = fresh p0) by (unfold ran in Hr; simpl in Hr; congruence). subst st. reflexivity.
  - destruct (ran_S _ _ Hr) as (st1 & Hr1 & Hf).
    specialize (IH (quiet_S _ Hq) (fun m s1 s2 r Hm => Hu m s1 s2 r (Nat.lt_lt_succ_r _ _ Hm)) st1 Hr1).
    assert (He : s_error st1 = false) by (apply (Hq n); [lia|exact Hr1]).
    destruct (frame_inv _ _ _ _ _ _ _ _ _ He Hf) as (regen & r & R1 & R2 & R3 & _ & _ & _ & _ & R8 & _).
    assert (F : frc n = t_forces r).
    { apply (Hu n st1 st r ltac:(lia) Hr1 Hf). rewrite R1. exact R2. }
    rewrite <- F in R8. clear F. rewrite due_snoc.
    unfold save_forces in R8. destruct (g_save_forces g) as [|k'] eqn:Ek; [lia|]. rewrite <- Ek in *.
    fold (save_due (g_save_forces g) (g_save_after g) n) in R8.
    destruct (save_due (g_save_forces g) (g_save_after g) n) eqn:Edue.
    + assert (Hle : (g_save_after g <= n)%nat).
      { unfold save_due in Edue. apply andb_true_iff in Edue. destruct Edue as [_ E]. apply Nat.leb_le in E. exact E. }
      destruct (Nat.leb_spec (S n) (g_save_after g)); [lia|]. rewrite map_app. simpl map.
      destruct (Nat.eqb_spec n (g_save_after g)) as [En|En].
      * injection R8 as <-. rewrite due_none by lia. reflexivity.
      * assert (Hn0 : Nat.eqb n (g_start g) = false) by (apply Nat.eqb_neq; lia). rewrite Hn0 in R8. simpl negb in R8. cbv iota in R8.
        destruct (Nat.leb_spec n (g_save_after g)); [lia|]. rewrite IH in R8. injection R8 as <-. reflexivity.
    + rewrite app_nil_r. injection R8 as <-. rewrite IH.
      destruct (Nat.leb_spec n (g_save_after g)), (Nat.leb_spec (S n) (g_save_after g)); try reflexivity; try lia.
      exfalso. assert (n = g_save_after g) by lia. subst n.
      unfold save_due in Edue. rewrite Ha, Nat.leb_refl in Edue. discriminate.
Qed.

(** Arrays never filled. *)
Lemma never_saved_forces n st : g_save_forces g = 0%nat -> ran n st -> s_fsaved st = None.
Proof.
  intros H0. revert st. induction n as [|n IH]; intros st Hr.
  - assert (st = fresh p0) by (unfold ran in Hr; simpl in Hr; congruence). subst st. reflexivity.
  - destruct (ran_S _ _ Hr) as (st1 & Hr1 & Hf). specialize (IH _ Hr1).
    destruct (s_error st1) eqn:He; [rewrite latch in Hf by exact He; congruence|].
    destruct (frame_inv _ _ _ _ _ _ _ _ _ He Hf) as (regen & r & R1 & R2 & R3 & _ & _ & _ & _ & R8 & _).
    unfold save_forces in R8. rewrite H0 in R8. congruence.
Qed.
Lemma never_saved_positions n st : g_save_pos g = 0%nat -> ran n st -> s_saved st = None.
Proof.
  intros H0. revert st. induction n as [|n IH]; intros st Hr.
  - assert (st = fresh p0) by (unfold ran in Hr; simpl in Hr; congruence). subst st. reflexivity.
  - destruct (ran_S _ _ Hr) as (st1 & Hr1 & Hf). specialize (IH _ Hr1).
    destruct (s_error st1) eqn:He; [rewrite latch in Hf by exact He; congruence|].
    destruct (frame_inv _ _ _ _ _ _ _ _ _ He Hf) as (regen & r & R1 & R2 & R3 & _ & _ & _ & R7 & _).
    unfold save_positions in R7. rewrite H0 in R7. congruence.
Qed.

(** Once the first frame due is not the start-saving frame, nothing can be saved. *)
Lemma offset_none n st : g_start g = 0%nat -> (g_save_after g mod g_save_pos g <> 0)%nat -> (0 < g_save_pos g)%nat ->
  ran n st -> quiet n -> s_saved st = None /\ forall f, (f < n)%nat -> save_due (g_save_pos g) (g_save_after g) f = false.
Proof.
  intros Hst Ha Hk. revert st. induction n as [|n IH]; intros st Hr Hq.
  - assert (st = fresh p0) by (unfold ran in Hr; simpl in Hr; congruence). subst st. split; [reflexivity|intros; lia].
  - destruct (ran_S _ _ Hr) as (st1 & Hr1 & Hf). destruct (IH _ Hr1 (quiet_S _ Hq)) as [IH1 IH2].
    assert (He : s_error st1 = false) by (apply (Hq n); [lia|exact Hr1]).
    destruct (frame_inv _ _ _ _ _ _ _ _ _ He Hf) as (regen & r & R1 & R2 & R3 & _ & _ & _ & R7 & _).
    unfold save_positions in R7. destruct (g_save_pos g) as [|k'] eqn:Ek; [lia|]. rewrite <- Ek in *.
    fold (save_due (g_save_pos g) (g_save_after g) n) in R7.
    destruct (save_due (g_save_pos g) (g_save_after g) n) eqn:Edue.
    + exfalso. unfold save_due in Edue. apply andb_true_iff in Edue. destruct Edue as [E1 E2].
      apply Nat.eqb_eq in E1. apply Nat.leb_le in E2.
      assert (Nat.eqb n (g_save_after g) = false) as En by (apply Nat.eqb_neq; intros ->; congruence).
      rewrite En, IH1 in R7.
      assert (n <> 0)%nat.
      { intros ->. assert (g_save_after g = 0)%nat by lia. rewrite H in Ha. apply Ha. apply Nat.mod_0_l. lia. }
      assert (Nat.eqb n (g_start g) = false) as E0 by (apply Nat.eqb_neq; lia). rewrite E0 in R7. discriminate R7.
    + split; [congruence|]. intros f Hlt. destruct (Nat.eq_dec f n) as [-> |]; [exact Edue|apply IH2; lia].
Qed.

(** The backup file holds what had been saved after some earlier frame. *)
Lemma backup_content n st s f : ran n st -> s_tempfile st = Some (s, f) ->
  exists m stm, (m <= n)%nat /\ ran m stm /\ s_saved stm = Some s /\ s_fsaved stm = Some f.
Proof.
  revert st. induction n as [|n IH]; intros st Hr Ht.
  - assert (st = fresh p0) by (unfold ran in Hr; simpl in Hr; congruence). subst st. discriminate.
  - destruct (ran_S _ _ Hr) as (st1 & Hr1 & Hf).
    destruct (s_error st1) eqn:He.
    { rewrite latch in Hf by exact He. injection Hf as <-. destruct (IH _ Hr1 Ht) as (m & stm & Hm & ?). exists m, stm. split; [lia|assumption]. }
    destruct (frame_inv _ _ _ _ _ _ _ _ _ He Hf) as (regen & r & R1 & R2 & R3 & _ & _ & _ & R7 & R8 & R9).
    assert (Hold : s_tempfile st = s_tempfile st1 -> exists m stm, (m <= S n)%nat /\ ran m stm /\ s_saved stm = Some s /\ s_fsaved stm = Some f).
    { intros Eq. rewrite Eq in Ht. destruct (IH _ Hr1 Ht) as (m & stm & Hm & ?). exists m, stm. split; [lia|assumption]. }
    unfold backup in R9. destruct (g_save_pos g); [injection R9 as Eq; apply Hold; congruence|].
    binv R9. destruct (_ && _)%bool in R9.
    + binv R9. injection R9 as Eq. rewrite <- Eq in Ht. injection Ht as ->.
      unfold savez in E0. destruct (s_fsaved st) eqn:E1; [|discriminate]. destruct (s_saved st) eqn:E2; [|discriminate].
      injection E0 as <- <-. exists (S n), st. repeat split; auto.
    + injection R9 as Eq. apply Hold. congruence.
Qed.
End Save.
