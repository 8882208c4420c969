(** Final output: what simulate returns, and when it fails. *)
From Coq Require Import Reals List Arith Bool Lia Lra.
From Verif Require Import Base Py Model_Mob Model_Close Model_Step Model_Frame Spec_Frame Proof_Close Proof_Frame Proof_Frame3 Proof_Frame4.
Import ListNotations.
Local Open Scope R_scope.

Section Out.
Variable inv : mat -> mat.
Variables Ns Nd : nat.
Variable far : config -> R -> mat.
Variable rest : config -> R -> velocities -> mat -> res solution.
Variable g : settings.
Notation frame := (generate_frame inv Ns Nd far rest g).
Notation frames := (run_frames inv Ns Nd far rest g).

Lemma frame_error st f st' : s_error st = false -> g_explosion g = false -> frame st f = Ok st' -> s_error st' = false.
Proof.
  intros He Hx H. destruct (frame_inv _ _ _ _ _ _ _ _ _ He H) as (regen & r & R1 & R2 & R3 & R4 & _).
  rewrite R4. eapply step_error; eauto.
Qed.

Lemma unprotected st l st' : s_error st = false -> g_explosion g = false -> frames st l = Ok st' -> s_error st' = false.
Proof.
  intros He Hx. revert st He. induction l as [|f l IH]; intros st He H; simpl in H; [congruence|].
  binv H. eapply IH; [|exact H]. eapply frame_error; eauto.
Qed.

Lemma flagged st f st' : s_error st = false -> frame st f = Ok st' ->
  g_scheme g = euler \/ g_scheme g = ab2 ->
  (s_error st' = true <-> g_explosion g = true /\ exists i, (i < Nd)%nat /\ 5 < norm (c_ddx (s_pos st') i)).
Proof.
  intros He H Hs. destruct (frame_inv _ _ _ _ _ _ _ _ _ He H) as (regen & r & R1 & R2 & R3 & R4 & _).
  rewrite R4, R3. eapply euler_error; eauto.
Qed.

Lemma unflagged st f st' : s_error st = false -> frame st f = Ok st' -> s_error st' = false ->
  g_explosion g = true -> forall i, (i < Nd)%nat -> norm (c_ddx (s_pos st') i) <= 5.
Proof.
  intros He H He' Hx. destruct (frame_inv _ _ _ _ _ _ _ _ _ He H) as (regen & r & R1 & R2 & R3 & R4 & _).
  rewrite R3. rewrite R4 in He'. destruct (step_error _ _ _ _ _ _ _ _ _ _ _ _ R2) as [HH _]. auto.
Qed.

(** After an error the remaining frames do nothing. *)
Lemma freeze st s n m st1 : frames st (seq s n) = Ok st1 -> s_error st1 = true -> (n <= m)%nat ->
  frames st (seq s m) = Ok st1.
Proof.
  intros H He Hm. replace m with (n + (m - n))%nat by lia. rewrite seq_app, frames_app, H. cbn [bind].
  apply latch_run. exact He.
Qed.

Section Fresh.
Variable p0 : config.
Notation ran := (ran inv Ns Nd far rest g p0).

Lemma early_none n st : (n <= g_save_after g)%nat -> ran n st -> s_saved st = None /\ s_fsaved st = None.
Proof.
  revert st. induction n as [|n IH]; intros st Hn Hr.
  - assert (st = fresh p0) by (unfold Proof_Frame3.ran in Hr; simpl in Hr; congruence). subst st. auto.
  - destruct (ran_S _ _ _ _ _ _ _ _ _ Hr) as (st1 & Hr1 & Hf). destruct (IH _ ltac:(lia) Hr1) as [I1 I2].
    destruct (s_error st1) eqn:He; [rewrite latch in Hf by exact He; injection Hf as <-; auto|].
    destruct (frame_inv _ _ _ _ _ _ _ _ _ He Hf) as (regen & r & R1 & R2 & R3 & _ & _ & _ & R7 & R8 & _).
    assert (Hb : forall k, (Nat.eqb (n mod k) 0 && Nat.leb (g_save_after g) n)%bool = false).
    { intros k. destruct (Nat.leb_spec (g_save_after g) n); [lia|]. apply andb_false_r. }
    unfold save_positions in R7. unfold save_forces in R8. rewrite Hb in R7, R8.
    split; [destruct (g_save_pos g)|destruct (g_save_forces g)]; congruence.
Qed.

Lemma simulate_ran out : g_start g = 0%nat ->
  simulate inv Ns Nd far rest g (fresh p0) = Ok out ->
  exists st, ran (g_num_frames g) st /\ final_save g st = Ok out.
Proof.
  unfold simulate, run. intros H0 H. binv H. exists a. split; [|exact H]. rewrite H0, Nat.sub_0_r in E. exact E.
Qed.

(** The file is written only if both kinds of data have been saved. *)
Lemma no_output_one : g_start g = 0%nat ->
  (g_save_pos g = 0%nat /\ g_save_forces g <> 0%nat) \/ (g_save_pos g <> 0%nat /\ g_save_forces g = 0%nat) ->
  forall out, simulate inv Ns Nd far rest g (fresh p0) <> Ok out.
Proof.
  intros H0 H out Hs. destruct (simulate_ran _ H0 Hs) as (st & Hr & Hf). unfold final_save in Hf.
  destruct H as [[A B]|[A B]].
  - rewrite (never_saved_positions _ _ _ _ _ _ _ _ _ A Hr), A in Hf.
    destruct (g_save_forces g) as [|k]; [congruence|]. simpl in Hf. unfold savez in Hf. destruct (s_fsaved st); discriminate.
  - rewrite (never_saved_forces _ _ _ _ _ _ _ _ _ B Hr), B in Hf.
    destruct (g_save_pos g) as [|k]; [congruence|]. discriminate.
Qed.

Lemma no_output_early : g_start g = 0%nat ->
  (g_save_pos g <> 0 \/ g_save_forces g <> 0)%nat -> (g_num_frames g <= g_save_after g)%nat ->
  forall out, simulate inv Ns Nd far rest g (fresh p0) <> Ok out.
Proof.
  intros H0 H Hn out Hs. destruct (simulate_ran _ H0 Hs) as (st & Hr & Hf). unfold final_save in Hf.
  destruct (early_none _ _ Hn Hr) as [A1 A2]. rewrite A1, A2 in Hf.
  destruct (g_save_pos g), (g_save_forces g); simpl in Hf; try discriminate. lia.
Qed.

Lemma no_output_offset : g_start g = 0%nat -> (0 < g_save_pos g)%nat -> (g_save_after g mod g_save_pos g <> 0)%nat ->
  g_explosion g = false ->
  (exists f, (f < g_num_frames g)%nat /\ save_due (g_save_pos g) (g_save_after g) f = true) ->
  forall out, simulate inv Ns Nd far rest g (fresh p0) <> Ok out.
Proof.
  intros H0 Hk Ha Hx (f & Hf & Hd) out Hs. destruct (simulate_ran _ H0 Hs) as (st & Hr & _).
  assert (Hq : quiet inv Ns Nd far rest g p0 (g_num_frames g)).
  { intros m stm Hm Hrm. eapply unprotected; [|exact Hx|exact Hrm]. reflexivity. }
  destruct (offset_none _ _ _ _ _ _ _ _ _ H0 Ha Hk Hr Hq) as [_ HH]. specialize (HH f Hf). congruence.
Qed.

(** The output of a run without errors. *)
Lemma output_complete s f :
  g_start g = 0%nat -> (0 < g_save_pos g)%nat -> (0 < g_save_forces g)%nat ->
  (g_save_after g mod g_save_pos g = 0)%nat -> (g_save_after g mod g_save_forces g = 0)%nat ->
  (forall m st, (m < g_num_frames g)%nat -> frames (fresh p0) (seq 0 m) = Ok st -> s_error st = false) ->
  simulate inv Ns Nd far rest g (fresh p0) = Ok (Some (s, f)) ->
  let N := g_num_frames g in
  exists pos frc,
    (forall m, (m <= N)%nat -> exists st, frames (fresh p0) (seq 0 m) = Ok st /\ s_pos st = pos m) /\
    s = map (fun m => snap Ns (pos m)) (due_frames (g_save_pos g) (g_save_after g) N)
        ++ (if save_due (g_save_pos g) (g_save_after g) (N - 1) then [snap Ns (pos N)] else []) /\
    f = map frc (due_frames (g_save_forces g) (g_save_after g) N) /\
    forall m, (m < N)%nat -> exists st regen r, frames (fresh p0) (seq 0 m) = Ok st /\ regenerate_now g m = Ok regen /\
      step inv Ns Nd far rest g m regen (s_pos st) false (if regen then no_matrix else s_minv st) (vel_at g st m) = Ok r /\
      frc m = t_forces r.
Proof.
  intros H0 Hk Hkf Ha Haf Hq Hs N.
  assert (Hlt : (g_save_after g < N)%nat).
  { destruct (le_lt_dec N (g_save_after g)) as [Hle|]; [|assumption]. exfalso.
    apply (no_output_early H0 (or_introl (Nat.neq_sym _ _ (Nat.lt_neq _ _ Hk))) Hle _ Hs). }
  destruct (simulate_ran _ H0 Hs) as (st & Hr & Hf). fold N in Hr.
  destruct (positions_exist _ _ _ _ _ _ _ _ _ Hr) as (pos & Hp).
  destruct (saved_forces _ _ _ _ _ _ _ _ _ H0 Hkf Haf Hr Hq) as (frc & Hfr & Ef).
  pose proof (saved_positions _ _ _ _ _ _ _ _ _ _ H0 Hk Ha (le_n _) Hr Hq Hp) as Ep.
  fold N in Ep. destruct (Nat.leb_spec N (g_save_after g)); [lia|].
  rewrite Nat.eqb_refl in Ep. cbn [andb] in Ep. unfold final_save in Hf. rewrite Ep, Ef in Hf.
  destruct (g_save_forces g) as [|kf] eqn:Ekf; [lia|]. rewrite <- Ekf in *. cbn [Nat.eqb andb] in Hf.
  replace (Nat.eqb (g_save_forces g) 0) with false in Hf by (symmetry; apply Nat.eqb_neq; lia). cbn in Hf.
  injection Hf as <- <-. exists pos, frc. repeat split; [exact Hp|]. exact Hfr.
Qed.
End Fresh.
End Out.

(** A concrete run: one sphere, no dumbbells, constant velocity, three frames. *)
Definition ex_settings (sch : scheme) (N save savef after : nat) : settings :=
  mkSettings sch 1 N 0 2 false false false true (v3 0 0 0) (v3 0 0 0) save savef after true 1.
Definition ex_config : config :=
  mkConfig (fun _ => 1) (fun _ => v3 0 0 0) (fun _ j => match j with O => v3 1 0 0 | _ => v3 0 0 1 end) (fun _ => 1)
           (fun _ => v3 0 0 0) (fun _ => v3 1 0 0).
Definition ex_solution (U : vec) : solution :=
  mkSol (fun _ => v3 0 0 0) (fun _ => mzero) (fun _ => v3 0 0 0) (fun _ => v3 0 0 0) (fun _ => U) (fun _ => v3 0 0 0)
        [mzero] (fun _ => v3 0 0 0) (fun _ => v3 0 0 0) (v3 0 0 0) (v3 0 0 0) (v3 0 0 0) (v3 0 0 0) mzero (fun _ => 0).
Definition ex_rest (U : vec) : config -> R -> velocities -> mat -> res solution := fun _ _ _ _ => Ok (ex_solution U).

Lemma saved_positions_prefix inv Ns Nd far rest g p0 n st :
  let frames := run_frames inv Ns Nd far rest g (fresh p0) in
  g_start g = 0%nat -> (0 < g_save_pos g)%nat -> (g_save_after g mod g_save_pos g = 0)%nat ->
  (n <= g_num_frames g)%nat -> frames (seq 0 n) = Ok st ->
  (forall m st, (m < n)%nat -> frames (seq 0 m) = Ok st -> s_error st = false) ->
  exists pos, (forall m, (m <= n)%nat -> exists st, frames (seq 0 m) = Ok st /\ s_pos st = pos m) /\
    s_saved st = if Nat.leb n (g_save_after g) then None
                 else Some (map (fun m => snap Ns (pos m)) (due_frames (g_save_pos g) (g_save_after g) n)
                            ++ (if (Nat.eqb n (g_num_frames g) && save_due (g_save_pos g) (g_save_after g) (n - 1))%bool
                                then [snap Ns (pos n)] else [])).
Proof.
  intros frames H0 Hk Ha Hn Hr Hq. destruct (positions_exist _ _ _ _ _ _ _ _ _ Hr) as (pos & Hp).
  exists pos. split; [exact Hp|]. exact (saved_positions _ _ _ _ _ _ _ _ _ _ H0 Hk Ha Hn Hr Hq Hp).
Qed.

Definition is_ok {A} (x : res A) (P : A -> bool) : bool := match x with Ok a => P a | Raise _ => false end.
Lemma is_ok_spec {A} (x : res A) P : is_ok x P = true -> exists a, x = Ok a /\ P a = true.
Proof. destruct x; simpl; intros H; [eauto|discriminate]. Qed.
Lemma frames_next inv Ns Nd far rest g st s n :
  is_ok (run_frames inv Ns Nd far rest g st (seq s n)) (fun st => negb (s_error st)) = true ->
  is_ok (run_frames inv Ns Nd far rest g st (seq s (S n))) (fun _ => true) = true ->
  exists st1, run_frames inv Ns Nd far rest g st (seq s n) = Ok st1 /\ s_error st1 = false /\
    exists st', generate_frame inv Ns Nd far rest g st1 (s + n) = Ok st'.
Proof.
  intros H H'. apply is_ok_spec in H, H'. destruct H as (st1 & H & E). destruct H' as (st' & H' & _).
  apply frames_snoc in H'. destruct H' as (st2 & H1 & H2). exists st1. split; [exact H|].
  split; [destruct (s_error st1); [discriminate|reflexivity]|]. exists st'. congruence.
Qed.
