(** Consequences of the step formulas for runs and frames, and instances. *)
From Coq Require Import Reals List Arith Bool Lia Lra.
From Verif Require Import Base Py Model_Mob Model_Close Model_Step Model_Frame Spec_Frame Spec_Scheme Spec_Step
  Proof_Close Proof_Step Proof_Frame Proof_Frame3 Proof_Frame4 Proof_Frame5 Proof_Scheme Proof_Scheme2 Proof_Resume.
Import ListNotations.
Local Open Scope R_scope.

Lemma run_constant inv Ns Nd far rest g VU VB VD n st0 st :
  periodic g = false -> g_fully_2d g = false ->
  (forall p t v M s, rest p t v M = Ok s -> still s /\
     (forall i l, (i < Ns)%nat -> (l < 3)%nat -> o_Ua s i l = VU i l) /\
     (forall i l, (i < Nd)%nat -> (l < 3)%nat -> o_Ub s i l = VB i l) /\
     (forall i l, (i < Nd)%nat -> (l < 3)%nat -> o_HalfDUb s i l = VD i l)) ->
  run_frames inv Ns Nd far rest g st0 (seq (g_start g) n) = Ok st -> s_error st = false ->
  (forall i l, (i < Ns)%nat -> (l < 3)%nat -> c_spos (s_pos st) i l = c_spos (s_pos st0) i l + INR n * g_dt g * VU i l) /\
  (forall i l, (i < Nd)%nat -> (l < 3)%nat -> c_dpos (s_pos st) i l = c_dpos (s_pos st0) i l + INR n * g_dt g * VB i l) /\
  (forall i l, (i < Nd)%nat -> (l < 3)%nat -> c_ddx (s_pos st) i l = c_ddx (s_pos st0) i l + INR n * g_dt g * (2 * VD i l)).
Proof.
  intros Hp H2 Hr H He.
  destruct (run_total inv Ns Nd far rest g Hp H2 (fun _ => VU) (fun _ => VB) (fun _ => VD) Hr n st0 st H He) as (_ & T1 & T2 & T3).
  unfold total in *. split; [|split]; intros i l Hi Hl; [rewrite T1|rewrite T2|rewrite T3]; auto; rewrite sum_const; ring.
Qed.

Lemma run_cubic inv Ns Nd far rest g (aU bU cU dU aB bB cB dB : nat -> vec) n st0 st :
  periodic g = false -> g_fully_2d g = false -> g_scheme g = rk4 ->
  (forall p t v M s, rest p t v M = Ok s -> still s /\
     (forall i l, (i < Ns)%nat -> (l < 3)%nat -> o_Ua s i l = cubic (aU i l) (bU i l) (cU i l) (dU i l) t) /\
     (forall i l, (i < Nd)%nat -> (l < 3)%nat -> o_Ub s i l = cubic (aB i l) (bB i l) (cB i l) (dB i l) t) /\
     (forall i l, (i < Nd)%nat -> (l < 3)%nat -> o_HalfDUb s i l = 0)) ->
  run_frames inv Ns Nd far rest g st0 (seq (g_start g) n) = Ok st -> s_error st = false ->
  let t0 := INR (g_start g) in let t1 := INR (g_start g + n) in
  (forall i l, (i < Ns)%nat -> (l < 3)%nat -> c_spos (s_pos st) i l = c_spos (s_pos st0) i l +
     g_dt g * (antiderivative (aU i l) (bU i l) (cU i l) (dU i l) t1 - antiderivative (aU i l) (bU i l) (cU i l) (dU i l) t0)) /\
  (forall i l, (i < Nd)%nat -> (l < 3)%nat -> c_dpos (s_pos st) i l = c_dpos (s_pos st0) i l +
     g_dt g * (antiderivative (aB i l) (bB i l) (cB i l) (dB i l) t1 - antiderivative (aB i l) (bB i l) (cB i l) (dB i l) t0)).
Proof.
  intros Hp H2 Hs Hr H He t0 t1.
  destruct (run_total inv Ns Nd far rest g Hp H2 (fun t i l => cubic (aU i l) (bU i l) (cU i l) (dU i l) t)
    (fun t i l => cubic (aB i l) (bB i l) (cB i l) (dB i l) t) (fun _ _ _ => 0) Hr n st0 st H He) as (_ & T1 & T2 & _).
  unfold total in *. rewrite Hs in *. split; intros i l Hi Hl; [rewrite T1|rewrite T2]; auto.
  - rewrite <- (sum_rk4 (g_start g) n). reflexivity.
  - rewrite <- (sum_rk4 (g_start g) n). reflexivity.
Qed.

Lemma run_linear inv Ns Nd far rest g (a b : nat -> vec) n st0 st :
  periodic g = false -> g_fully_2d g = false -> g_scheme g = ab2 -> Nd = 0%nat ->
  (forall p t v M s, rest p t v M = Ok s -> still s /\
     (forall i l, (i < Ns)%nat -> (l < 3)%nat -> o_Ua s i l = cubic (a i l) (b i l) 0 0 t)) ->
  run_frames inv Ns Nd far rest g st0 (seq (g_start g) (S n)) = Ok st ->
  s_error st = false ->
  let t0 := INR (g_start g) in let t1 := INR (g_start g + S n) in
  forall i l, (i < Ns)%nat -> (l < 3)%nat -> c_spos (s_pos st) i l = c_spos (s_pos st0) i l +
    g_dt g * cubic (a i l) (b i l) 0 0 t0 +
    g_dt g * (antiderivative (a i l) (b i l) 0 0 t1 - antiderivative (a i l) (b i l) 0 0 (t0 + 1)).
Proof.
  intros Hp H2 Hs Hd Hr H He t0 t1 i l Hi Hl.
  assert (Hr' : forall p t v M s, rest p t v M = Ok s -> still s /\
     (forall i l, (i < Ns)%nat -> (l < 3)%nat -> o_Ua s i l = (fun t i l => cubic (a i l) (b i l) 0 0 t) t i l) /\
     (forall i l, (i < Nd)%nat -> (l < 3)%nat -> o_Ub s i l = (fun _ _ _ => 0) t i l) /\
     (forall i l, (i < Nd)%nat -> (l < 3)%nat -> o_HalfDUb s i l = (fun _ _ _ => 0) t i l)).
  { intros p t v M s Hk. destruct (Hr _ _ _ _ _ Hk) as [A B]. split; [exact A|split; [exact B|split; intros; lia]]. }
  destruct (run_total inv Ns Nd far rest g Hp H2 _ _ _ Hr' (S n) st0 st H He) as (_ & T1 & _).
  unfold total in *. rewrite Hs in *. rewrite T1 by auto.
  pose proof (sum_ab2 (g_start g) n (a i l) (b i l)) as HS. match goal with |- context [rsum (S n) ?f] => change (rsum (S n) f) with (rsum (S n) (fun k => increment ab2 (g_start g) (cubic (a i l) (b i l) 0 0) (g_start g + k))) end. rewrite HS. unfold t0, t1. ring.
Qed.

Lemma frame_rk4 inv Ns Nd far rest g FU FB FD f st st' :
  periodic g = false -> g_fully_2d g = false -> g_scheme g = rk4 ->
  (forall p t v M s, rest p t v M = Ok s -> still s /\
     (forall i l, (i < Ns)%nat -> (l < 3)%nat -> o_Ua s i l = FU p t i l) /\
     (forall i l, (i < Nd)%nat -> (l < 3)%nat -> o_Ub s i l = FB p t i l) /\
     (forall i l, (i < Nd)%nat -> (l < 3)%nat -> o_HalfDUb s i l = FD p t i l)) ->
  s_error st = false -> generate_frame inv Ns Nd far rest g st f = Ok st' ->
  let p := s_pos st in let t := INR f in let dt := g_dt g in
  exists p1 p2 p3,
    moved Ns Nd p p1 (dt / 2) (FU p t) (FB p t) (FD p t) /\
    moved Ns Nd p p2 (dt / 2) (FU p1 (t + 1 / 2)) (FB p1 (t + 1 / 2)) (FD p1 (t + 1 / 2)) /\
    moved Ns Nd p p3 dt (FU p2 (t + 1 / 2)) (FB p2 (t + 1 / 2)) (FD p2 (t + 1 / 2)) /\
    let mean (F : config -> R -> nat -> vec) : nat -> vec := fun i l =>
      (F p t i l + 2 * F p1 (t + 1 / 2) i l + 2 * F p2 (t + 1 / 2) i l + F p3 (t + 1) i l) / 6 in
    moved Ns Nd p (s_pos st') dt (mean FU) (mean FB) (mean FD).
Proof.
  intros Hp H2 Hs Hr He H. destruct (frame_inv _ _ _ _ _ _ _ _ _ He H) as (regen & r & R1 & R2 & R3 & _).
  unfold step in R2. rewrite Hs in R2. rewrite R3.
  exact (rk4_step inv Ns Nd far rest g Hp H2 FU FB FD Hr _ _ _ _ _ _ _ R2).
Qed.

Lemma frame_background inv Ns Nd far rest g U W E c f st st' i l :
  periodic g = false -> g_fully_2d g = false -> g_scheme g = rk4 ->
  (forall p t v M s, rest p t v M = Ok s ->
     o_Uinf s = U /\ o_Oinf s = W /\ o_centre s = c /\ (forall E', In E' (o_Ea s) -> E' = E) /\
     (forall i l, (i < Ns)%nat -> (l < 3)%nat -> o_Ua s i l = 0)) ->
  s_error st = false -> generate_frame inv Ns Nd far rest g st f = Ok st' -> (i < Ns)%nat -> (l < 3)%nat ->
  c_spos (s_pos st') i l = c_spos (s_pos st) i l + g_dt g * linear_flow U W E c (c_spos (s_pos st) i) l.
Proof.
  intros Hp H2 Hs Hr He H Hi Hl. destruct (frame_inv _ _ _ _ _ _ _ _ _ He H) as (regen & r & R1 & R2 & R3 & _).
  unfold step in R2. rewrite Hs in R2. rewrite R3.
  exact (rk4_background inv Ns Nd far rest g U W E c _ _ _ _ _ _ _ _ _ Hp H2 Hr R2 Hi Hl).
Qed.

(** A force-free sphere in a background rotation. *)
Definition spin_solution (W : vec) : solution :=
  mkSol (fun _ => v3 0 0 0) (fun _ => mzero) (fun _ => v3 0 0 0) (fun _ => v3 0 0 0) (fun _ => v3 0 0 0) (fun _ => v3 0 0 0)
        [mzero] (fun _ => v3 0 0 0) (fun _ => v3 0 0 0) (v3 0 0 0) W (v3 0 0 0) (v3 0 0 0) mzero (fun _ => 0).
Definition spin_config : config :=
  mkConfig (fun _ => 1) (fun _ => v3 1 0 0) (fun _ j => match j with O => v3 2 0 0 | _ => v3 1 0 1 end) (fun _ => 1)
           (fun _ => v3 0 0 0) (fun _ => v3 1 0 0).

Lemma ex_not_periodic sch N a b c : periodic (ex_settings sch N a b c) = false.
Proof.
  unfold periodic. cbn [g_box_bl g_box_tr ex_settings]. replace (is_zero3 _) with true; [reflexivity|].
  symmetry. apply zero3_spec. intros l Hl. unfold vsub. ring.
Qed.

Lemma spin_refuted : exists st', generate_frame inv3 1 0 (fun _ _ => no_matrix) (fun _ _ _ _ => Ok (spin_solution (v3 0 0 1)))
    (ex_settings rk4 1 1 1 0) (fresh spin_config) 0 = Ok st' /\
  c_spos (s_pos st') 0%nat 0%nat = 1 /\
  classical_rk4 (linear_flow (v3 0 0 0) (v3 0 0 1) mzero (v3 0 0 0)) (c_spos spin_config 0%nat) 1 0%nat = 13 / 24.
Proof.
  match goal with |- exists st, ?x = Ok st /\ _ => assert (Hok : is_ok x (fun _ => true) = true) by (lazy; reflexivity) end.
  apply is_ok_spec in Hok. destruct Hok as (st & H & _). exists st. split; [exact H|]. split.
  - assert (Hb : forall (p : config) (t : R) (v : velocities) (M : mat) s, Ok (spin_solution (v3 0 0 1)) = Ok s ->
       o_Uinf s = v3 0 0 0 /\ o_Oinf s = v3 0 0 1 /\ o_centre s = v3 0 0 0 /\ (forall E', In E' (o_Ea s) -> E' = mzero) /\
       (forall i l, (i < 1)%nat -> (l < 3)%nat -> o_Ua s i l = 0)).
    { intros p t v M s Hk. injection Hk as <-. cbn [o_Uinf o_Oinf o_centre o_Ea o_Ua spin_solution].
      repeat split; [intros E' [<-|[]]; reflexivity|].
      intros i l _ Hl. destruct l as [|[|[|l]]]; [reflexivity|reflexivity|reflexivity|lia]. }
    rewrite (frame_background inv3 1 0 _ _ (ex_settings rk4 1 1 1 0) (v3 0 0 0) (v3 0 0 1) mzero (v3 0 0 0) 0 (fresh spin_config) st 0 0
      (ex_not_periodic _ _ _ _ _) eq_refl eq_refl Hb eq_refl H (le_n _) ltac:(lia)).
    unfold linear_flow, mvec, cross, vsub, mzero. cbn [fresh s_pos spin_config c_spos rsum v3 g_dt ex_settings]. ring.
  - unfold classical_rk4, linear_flow, mvec, cross, vsub, mzero. cbn [spin_config c_spos rsum v3]. field.
Qed.

Lemma two_runs (A : res state) (F : list snapshot * list fsnapshot -> res state) (P : state -> bool) :
  is_ok A (fun st => match s_tempfile st with Some c => is_ok (F c) P | None => false end) = true ->
  exists st s f stR, A = Ok st /\ s_tempfile st = Some (s, f) /\ F (s, f) = Ok stR /\ P stR = true.
Proof.
  intros H. apply is_ok_spec in H. destruct H as (st & H & E). destruct (s_tempfile st) as [[s f]|] eqn:Et; [|discriminate].
  apply is_ok_spec in E. destruct E as (stR & E & E'). exists st, s, f, stR. auto.
Qed.

Definition crash_settings : settings := ex_settings euler 5 1 1 0.
Notation crash_run := (run inv3 1 0 (fun _ _ => no_matrix) (ex_rest (v3 1 0 0))) (only parsing).
Lemma crash_N : exists stN, crash_run crash_settings (fresh ex_config) = Ok stN /\ s_error stN = false.
Proof.
  assert (H : is_ok (crash_run crash_settings (fresh ex_config)) (fun st => negb (s_error st)) = true) by (lazy; reflexivity).
  apply is_ok_spec in H. destruct H as (st & H & E). exists st. split; [exact H|apply negb_true_iff; exact E].
Qed.
Lemma crash_R : exists st s f stR,
  run_frames inv3 1 0 (fun _ _ => no_matrix) (ex_rest (v3 1 0 0)) crash_settings (fresh ex_config) (seq 0 3) = Ok st /\
  s_tempfile st = Some (s, f) /\
  crash_run (restarted crash_settings (snd (resume 1 ex_config (s, f)))) (fst (resume 1 ex_config (s, f))) = Ok stR /\ s_error stR = false.
Proof.
  destruct (two_runs (run_frames inv3 1 0 (fun _ _ => no_matrix) (ex_rest (v3 1 0 0)) crash_settings (fresh ex_config) (seq 0 3))
    (fun c => crash_run (restarted crash_settings (snd (resume 1 ex_config c))) (fst (resume 1 ex_config c)))
    (fun st => negb (s_error st))) as (st & s & f & stR & H1 & Et & H3 & E3); [lazy; reflexivity|].
  exists st, s, f, stR. split; [exact H1|]. split; [exact Et|]. split; [exact H3|]. apply negb_true_iff; exact E3.
Qed.
Lemma run_def inv Ns Nd far rest g st :
  run inv Ns Nd far rest g st = run_frames inv Ns Nd far rest g st (seq (g_start g) (g_num_frames g - g_start g)).
Proof. reflexivity. Qed.
Lemma crash_not_periodic : periodic crash_settings = false. Proof. exact (ex_not_periodic euler 5 1 1 0). Qed.
Lemma crash_rest : forall p t v M s, ex_rest (v3 1 0 0) p t v M = Ok s -> still s /\
  (forall i l, (i < 1)%nat -> (l < 3)%nat -> o_Ua s i l = v3 1 0 0 l) /\
  (forall i l, (i < 0)%nat -> (l < 3)%nat -> o_Ub s i l = v3 0 0 0 l) /\
  (forall i l, (i < 0)%nat -> (l < 3)%nat -> o_HalfDUb s i l = v3 0 0 0 l).
Proof.
  intros p t v M s0 Hs. injection Hs as <-. split; [|split; [reflexivity|split; intros; lia]].
  split; [|split].
  + intros l Hl. destruct l as [|[|[|l]]]; [reflexivity|reflexivity|reflexivity|lia].
  + intros l Hl. destruct l as [|[|[|l]]]; [reflexivity|reflexivity|reflexivity|lia].
  + intros E [<-|[]] k l _ _. reflexivity.
Qed.
Lemma crash_pos_N stN : crash_run crash_settings (fresh ex_config) = Ok stN -> s_error stN = false -> c_spos (s_pos stN) 0%nat 0%nat = 5.
Proof.
  intros H2 EN. pose proof H2 as H2'. rewrite run_def in H2'.
  destruct (run_constant inv3 1 0 (fun _ _ => no_matrix) (ex_rest (v3 1 0 0)) crash_settings (fun _ => v3 1 0 0) (fun _ => v3 0 0 0) (fun _ => v3 0 0 0)
    (g_num_frames crash_settings - g_start crash_settings) (fresh ex_config) stN crash_not_periodic eq_refl crash_rest H2' EN) as (C & _).
  rewrite C by lia. cbn [fresh s_pos ex_config c_spos v3 crash_settings g_dt ex_settings g_num_frames g_start Nat.sub INR]. lra.
Qed.
Lemma crash_pos_R st s f stN stR :
  run_frames inv3 1 0 (fun _ _ => no_matrix) (ex_rest (v3 1 0 0)) crash_settings (fresh ex_config) (seq 0 3) = Ok st ->
  s_tempfile st = Some (s, f) ->
  crash_run crash_settings (fresh ex_config) = Ok stN -> s_error stN = false ->
  crash_run (restarted crash_settings (snd (resume 1 ex_config (s, f)))) (fst (resume 1 ex_config (s, f))) = Ok stR -> s_error stR = false ->
  c_spos (s_pos stR) 0%nat 0%nat = c_spos (s_pos stN) 0%nat 0%nat - 1.
Proof.
  intros H1 Et H2 EN H3 ER.
  destruct (lost_timestep inv3 1 0 (fun _ _ => no_matrix) (ex_rest (v3 1 0 0)) crash_settings ex_config eq_refl eq_refl eq_refl eq_refl eq_refl ex_config 2 st s f stN stR
    (fun _ _ => v3 1 0 0) (fun _ _ => v3 0 0 0) (fun _ _ => v3 0 0 0) eq_refl crash_not_periodic eq_refl crash_rest H1) as (L & _).
  - cbn [g_num_frames crash_settings ex_settings]. lia.
  - exists 2%nat. reflexivity.
  - exact Et.
  - exact H2.
  - exact EN.
  - exact H3.
  - exact ER.
  - rewrite L by lia. cbn [g_dt crash_settings ex_settings v3]. lra.
Qed.
Lemma same_run_refuted : exists st s f stN stR,
  run_frames inv3 1 0 (fun _ _ => no_matrix) (ex_rest (v3 1 0 0)) crash_settings (fresh ex_config) (seq 0 3) = Ok st /\
  s_tempfile st = Some (s, f) /\
  run inv3 1 0 (fun _ _ => no_matrix) (ex_rest (v3 1 0 0)) crash_settings (fresh ex_config) = Ok stN /\
  run inv3 1 0 (fun _ _ => no_matrix) (ex_rest (v3 1 0 0)) (restarted crash_settings (snd (resume 1 ex_config (s, f)))) (fst (resume 1 ex_config (s, f))) = Ok stR /\
  c_spos (s_pos stN) 0%nat 0%nat = 5 /\ c_spos (s_pos stR) 0%nat 0%nat = 4.
Proof.
  destruct crash_N as (stN & H2 & EN). destruct crash_R as (st & s & f & stR & H1 & Et & H3 & ER).
  exists st, s, f, stN, stR. split; [exact H1|]. split; [exact Et|]. split; [exact H2|]. split; [exact H3|].
  pose proof (crash_pos_N stN H2 EN) as P. split; [exact P|].
  rewrite (crash_pos_R st s f stN stR H1 Et H2 EN H3 ER), P. lra.
Qed.
