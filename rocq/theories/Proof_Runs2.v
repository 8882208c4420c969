(** Runs that do not raise: the loop. *)
From Coq Require Import Reals List Arith Bool Lra Lia.
From Verif Require Import Base Py Model_Minf Model_Close Model_R2B Model_MinfP Model_Grand Model_GrandP
  Model_Step Model_Output Model_Frame Model_Inputs Model_Sim Spec_Output Spec_Frame Spec_Runs Proof_Runs Proof_Frame Prop_Frame.
Import ListNotations.
Local Open Scope R_scope.

Definition sized (ss ds : nat -> R) (p : config) : Prop := c_ssizes p = ss /\ c_dsizes p = ds.

Section Loop.
Variable inv : mat -> mat.
Variables Ns Nd : nat.
Variable far : config -> R -> mat.
Variable rest : config -> R -> velocities -> mat -> res solution.
Variable g : settings.
Variables ss ds : nat -> R.
Hypothesis Hrest : forall p t vel mi, sized ss ds p -> exists s, rest p t vel mi = Ok s /\ enough Ns (o_Ea s).
Hypothesis Hg : usable g Nd.

Lemma gen_returns p t vel last regen : sized ss ds p ->
  exists mi s, gen far rest g p t vel last regen = Ok (mi, s) /\ enough Ns (o_Ea s).
Proof.
  intros Hp. unfold gen. destruct (Hrest p t vel (if (g_use_drag g || regen)%bool then far p t else last) Hp) as (s & E & L).
  rewrite E. cbn [bind]. eexists; eexists; split; [reflexivity|exact L].
Qed.
Lemma flow_spheres_returns s x : enough Ns (o_Ea s) -> exists r, flow_spheres Ns s x = Ok r.
Proof. intros [L _]. unfold flow_spheres. apply Nat.ltb_ge in L. rewrite L. eexists; reflexivity. Qed.
Lemma flow_dumbbells_returns s Ea x dx : enough Ns Ea -> exists r, flow_dumbbells s Ea x dx = Ok r.
Proof. intros [_ L]. unfold flow_dumbbells. destruct Ea; [simpl in L; lia|]. eexists; reflexivity. Qed.

Lemma stage_returns s Ea p err h : sized ss ds p -> enough Ns (o_Ea s) -> enough Ns Ea ->
  exists p' U B D W e, rk4_stage inv Ns Nd g s Ea p err h = Ok (p', U, B, D, W, e) /\ sized ss ds p'.
Proof.
  intros Hp L LE. unfold rk4_stage.
  destruct (flow_spheres_returns s (c_spos p) L) as ([U W] & ->). destruct (flow_dumbbells_returns s Ea (c_dpos p) (c_ddx p) LE) as ([B D] & ->).
  destruct (Nat.eqb Ns 0), (Nat.eqb Nd 0); cbn [bind]; do 6 eexists; (split; [reflexivity|exact Hp]).
Qed.

Lemma step_returns f regen p err minv vel : sized ss ds p ->
  exists r, step inv Ns Nd far rest g f regen p err minv vel = Ok r /\ sized ss ds (t_pos r).
Proof.
  intros Hp. destruct Hg as (HS & _).
  assert (EA : g_scheme g = euler \/ g_scheme g = ab2 /\ Nd = 0%nat ->
    exists r, step_euler_ab2 inv Ns Nd far rest g f regen p err minv vel = Ok r /\ sized ss ds (t_pos r)).
  { intros HE. unfold step_euler_ab2. destruct (gen_returns p (INR f) vel minv regen Hp) as (mi & s & -> & L). cbn [bind].
    destruct (flow_spheres_returns s (c_spos p) L) as ([U W] & ->).
    destruct (flow_dumbbells_returns s (o_Ea s) (c_dpos p) (c_ddx p) L) as ([B D] & ->). cbv zeta.
    destruct (Nat.eqb Ns 0), (Nat.eqb_spec Nd 0) as [E0|E0]; cbn [bind]; try (eexists; split; [reflexivity|exact Hp]);
      (destruct HE as [->|[_ HE]]; [|contradiction]; eexists; split; [reflexivity|exact Hp]). }
  unfold step. destruct HS as [HS|[HS|[HS H0]]]; rewrite HS.
  - apply EA. left. exact HS.
  - clear EA. unfold step_rk4. destruct (gen_returns p (INR f) vel minv regen Hp) as (mi & s1 & -> & L1). cbn [bind]. cbv zeta.
    destruct (stage_returns s1 (o_Ea s1) p err (g_dt g / 2) Hp L1 L1) as (p1 & U1 & B1 & D1 & W1 & e1 & -> & Hp1). cbn [bind].
    match goal with |- context [gen _ _ g p1 ?t _ _ ?b] => destruct (gen_returns p1 t vel mi b Hp1) as (m2 & s2 & -> & L2) end. cbn [bind].
    destruct (stage_returns s2 (o_Ea s1) p e1 (g_dt g / 2) Hp L2 L1) as (p2 & U2 & B2 & D2 & W2 & e2 & -> & Hp2). cbn [bind].
    match goal with |- context [gen _ _ g p2 ?t _ _ ?b] => destruct (gen_returns p2 t vel mi b Hp2) as (m3 & s3 & -> & L3) end. cbn [bind].
    destruct (stage_returns s3 (o_Ea s3) p e2 (g_dt g) Hp L3 L3) as (p3 & U3 & B3 & D3 & W3 & e3 & -> & Hp3). cbn [bind].
    match goal with |- context [gen _ _ g p3 ?t _ _ ?b] => destruct (gen_returns p3 t vel mi b Hp3) as (m4 & s4 & -> & L4) end. cbn [bind].
    destruct (flow_spheres_returns s4 (c_spos p) L4) as ([U4 W4] & ->).
    destruct (flow_dumbbells_returns s4 (o_Ea s4) (c_dpos p) (c_ddx p) L4) as ([B4 D4] & ->).
    destruct (Nat.eqb Ns 0), (Nat.eqb Nd 0); cbn [bind]; eexists; (split; [reflexivity|exact Hp]).
  - apply EA. right. split; assumption.
Qed.

(** Before frame [m]: sizes are unchanged and, but for the first frame,
    something has been saved. *)
Definition ready (m : nat) (st : state) : Prop :=
  sized ss ds (s_pos st) /\ (m = 0%nat -> s_error st = false) /\ ((0 < m)%nat -> s_saved st <> None /\ s_fsaved st <> None).

Lemma positions_return f p p' saved : ((0 < f)%nat -> saved <> None) ->
  exists l, save_positions Ns g f p p' saved = Ok (Some l).
Proof.
  destruct Hg as (_ & _ & HS & _ & _ & HP & _ & HA). intros H. unfold save_positions. rewrite HS, HA.
  destruct (g_save_pos g) as [|k] eqn:Ek; [lia|]. rewrite <- Ek in *.
  destruct f as [|f].
  - replace (0 mod g_save_pos g)%nat with 0%nat by (symmetry; apply Nat.mod_0_l; lia). cbn [Nat.eqb Nat.leb andb bind].
    match goal with |- context [if ?b then _ else _] => destruct b end; eexists; reflexivity.
  - destruct saved as [l|]; [|exfalso; apply H; [lia|reflexivity]].
    destruct (_ && _)%bool; cbn [Nat.eqb negb bind]; [|eexists; reflexivity].
    match goal with |- context [if ?b then _ else _] => destruct b end; eexists; reflexivity.
Qed.
Lemma forces_return f x saved : ((0 < f)%nat -> saved <> None) -> exists l, save_forces g f x saved = Ok (Some l).
Proof.
  destruct Hg as (_ & _ & HS & _ & _ & _ & HP & HA). intros H. unfold save_forces. rewrite HS, HA.
  destruct (g_save_forces g) as [|k] eqn:Ek; [lia|]. rewrite <- Ek in *.
  destruct f as [|f].
  - replace (0 mod g_save_forces g)%nat with 0%nat by (symmetry; apply Nat.mod_0_l; lia). cbn [Nat.eqb Nat.leb andb bind].
    eexists; reflexivity.
  - destruct saved as [l|]; [|exfalso; apply H; [lia|reflexivity]].
    destruct (_ && _)%bool; cbn [Nat.eqb negb bind]; eexists; reflexivity.
Qed.
Lemma backup_returns f l m old : exists t, backup g f (Some l) (Some m) old = Ok t.
Proof.
  destruct Hg as (_ & _ & _ & _ & HT & _). unfold backup. destruct (g_save_pos g); [eexists; reflexivity|].
  unfold divides. destruct (g_temp_every g); [lia|]. cbn [bind].
  destruct (_ && _)%bool; cbn [savez bind]; eexists; reflexivity.
Qed.

Lemma frame_returns st f : ready f st -> exists st', generate_frame inv Ns Nd far rest g st f = Ok st' /\ ready (S f) st'.
Proof.
  intros (Hp & He0 & Hs). destruct (s_error st) eqn:He.
  { assert (f <> 0%nat) by (intros E; specialize (He0 E); discriminate He0).
    exists st. rewrite latch by exact He. split; [reflexivity|]. split; [exact Hp|]. split; [discriminate|]. intros _. apply Hs. lia. }
  assert (exists regen, regenerate_now g f = Ok regen) as [regen Hr].
  { destruct Hg as (_ & _ & _ & HI & _). unfold regenerate_now, divides. destruct (g_invert_every g); [lia|]. eexists; reflexivity. }
  destruct (step_returns f regen (s_pos st) false (if regen then no_matrix else s_minv st) (vel_at g st f) Hp) as (r & Es & Hp').
  destruct (positions_return f (s_pos st) (t_pos r) (s_saved st)) as [l El]. { intros H. apply (Hs H). }
  destruct (forces_return f (t_forces r) (s_fsaved st)) as [m Em]. { intros H. apply (Hs H). }
  destruct (backup_returns f l m (s_tempfile st)) as [t Et].
  rewrite (frame_intro inv Ns Nd far rest g st f regen r (Some l) (Some m) t) by assumption.
  eexists. split; [reflexivity|]. split; [exact Hp'|]. split; [discriminate|]. cbn [s_saved s_fsaved]. intros _. split; discriminate.
Qed.
Lemma frames_return p0 : sized ss ds p0 -> forall n, exists st,
  run_frames inv Ns Nd far rest g (fresh p0) (seq 0 n) = Ok st /\ ready n st.
Proof.
  intros Hp. induction n as [|n (st & E & IH)].
  - exists (fresh p0). split; [reflexivity|]. split; [exact Hp|]. split; [reflexivity|lia].
  - destruct (frame_returns st n IH) as (st' & E' & H'). exists st'. split; [|exact H'].
    apply (frames_snoc_intro _ _ _ _ _ _ _ 0 n st); assumption.
Qed.
Lemma simulate_returns p0 : sized ss ds p0 -> exists s f, simulate inv Ns Nd far rest g (fresh p0) = Ok (Some (s, f)).
Proof.
  intros Hp. destruct (frames_return p0 Hp (g_num_frames g)) as (st & E & _ & _ & Hs).
  destruct Hg as (_ & HN & H0 & _ & _ & HP & HF & _). specialize (Hs HN).
  unfold simulate, run. rewrite H0, Nat.sub_0_r, E. cbn [bind]. unfold final_save.
  destruct (Nat.eqb_spec (g_save_forces g) 0); [lia|]. cbn [andb].
  unfold savez. destruct (s_fsaved st) as [f|]; [|destruct Hs; contradiction]. destruct (s_saved st) as [s|]; [|destruct Hs; contradiction].
  exists s, f. reflexivity.
Qed.
End Loop.

(** Nothing can be flagged: no protection, or no dumbbells. *)
Lemma stage_error inv Ns g s Ea p err h p' U B D W e :
  rk4_stage inv Ns 0 g s Ea p err h = Ok (p', U, B, D, W, e) -> e = err.
Proof. unfold rk4_stage. intros H. binv H. dpair. cbn [Nat.eqb bind] in H. injection H as _ _ _ _ _ <-. reflexivity. Qed.
Lemma step_error inv Ns far rest g f regen p err minv vel r :
  step inv Ns 0 far rest g f regen p err minv vel = Ok r -> t_error r = err.
Proof.
  unfold step. destruct (g_scheme g).
  - unfold step_euler_ab2. intros H. binv H. dpair. binv H. dpair. cbn [Nat.eqb bind] in H. injection H as <-. reflexivity.
  - unfold step_euler_ab2. intros H. binv H. dpair. binv H. dpair. cbn [Nat.eqb bind] in H. injection H as <-. reflexivity.
  - unfold step_rk4. intros H. binv H. dpair. binv H. dpair. apply stage_error in E0. subst.
    binv H. dpair. binv H. dpair. apply stage_error in E1. subst. binv H. dpair. binv H. dpair. apply stage_error in E2. subst.
    binv H. dpair. binv H. dpair. cbn [Nat.eqb bind] in H. destruct (Nat.eqb Ns 0); injection H as <-; reflexivity.
  - discriminate.
Qed.
Lemma no_flag inv Ns Nd far rest g st : (g_explosion g = false \/ Nd = 0%nat) -> s_error st = false ->
  forall l st', run_frames inv Ns Nd far rest g st l = Ok st' -> s_error st' = false.
Proof.
  intros [H| ->] He l st' Hr; [exact (C36_unprotected inv Ns Nd far rest g st l st' He H Hr)|].
  revert st He Hr. induction l as [|f l IH]; intros st He Hr; simpl in Hr; [injection Hr as <-; exact He|].
  binv Hr. apply (IH a); [|exact Hr].
  destruct (frame_inv _ _ _ _ _ _ _ _ _ He E) as (regen & r & _ & Es & _ & Ee & _). rewrite Ee. eapply step_error. exact Es.
Qed.

Lemma due_every n : due_frames 1 0 n = seq 0 n.
Proof.
  unfold due_frames. assert (H : forall l, filter (save_due 1 0) l = l); [|apply H].
  induction l as [|x l IH]; [reflexivity|]. cbn [filter]. unfold save_due at 1. rewrite Nat.mod_1_r. cbn [Nat.eqb Nat.leb andb]. rewrite IH. reflexivity.
Qed.

(** ** The whole simulation *)
Section Sim.
Variable inv : nat -> mat -> mat.
Variable inv3 : mat -> mat.
Variable solve : nat -> mat -> list R -> list R.
Variable sc : nat -> nat -> R -> nat -> R.
Variable table : list R.
Variable h : nat.
Variable stale : nat -> nat -> R.
Variables Ns Nd : nat.
Variable fm : form.
Variables extract bb minf_only : bool.
Variable cutoff_factor : R.
Variable g : settings.
Variable input : config -> R -> res (inputs * flow).
Variable p0 : config.
Variable sizes : list R.
Hypothesis Hsolve : solves_shape solve.
Hypothesis Hss : forall i, (i < Ns)%nat -> In (c_ssizes p0 i) sizes.
Hypothesis Hds : forall i, (i < Nd)%nat -> In (c_dsizes p0 i) sizes.
Hypothesis Htab : minf_only = true \/ tabulated table sizes.
Hypothesis HX : fm = ufte -> extract = false.
Hypothesis Hin : forall p t, c_ssizes p = c_ssizes p0 -> c_dsizes p = c_dsizes p0 ->
  exists i f, input p t = Ok (i, f) /\ complete fm Ns Nd i /\
    (free_space f = true \/ (g_use_drag g = false /\ i_Ea i <> [])).

Lemma rest_returns p t vel mi : sized (c_ssizes p0) (c_dsizes p0) p ->
  exists s, solve_rest inv inv3 solve sc table h stale Ns Nd fm extract bb minf_only cutoff_factor g input p t vel mi = Ok s /\
    enough Ns (o_Ea s).
Proof.
  intros [E1 E2]. destruct (Hin p t E1 E2) as (i & f & Ei & HC & HF).
  assert (HB : forall k, (k < Ns + 2 * Nd)%nat -> In (bead_sizes (posdata_of Ns Nd p) k) sizes).
  { intros k Hk. unfold bead_sizes, posdata_of. cbn [num_spheres num_dumbbells sphere_sizes dumbbell_sizes]. rewrite E1, E2.
    destruct (Nat.ltb_spec k Ns); [auto|]. destruct (Nat.ltb_spec k (Ns + Nd)); apply Hds; lia. }
  unfold solve_rest. rewrite Ei. cbn [bind].
  match goal with |- exists s, match fm with fts => bind ?X _ | _ => _ end = _ /\ _ => assert (HX2 : exists r, X = Ok r) end.
  { destruct (free_space f) eqn:Ef.
    - unfold grand_resistance_free, add_near. destruct minf_only eqn:Em; cbn [bind andb]; [eexists; reflexivity|].
      destruct Htab as [Hm|Ht]; [discriminate Hm|].
      destruct (free_returns sc table sizes Ht bb (posdata_of Ns Nd p) cutoff_factor (f_mu f) HB) as [M ->]. cbn [bind]. eexists; reflexivity.
    - destruct HF as [HF|[HD HE]]; [discriminate HF|]. destruct (i_Ea i); [contradiction|].
      unfold grand_resistance_periodic, add_near. rewrite HD. cbn [bind]. destruct minf_only eqn:Em; cbn [bind]; [eexists; reflexivity|].
      destruct Htab as [Hm|Ht]; [discriminate Hm|].
      destruct (periodic_returns sc table sizes Ht inv3 bb (posdata_of Ns Nd p) cutoff_factor (f_mu f) (vsub (f_tr f) (f_bl f)) (f_Ot f) (f_Et f) HB) as [M ->].
      cbn [bind]. eexists; reflexivity. }
  destruct HX2 as ([G G'] & ->). cbn [bind].
  destruct (output_returns inv solve Ns Nd Hsolve fm extract G i HC HX) as (o & Eo & Lo). rewrite Eo. cbn [bind].
  destruct fm; try contradiction HC; (exists (solution_of o f); split; [reflexivity|]; unfold solution_of, enough; cbn [o_Ea]; rewrite map_length; exact Lo).
Qed.

Lemma whole_returns : usable g Nd ->
  exists s f, full_simulation inv inv3 solve sc table h stale Ns Nd fm extract bb minf_only cutoff_factor g input p0 = Ok (Some (s, f)) /\
    (g_save_pos g = 1%nat -> g_save_forces g = 1%nat -> (g_explosion g = false \/ Nd = 0%nat) ->
     length s = S (g_num_frames g) /\ length f = g_num_frames g).
Proof.
  intros Hg. unfold full_simulation.
  destruct (simulate_returns inv3 Ns Nd (far_inverse inv h stale Ns Nd bb g input) _ g (c_ssizes p0) (c_dsizes p0) rest_returns Hg p0) as (s & f & E).
  { split; reflexivity. }
  exists s, f. split; [exact E|]. intros HP HF HE. destruct Hg as (_ & HN & H0 & _ & _ & _ & _ & HA).
  set (far := far_inverse inv h stale Ns Nd bb g input) in *.
  set (rest := solve_rest inv inv3 solve sc table h stale Ns Nd fm extract bb minf_only cutoff_factor g input) in *.
  assert (A1 : (0 < g_save_pos g)%nat) by lia. assert (A2 : (0 < g_save_forces g)%nat) by lia.
  assert (A3 : (g_save_after g mod g_save_pos g = 0)%nat) by (rewrite HA; apply Nat.mod_0_l; lia).
  assert (A4 : (g_save_after g mod g_save_forces g = 0)%nat) by (rewrite HA; apply Nat.mod_0_l; lia).
  assert (A5 : forall m st, (m < g_num_frames g)%nat -> run_frames inv3 Ns Nd far rest g (fresh p0) (seq 0 m) = Ok st -> s_error st = false).
  { intros m st _ Hst. apply (no_flag inv3 Ns Nd far rest g (fresh p0) HE eq_refl _ _ Hst). }
  destruct (C35_output inv3 Ns Nd far rest g p0 s f H0 A1 A2 A3 A4 A5 E) as (pos & frc & _ & Hs & Hf & _).
  rewrite Hs, Hf, HP, HF, HA.
  rewrite !due_every, app_length, !map_length, seq_length.
  unfold save_due. rewrite Nat.mod_1_r. cbn [Nat.eqb Nat.leb andb length]. split; [lia|reflexivity].
Qed.
End Sim.
