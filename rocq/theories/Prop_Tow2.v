(** C98: spheres and dumbbells with prescribed forces and torques and no
    stresslets (form fts); Runge-Kutta. *)
From Coq Require Import Reals List Arith ZArith Bool Lia Lra.
From Verif Require Import Base Py Model_Pack Model_Mob Model_Layout Model_Minf Model_Grand Model_Close Model_R2B Model_GrandP Model_Step
  Model_Output Model_Frame Model_Inputs Model_Sim Spec_Pack Spec_Layout Spec_Minf Spec_Convert Spec_Output Spec_Step Spec_Frame Spec_Posdef Spec_Run Spec_Run4
  Spec_Turn Spec_Two Spec_Push Spec_Tow Spec_Tow4
  Proof_Minf Proof_Minf4 Proof_MinfP8 Proof_Posdef Proof_Posdef2 Proof_Frame Proof_Run Proof_Run2 Spec_Runs Proof_Runs2 Proof_Runs3 Prop_Runs Prop_Run
  Proof_Turn2 Proof_Work3 Proof_Two4 Proof_Two6 Prop_Two Proof_Push1 Proof_Push2 Proof_Push3 Prop_Push Proof_Tow1 Proof_Tow2 Prop_Tow Proof_Tow4 Proof_Turn3.
From Verif Require Proof_Step Prop_Minf.
Import ListNotations.
Local Open Scope R_scope.

(** Every completed Runge-Kutta run of form fts without near field, box and
    stresslets, with at least one sphere, in whose stages spheres and beads have
    room: each sphere and bead moves, from stage to stage and over the frame,
    with the closed form of the velocities of the stages. *)
Theorem C98_rk4 :
  forall inv inv3 solve sc table h stale Ns Nd bb cutoff_factor g input p0 s fs,
    let N := g_num_frames g in
    let frames := run_frames inv3 Ns Nd (far_inverse inv h stale Ns Nd bb g input)
      (solve_rest inv inv3 solve sc table h stale Ns Nd fts false bb true cutoff_factor g input) g (fresh p0) in
    let reached := fun m p => exists st, frames (seq 0 m) = Ok st /\ s_pos st = p in
    inverts_posdef inv -> solves_posdef solve -> (0 < Ns)%nat -> g_explosion g = false \/ Nd = 0%nat ->
    g_use_drag g = false -> g_start g = 0%nat -> no_box_g g -> g_scheme g = rk4 ->
    (0 < g_save_pos g)%nat -> (0 < g_save_forces g)%nat ->
    (g_save_after g mod g_save_pos g = 0)%nat -> (g_save_after g mod g_save_forces g = 0)%nat ->
    (forall p t i f, input p t = Ok (i, f) -> well_posed Ns Nd fts i /\ no_stresslet (i_Sa i) /\ 0 < f_mu f /\ unbounded f) ->
    (forall m pos K q L fl o, (m < N)%nat -> (K < 4)%nat -> (forall k, (k <= m)%nat -> reached k (pos k)) ->
       stages inv3 sc table h stale Ns Nd fts bb true cutoff_factor g input pos m K q L fl o ->
       roomy (Ns + 2 * Nd) (beads_of Ns Nd (q K)) (radii_of Ns Nd (q K))) ->
    full_simulation inv inv3 solve sc table h stale Ns Nd fts false bb true cutoff_factor g input p0 = Ok (Some (s, fs)) ->
    exists (pos : nat -> config) (q : nat -> nat -> config) (inp : nat -> nat -> inputs) (fl : nat -> nat -> flow) (frc : nat -> fsnapshot),
      pos 0%nat = p0 /\
      (forall m, (m < N)%nat ->
         (forall k, (k < 4)%nat -> input (q m k) (stage_time m k) = Ok (inp m k, fl m k)) /\
         exists m', latest_due 0 (g_invert_every g) m m' /\
           tow_frame bb Ns Nd g m m' (pos m') (f_mu (fl m' 0%nat)) (q m) (inp m) (fl m) (pos m) (pos (S m))) /\
      (forall m, (m < N)%nat ->
         (forall j l, (j < Ns)%nat -> n_Fa (frc m) j l = mean4 (fun k => load (i_Fa (inp m k)) j l)) /\
         (forall j k l, (j < Ns)%nat -> (k < 3)%nat -> (l < 3)%nat -> n_Sa (frc m) j k l = 0) /\
         (forall j l, (j < Nd)%nat -> n_Fb (frc m) j l = mean4 (fun k => load (i_Fb (inp m k)) j l) /\ n_DFb (frc m) j l = mean4 (fun k => load (i_DFb (inp m k)) j l))) /\
      s = map (fun m => snap Ns (pos m)) (due_frames (g_save_pos g) (g_save_after g) N)
          ++ (if save_due (g_save_pos g) (g_save_after g) (N - 1) then [snap Ns (pos N)] else []) /\
      fs = map frc (due_frames (g_save_forces g) (g_save_after g) N).
Proof.
  intros inv inv3 solve sc table h stale Ns Nd bb cf g input p0 s fs N frames reached Hi Hs HN Hex Hd H0 Hb Hsch S1 S2 S3 S4 HI HR E.
  apply (towed_run4 inv inv3 solve sc table h stale Ns Nd bb cf g input p0 Hi Hs HN Hex Hd H0 Hb S1 S2 S3 S4); try assumption.
  - intros p t i f EI. destruct (HI p t i f EI) as (A & _ & B & C). auto.
  - intros p t i f EI. apply (HI p t i f EI).
Qed.
Print Assumptions C98_rk4.

(** ** Example *)
(** Two unit spheres, 6 apart, side by side: in all stages, each with its own
    far field, they fall at the same speed and stay side by side.  (3 / 6480 pi
    is the rate of strain of each at the place of the other, added to the
    background flow.) *)
Definition abreast (z : R) (p : config) : Prop :=
  (forall j, c_ssizes p j = 1) /\ forall l, (l < 3)%nat -> c_spos p 0%nat l = v3 (-3) 0 z l /\ c_spos p 1%nat l = v3 3 0 z l.
Lemma abreast_far z p : abreast z p -> norm (vsub (c_spos p 0%nat) (c_spos p 1%nat)) = 6 /\ norm (vsub (c_spos p 1%nat) (c_spos p 0%nat)) = 6.
Proof.
  intros [_ A]. unfold norm, vsub. destruct (A 0%nat ltac:(lia)) as [-> ->], (A 1%nat ltac:(lia)) as [-> ->], (A 2%nat ltac:(lia)) as [-> ->]. cbn [v3].
  split; match goal with |- sqrt ?e = 6 => replace e with (6 * 6) by ring end; apply sqrt_square; lra.
Qed.
Lemma abreast_roomy z p : abreast z p -> roomy (2 + 2 * 0) (beads_of 2 0 p) (radii_of 2 0 p).
Proof.
  intros A. destruct (abreast_far z p A) as [N1 N2]. apply (proj2 C92_room 2%nat _ _ 1); [lia| |].
  - intros b Hb. unfold radii_of. destruct (Nat.ltb_spec b 2); [|lia]. rewrite (proj1 A b). lra.
  - intros b b' Hb Hb' Ne. assert (norm (vsub (beads_of 2 0 p b) (beads_of 2 0 p b')) = 6) as ->.
    { destruct b as [|[|b]], b' as [|[|b']]; try lia; assumption. }
    split; [|cbn [INR]; lra]. apply Rlt_trans with 1; [|lra]. rewrite <- Rinv_1. apply Rinv_lt_contravar; cbn; lra.
Qed.
Definition down : R := - (1 / (6 * PI) + wake 6) + 3 / (6480 * PI).
Notation gravity2 dt := (fun p t => input_ftsuoe 1 fts 2 0 p t dt).
Lemma gravity_loads dt p t i f : gravity2 dt p t = Ok (i, f) -> f = default_flow /\
  forall b l, (b < 2)%nat -> (l < 3)%nat -> bead_force 2 0 (load (i_Fa i)) (load (i_Fb i)) (load (i_DFb i)) b l = v3 0 0 (-1) l /\ bead_torque 2 (load (i_Ta i)) b l = v3 0 0 0 l.
Proof.
  intros E. split; [exact (gravity_flow 2 0 fts p t dt i f E)|]. rewrite (gravity_inputs 2 0 fts p t dt i f E). cbn [with_Fa default_inputs i_Fa i_Ta i_Fb i_DFb].
  intros b l Hb Hl. unfold bead_force, bead_torque. destruct (Nat.ltb_spec b 2); [|lia]. rewrite !load_repeat by assumption. unfold zeros3. split; idx3 Hl; cbn; ring.
Qed.
Lemma abreast_speed bb z p i :
  abreast z p ->
  (forall b l, (b < 2)%nat -> (l < 3)%nat -> bead_force 2 0 (load (i_Fa i)) (load (i_Fb i)) (load (i_DFb i)) b l = v3 0 0 (-1) l /\ bead_torque 2 (load (i_Ta i)) b l = v3 0 0 0 l) ->
  forall b l, (b < 2)%nat -> (l < 3)%nat ->
    tow_velocity bb 2 0 p 1 i b l = v3 0 0 (- (1 / (6 * PI) + wake 6)) l /\
    forall k, (k < 3)%nat -> tow_strain bb 2 0 p 1 i b k l = if ((Nat.eqb k 0 && Nat.eqb l 2) || (Nat.eqb k 2 && Nat.eqb l 0))%bool then (if Nat.eqb b 0 then -1 else 1) / (6480 * PI) else 0.
Proof.
  intros A HL b l Hb Hl. pose proof PI_RGT_0 as HP. destruct (abreast_far z p A) as [N1 N2]. destruct A as [A1 A2].
  destruct (A2 0%nat ltac:(lia)) as [X0 Y0], (A2 1%nat ltac:(lia)) as [X1 Y1], (A2 2%nat ltac:(lia)) as [X2 Y2]. cbn [v3] in *.
  destruct (towed_loads bb 1 2 2 (beads_of 2 0 p) (radii_of 2 0 p) _ (fun _ => v3 0 0 (-1)) _ (fun _ => v3 0 0 0) b HL Hb) as [TV TS].
  unfold tow_velocity, tow_strain. change (2 + 2 * 0)%nat with 2%nat. rewrite (TV l Hl). split.
  - unfold towed_velocity, rsum, felt. destruct b as [|[|b]]; [| |lia]; cbn [Nat.eqb Nat.ltb Nat.leb negb andb orb]; rewrite ?orb_true_r;
      unfold swept, heading, used_separation, radii_of, beads_of; cbn [Nat.ltb Nat.leb]; rewrite !A1, ?N1, ?N2, Rmax_left by lra;
      unfold dot3, cross, wake; rewrite X0, X1, X2, Y0, Y1, Y2; idx3 Hl; cbn [v3]; rewrite ?X0, ?X1, ?X2, ?Y0, ?Y1, ?Y2; field; lra.
  - intros k Hk. rewrite (TS k l Hk Hl). unfold towed_strain, rsum, felt. destruct b as [|[|b]]; [| |lia]; cbn [Nat.eqb Nat.ltb Nat.leb negb andb orb]; rewrite ?orb_true_r;
      unfold strained, heading, used_separation, radii_of, beads_of; cbn [Nat.ltb Nat.leb]; rewrite !A1, ?N1, ?N2, Rmax_left by lra;
      unfold dot3, cross, delta; rewrite X0, X1, X2, Y0, Y1, Y2; idx3 Hl; idx3 Hk; cbn [Nat.eqb andb orb v3]; rewrite ?X0, ?X1, ?X2, ?Y0, ?Y1, ?Y2; field; lra.
Qed.
(** Speed with the background flow, the frame having started side by side at height 0. *)
Lemma abreast_flow bb z p p0 i : abreast z p -> abreast 0 p0 ->
  (forall b l, (b < 2)%nat -> (l < 3)%nat -> bead_force 2 0 (load (i_Fa i)) (load (i_Fb i)) (load (i_DFb i)) b l = v3 0 0 (-1) l /\ bead_torque 2 (load (i_Ta i)) b l = v3 0 0 0 l) ->
  forall b l, (b < 2)%nat -> (l < 3)%nat ->
    tow_velocity bb 2 0 p 1 i b l + linear_flow (f_U default_flow) (f_O default_flow) (tow_strain bb 2 0 p 1 i b) (f_centre default_flow) (c_spos p0 b) l = v3 0 0 down l.
Proof.
  intros A A0 HL b l Hb Hl. rewrite (proj1 (abreast_speed bb z p i A HL b l Hb Hl)).
  assert (TS : forall k, (k < 3)%nat -> tow_strain bb 2 0 p 1 i b l k = if ((Nat.eqb l 0 && Nat.eqb k 2) || (Nat.eqb l 2 && Nat.eqb k 0))%bool then (if Nat.eqb b 0 then -1 else 1) / (6480 * PI) else 0)
    by (intros k Hk; apply (abreast_speed bb z p i A HL b k Hb Hk); exact Hl).
  unfold linear_flow, mvec, rsum. rewrite !TS by lia. destruct A0 as [_ A0].
  assert (X : forall c, (c < 3)%nat -> c_spos p0 b c = v3 (if Nat.eqb b 0 then -3 else 3) 0 0 c).
  { intros c Hc. destruct (A0 c Hc) as [X Y]. destruct b as [|[|b]]; [exact X|exact Y|lia]. }
  unfold cross, vsub. rewrite !X by lia. unfold default_flow, f_U, f_O, f_centre, down. pose proof PI_RGT_0.
  destruct b as [|[|b]]; [| |lia]; idx3 Hl; cbn [Nat.eqb andb orb v3]; field; lra.
Qed.
Definition pair_abreast : config :=
  mkConfig (fun _ => 1) (fun j => match j with O => v3 (-3) 0 0 | _ => v3 3 0 0 end) (fun j k => v3 1 0 (INR j)) (fun _ => 1) (fun _ => v3 0 0 0) (fun _ => v3 0 0 0).
Definition each_settings (dt : R) : settings :=
  mkSettings rk4 dt 1 0 1 false true false false (v3 0 0 0) (v3 0 0 0) 1 1 0 false 1.
Lemma stages_abreast inv3 sc dt bb pos q L fl o : abreast 0 (pos 0%nat) -> forall K, (K < 4)%nat ->
  stages inv3 sc [] 0 (fun _ _ => 0) 2 0 fts bb true 2 (each_settings dt) (gravity2 dt) pos 0 K q L fl o ->
  exists z, abreast z (q K).
Proof.
  intros A0 K HK ST. destruct K as [|K]; [exists 0; rewrite (proj1 ST); exact A0|].
  assert (G : forall k, (k <= K)%nat -> exists z, abreast z (q (S k))).
  { destruct ST as (Q0 & SV & MV).
    assert (STEP : forall k, (k <= K)%nat -> (exists z, abreast z (q k)) -> exists z, abreast z (q (S k))).
    { intros k Hk (z & A). destruct (SV k ltac:(lia)) as [FK (i & N0 & E0 & NF & AK)]. unfold near_field in NF. subst N0.
      destruct (gravity_loads dt _ _ _ _ E0) as [EF HL].
      assert (IV : is_inv 22 (generate_Minfinity bb (posdata_of 2 0 (q k)) 1) (L k)).
      { assert (FO : exists i1 f1 M, gravity2 dt (q k) (stage_time 0 k) = Ok (i1, f1) /\ far_mobility 0 (fun _ _ => 0) 2 0 bb (q k) f1 M /\ is_inv 22 M (L k)).
        { destruct k as [|k].
          - unfold stage_far, far_resistance in FK. cbn [each_settings g_use_drag] in FK. destruct FK as (m' & i1 & f1 & M & LD & E1 & FM & IV).
            assert (m' = 0%nat) by (destruct LD; lia). subst m'. exists i1, f1, M. rewrite Q0. auto.
          - destruct FK as [FK _]. apply FK. right. split; [reflexivity|right; reflexivity]. }
        destruct FO as (i1 & f1 & M & E1 & FM & IV). destruct (gravity_loads dt _ _ _ _ E1) as [-> _]. rewrite (proj1 FM) in IV by (intros l Hl; reflexivity). exact IV. }
      destruct (abreast_roomy z _ A) as (R1 & R2 & _).
      destruct (towed_answers bb 2 0 (q k) 1 i (L k) (fun a b => L k a b + mzero a b) (o k) ltac:(lra) R1 R2 IV) as [TA _].
      { intros. unfold mzero. ring. }
      { exact AK. }
      { apply (gravity_fts_d 2 0 dt ltac:(lia) _ _ _ _ E0). }
      destruct (MV k ltac:(lia) ltac:(lia)) as (SZ & _ & M1 & _).
      exists (stage_step dt k * down). split; [intros j; rewrite SZ; apply A0|].
      assert (P : forall j l, (j < 2)%nat -> (l < 3)%nat -> c_spos (q (S k)) j l = c_spos (pos 0%nat) j l + stage_step dt k * v3 0 0 down l).
      { intros j l Hj Hl. destruct (M1 j Hj) as (y & LX & X & _). assert (NB : no_box_g (each_settings dt)) by (intros a Ha; reflexivity).
        rewrite (landed_at inv3 _ NB _ _ _ LX l Hl), (X l Hl). cbn [each_settings g_dt]. f_equal. f_equal. unfold stage_speed.
        destruct (TA j Hj) as (T1 & _ & T3 & _). rewrite (T1 l Hl), EF. rewrite (flow_strain _ _ _ (tow_strain bb 2 0 (q k) 1 i j)) by (intros b Hb; exact (T3 l b Hl Hb)).
        apply (abreast_flow bb z); assumption. }
      intros l Hl. rewrite !P by lia. destruct A0 as [_ A0]. destruct (A0 l Hl) as [-> ->]. split; idx3 Hl; cbn [v3]; ring. }
    intros k. induction k as [|k IH]; intros Hk; apply STEP; try assumption; [exists 0; rewrite Q0; exact A0|apply IH; lia]. }
  apply G. lia.
Qed.
Example C98_rk4_example sc dt :
  exists y fs, full_simulation pinv Proof_Step.inv3 psolve sc [] 0 (fun _ _ => 0) 2 0 fts false true true 2 (each_settings dt) (gravity2 dt) pair_abreast
      = Ok (Some ([snap 2 pair_abreast; y], fs)) /\
    forall l, (l < 3)%nat -> n_pos y 0%nat l = v3 (-3) 0 (dt * down) l /\ n_pos y 1%nat l = v3 3 0 (dt * down) l.
Proof.
  assert (SH : solves_shape psolve) by (intros n A b _; unfold psolve; rewrite map_length, seq_length; reflexivity).
  assert (A0 : abreast 0 pair_abreast) by (split; [reflexivity|intros l Hl; split; reflexivity]).
  destruct (fts_completes_d pinv Proof_Step.inv3 psolve sc [] 0 (fun _ _ => 0) 2 0 true 2 (each_settings dt) dt pair_abreast SH ltac:(lia)) as (s & fs & E).
  { repeat split; cbn; auto; lia. }
  assert (RS : forall p, (exists st, run_frames Proof_Step.inv3 2 0 (far_inverse pinv 0 (fun _ _ => 0) 2 0 true (each_settings dt) (gravity2 dt))
      (solve_rest pinv Proof_Step.inv3 psolve sc [] 0 (fun _ _ => 0) 2 0 fts false true true 2 (each_settings dt) (gravity2 dt)) (each_settings dt) (fresh pair_abreast) (seq 0 0) = Ok st /\ s_pos st = p) -> p = pair_abreast).
  { intros p (st & Es & <-). cbn [seq run_frames] in Es. injection Es as <-. reflexivity. }
  destruct (C98_rk4 pinv Proof_Step.inv3 psolve sc [] 0 (fun _ _ => 0) 2 0 true 2 (each_settings dt) (gravity2 dt) pair_abreast s fs) as (pos & q & inp & fl & frc & P0 & PM & _ & PS & _);
    try assumption; try reflexivity; try (cbn; lia); try exact pinv_ok; try exact psolve_ok; try (left; reflexivity).
  - intros l Hl. reflexivity.
  - intros p t i f. apply gravity_fts_d. lia.
  - intros m pos K q L fl o Hm HK Hr ST. cbn [each_settings g_num_frames] in Hm. assert (m = 0%nat) by lia. subst m.
    assert (AP : abreast 0 (pos 0%nat)) by (rewrite (RS _ (Hr 0%nat (le_n 0))); exact A0).
    destruct (stages_abreast _ sc dt true pos q L fl o AP K HK ST) as (z & A). exact (abreast_roomy z _ A).
  - cbn [each_settings g_num_frames g_save_pos] in PS. cbn in PS. rewrite P0 in PS.
    exists (snap 2 (pos 1%nat)), fs. split; [rewrite E, PS; reflexivity|].
    destruct (PM 0%nat ltac:(cbn; lia)) as (EI & m' & LD & TF). assert (m' = 0%nat) by (destruct LD; lia). subst m'.
    destruct TF as (Q0 & TZ & TZ' & TQ & TP). rewrite P0 in *. cbn [each_settings g_fully_2d g_rk4_each g_dt Nat.eqb andb] in TQ, TP.
    assert (FL : forall k, (k < 4)%nat -> fl 0%nat k = default_flow) by (intros k Hk; apply (gravity_loads dt _ _ _ _ (EI k Hk))).
    assert (LO : forall k, (k < 4)%nat -> forall b l, (b < 2)%nat -> (l < 3)%nat -> bead_force 2 0 (load (i_Fa (inp 0%nat k))) (load (i_Fb (inp 0%nat k))) (load (i_DFb (inp 0%nat k))) b l = v3 0 0 (-1) l /\ bead_torque 2 (load (i_Ta (inp 0%nat k))) b l = v3 0 0 0 l)
      by (intros k Hk; apply (gravity_loads dt _ _ _ _ (EI k Hk))).
    assert (AQ : forall k, (k < 4)%nat -> exists z, abreast z (q 0%nat k)).
    { assert (STEP : forall k, (k < 3)%nat -> (exists z, abreast z (q 0%nat k)) -> exists z, abreast z (q 0%nat (S k))).
      { intros k Hk (z & A). exists (stage_step dt k * down). split; [intros j; rewrite (proj1 (TZ (S k) ltac:(lia))); apply A0|].
        assert (P : forall j l, (j < 2)%nat -> (l < 3)%nat -> c_spos (q 0%nat (S k)) j l = c_spos pair_abreast j l + stage_step dt k * v3 0 0 down l).
        { intros j l Hj Hl. pose proof (TQ k j l Hk ltac:(cbn; lia) Hl) as T. unfold beads_of in T. destruct (Nat.ltb_spec j 2); [|lia]. rewrite T. f_equal. f_equal.
          rewrite !FL by lia. destruct k as [|k]; cbn [Nat.ltb Nat.leb andb].
          - apply (abreast_flow true 0); try assumption. apply LO; lia.
          - apply (abreast_flow true z); try assumption. apply LO; lia. }
        intros l Hl. rewrite !P by lia. destruct A0 as [_ A0']. destruct (A0' l Hl) as [-> ->]. split; idx3 Hl; cbn [v3]; ring. }
      intros k. induction k as [|k IH]; intros Hk; [exists 0; rewrite Q0; exact A0|apply STEP; [lia|apply IH; lia]]. }
    assert (P : forall j l, (j < 2)%nat -> (l < 3)%nat -> c_spos (pos 1%nat) j l = c_spos pair_abreast j l + dt * v3 0 0 down l).
    { intros j l Hj Hl. pose proof (TP j l ltac:(cbn; lia) Hl) as T. unfold beads_of in T. destruct (Nat.ltb_spec j 2); [|lia]. rewrite T. f_equal. f_equal.
      unfold mean4. rewrite !FL by lia. cbn [Nat.ltb Nat.leb andb].
      destruct (AQ 1%nat ltac:(lia)) as (z1 & A1), (AQ 2%nat ltac:(lia)) as (z2 & A2), (AQ 3%nat ltac:(lia)) as (z3 & A3).
      change (f_mu default_flow) with 1.
      rewrite (abreast_flow true 0 _ _ _ A0 A0 (LO 0%nat ltac:(lia)) j l Hj Hl), (abreast_flow true z1 _ _ _ A1 A0 (LO 1%nat ltac:(lia)) j l Hj Hl),
        (abreast_flow true z2 _ _ _ A2 A0 (LO 2%nat ltac:(lia)) j l Hj Hl), (abreast_flow true z3 _ _ _ A3 A0 (LO 3%nat ltac:(lia)) j l Hj Hl). field. }
    intros l Hl. change (n_pos (snap 2 (pos 1%nat)) 0%nat l) with (c_spos (pos 1%nat) 0%nat l). change (n_pos (snap 2 (pos 1%nat)) 1%nat l) with (c_spos (pos 1%nat) 1%nat l).
    rewrite !P by lia. split; idx3 Hl; cbn [pair_abreast c_spos v3]; ring.
Qed.
