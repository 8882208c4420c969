(** Consistency of the time stepping schemes. *)
From Coq Require Import Reals List Arith Bool Lia Lra.
From Verif Require Import Base Py Model_Mob Model_Close Model_Step Model_Frame Spec_Frame Spec_Scheme Spec_Step
  Proof_Close Proof_Step2 Proof_Frame Proof_Frame3 Proof_Frame4 Proof_Frame5.
Import ListNotations.
Local Open Scope R_scope.

Lemma cross_zero W x l : (forall k, (k < 3)%nat -> W k = 0) -> (l < 3)%nat -> cross W x l = 0.
Proof. intros H Hl. unfold cross. idx3 Hl; unfold v3; rewrite !H by lia; ring. Qed.
Lemma mvec_zero E x l : (forall k l, (k < 3)%nat -> (l < 3)%nat -> E k l = 0) -> (l < 3)%nat -> mvec 3 E x l = 0.
Proof. intros H Hl. unfold mvec. cbn [rsum]. rewrite !H by lia. ring. Qed.

Lemma flow_spheres_still Ns s pos U W i l : flow_spheres Ns s pos = Ok (U, W) -> still s -> (i < Ns)%nat -> (l < 3)%nat ->
  U i l = o_Ua s i l /\ W i l = o_Oa s i l.
Proof.
  unfold flow_spheres. intros H (H1 & H2 & H3) Hi Hl. destruct (Nat.ltb_spec (length (o_Ea s)) Ns) as [|HL]; [discriminate|].
  injection H as <- <-. unfold add_background_flow_sphere. cbn [fst snd].
  rewrite (cross_zero _ _ _ H2 Hl), H1, H2, mvec_zero by (auto; apply H3, nth_In; lia). lra.
Qed.
Lemma flow_dumbbells_still s Ea pos dx B D i l : flow_dumbbells s Ea pos dx = Ok (B, D) -> still s ->
  (forall E, In E Ea -> forall k l, (k < 3)%nat -> (l < 3)%nat -> E k l = 0) -> (l < 3)%nat ->
  B i l = o_Ub s i l /\ D i l = o_HalfDUb s i l.
Proof.
  unfold flow_dumbbells. intros H (H1 & H2 & _) H3 Hl. destruct Ea as [|E0 Ea]; [discriminate|].
  injection H as <- <-. unfold add_background_flow_dumbbell. cbn [fst snd].
  rewrite !(cross_zero _ _ _ H2 Hl), H1, !mvec_zero by (auto; apply H3; left; reflexivity). lra.
Qed.

Section Scheme.
Variable inv : mat -> mat.
Variables Ns Nd : nat.
Variable far : config -> R -> mat.
Variable rest : config -> R -> velocities -> mat -> res solution.
Variable g : settings.
Notation frame := (generate_frame inv Ns Nd far rest g).
Notation frames := (run_frames inv Ns Nd far rest g).
Hypothesis Hper : periodic g = false.
Hypothesis H2d : g_fully_2d g = false.

Lemma wrap_off s x : wrap inv g s x = x.
Proof. unfold wrap. rewrite Hper. reflexivity. Qed.

(** ** Velocities depending on the configuration and on time *)
Section Field.
Variables FU FB FD : config -> R -> nat -> vec.
Hypothesis Hrest : forall p t v M s, rest p t v M = Ok s -> still s /\
  (forall i l, (i < Ns)%nat -> (l < 3)%nat -> o_Ua s i l = FU p t i l) /\
  (forall i l, (i < Nd)%nat -> (l < 3)%nat -> o_Ub s i l = FB p t i l) /\
  (forall i l, (i < Nd)%nat -> (l < 3)%nat -> o_HalfDUb s i l = FD p t i l).

(** [q] is [p] moved by [h] with velocities [U], [B] and [2 D]. *)
Definition moved (p q : config) (h : R) (U B D : nat -> vec) : Prop :=
  (forall i l, (i < Ns)%nat -> (l < 3)%nat -> c_spos q i l = c_spos p i l + h * U i l) /\
  (forall i l, (i < Nd)%nat -> (l < 3)%nat -> c_dpos q i l = c_dpos p i l + h * B i l) /\
  (forall i l, (i < Nd)%nat -> (l < 3)%nat -> c_ddx q i l = c_ddx p i l + h * (2 * D i l)).

Definition agree (n : nat) (a b : nat -> vec) : Prop := forall i l, (i < n)%nat -> (l < 3)%nat -> a i l = b i l.

Lemma euler_step f regen p err minv vel r : g_scheme g = euler ->
  step_euler_ab2 inv Ns Nd far rest g f regen p err minv vel = Ok r ->
  moved p (t_pos r) (g_dt g) (FU p (INR f)) (FB p (INR f)) (FD p (INR f)).
Proof.
  intros Hs H. apply euler_inv in H.
  destruct H as (s & U & W & B & D & A1 & A2 & A3 & A4 & A5 & A6 & A7 & A8 & A9 & A10 & _).
  rewrite Hs, !wrap_off in A10. cbv zeta in A10. destruct (Hrest _ _ _ _ _ A2) as (S1 & S2 & S3 & S4).
  rewrite A10. unfold moved. cbn [c_spos c_dpos c_ddx]. split; [|split]; intros i l Hi Hl.
  - destruct (Nat.eqb_spec Ns 0) as [|HN]; [lia|]. destruct (A3 HN) as (U0 & E & EU). rewrite H2d in EU. subst U.
    unfold eul, euler_timestep. destruct (flow_spheres_still _ _ _ _ _ _ _ E S1 Hi Hl) as [-> _]. rewrite S2 by auto. reflexivity.
  - destruct (Nat.eqb_spec Nd 0) as [|HN]; [lia|]. specialize (A4 HN).
    destruct (flow_dumbbells_still _ _ _ _ _ _ i l A4 S1 (proj2 (proj2 S1)) Hl) as [E1 _].
    unfold eul, euler_timestep. rewrite E1, S3 by auto. reflexivity.
  - destruct (Nat.eqb_spec Nd 0) as [|HN]; [lia|]. specialize (A4 HN).
    destruct (flow_dumbbells_still _ _ _ _ _ _ i l A4 S1 (proj2 (proj2 S1)) Hl) as [_ E1].
    unfold eul, euler_timestep, twice. rewrite E1, S4 by auto. reflexivity.
Qed.

Lemma ab2_step f regen p err minv vel r : g_scheme g = ab2 ->
  step_euler_ab2 inv Ns Nd far rest g f regen p err minv vel = Ok r ->
  Nd = 0%nat /\ agree Ns (v_U (t_vel r)) (FU p (INR f)) /\
  forall i l, (i < Ns)%nat -> (l < 3)%nat -> c_spos (t_pos r) i l = c_spos p i l + g_dt g *
    (if Nat.eqb f (g_start g) then FU p (INR f) i l else 3 / 2 * FU p (INR f) i l - 1 / 2 * v_U vel i l).
Proof.
  intros Hs H. apply euler_inv in H.
  destruct H as (s & U & W & B & D & A1 & A2 & A3 & A4 & A5 & A6 & A7 & A8 & A9 & A10 & _).
  rewrite Hs, !wrap_off in A10. cbv zeta in A10. destruct (Hrest _ _ _ _ _ A2) as (S1 & S2 & S3 & S4).
  split; [destruct (Nat.eq_dec Nd 0); [assumption|]; rewrite A5 in Hs by assumption; discriminate|].
  assert (HU : agree Ns U (FU p (INR f))).
  { intros i l Hi Hl. destruct (A3 ltac:(lia)) as (U0 & E & EU). rewrite H2d in EU. subst U.
    destruct (flow_spheres_still _ _ _ _ _ _ _ E S1 Hi Hl) as [-> _]. apply S2; assumption. }
  rewrite A8. cbn [v_U]. split; [exact HU|]. intros i l Hi Hl. rewrite A10. cbn [c_spos].
  destruct (Nat.eqb_spec Ns 0) as [|HN]; [lia|]. destruct (Nat.eqb f (g_start g)).
  - unfold eul, euler_timestep. rewrite HU by auto. reflexivity.
  - unfold ab2_timestep. rewrite HU by auto. field.
Qed.

Lemma stage_step s Ea p e h p1 U B D W e1 f t v M :
  rest f t v M = Ok s -> (forall E, In E Ea -> forall k l, (k < 3)%nat -> (l < 3)%nat -> E k l = 0) ->
  rk4_stage inv Ns Nd g s Ea p e h = Ok (p1, U, B, D, W, e1) ->
  agree Ns U (FU f t) /\ agree Nd B (FB f t) /\ agree Nd D (FD f t) /\ moved p p1 h (FU f t) (FB f t) (FD f t).
Proof.
  intros Hr HE H. apply stage_inv in H. destruct H as (A1 & A2 & _ & _ & A3 & _).
  destruct (Hrest _ _ _ _ _ Hr) as (S1 & S2 & S3 & S4).
  assert (HU : agree Ns U (FU f t)).
  { intros i l Hi Hl. destruct (flow_spheres_still _ _ _ _ _ _ _ (A1 ltac:(lia)) S1 Hi Hl) as [-> _]. apply S2; assumption. }
  assert (HB : agree Nd B (FB f t)).
  { intros i l Hi Hl. destruct (flow_dumbbells_still _ _ _ _ _ _ i l (A2 ltac:(lia)) S1 HE Hl) as [E1 _]. rewrite E1. apply S3; assumption. }
  assert (HD : agree Nd D (FD f t)).
  { intros i l Hi Hl. destruct (flow_dumbbells_still _ _ _ _ _ _ i l (A2 ltac:(lia)) S1 HE Hl) as [_ E1]. rewrite E1. apply S4; assumption. }
  repeat split; auto; intros i l Hi Hl; rewrite A3; cbn [c_spos c_dpos c_ddx]; rewrite ?wrap_off.
  - destruct (Nat.eqb_spec Ns 0); [lia|]. unfold eul, euler_timestep. rewrite HU by auto. reflexivity.
  - destruct (Nat.eqb_spec Nd 0); [lia|]. unfold eul, euler_timestep. rewrite HB by auto. reflexivity.
  - destruct (Nat.eqb_spec Nd 0); [lia|]. unfold eul, euler_timestep, twice. rewrite HD by auto. reflexivity.
Qed.

(** The classical Runge-Kutta step. *)
Lemma rk4_step f regen p err minv vel r :
  step_rk4 inv Ns Nd far rest g f regen p err minv vel = Ok r ->
  let t := INR f in
  exists p1 p2 p3,
    moved p p1 (g_dt g / 2) (FU p t) (FB p t) (FD p t) /\
    moved p p2 (g_dt g / 2) (FU p1 (t + 1 / 2)) (FB p1 (t + 1 / 2)) (FD p1 (t + 1 / 2)) /\
    moved p p3 (g_dt g) (FU p2 (t + 1 / 2)) (FB p2 (t + 1 / 2)) (FD p2 (t + 1 / 2)) /\
    let mean (F : config -> R -> nat -> vec) : nat -> vec := fun i l =>
      (F p t i l + 2 * F p1 (t + 1 / 2) i l + 2 * F p2 (t + 1 / 2) i l + F p3 (t + 1) i l) / 6 in
    moved p (t_pos r) (g_dt g) (mean FU) (mean FB) (mean FD).
Proof.
  intros H t. apply rk4_inv in H.
  destruct H as (s1 & p1 & U1 & B1 & D1 & O1 & e1 & s2 & p2 & U2 & B2 & D2 & O2 & e2 & s3 & p3 & U3 & B3 & D3 & O3 & e3 & s4 & U4 & B4 & D4 & O4
     & A1 & A2 & A3 & A4 & A5 & A6 & A7 & A8 & A9 & A10 & A11 & A12 & A13 & A14).
  replace (INR f + 5 / 10) with (t + 1 / 2) in * by (unfold t; lra). fold t in A2, A8.
  pose proof (Hrest _ _ _ _ _ A2) as ((Z1 & Z2 & Z3) & _). pose proof (Hrest _ _ _ _ _ A6) as ((_ & _ & Z3') & _).
  destruct (stage_step _ _ _ _ _ _ _ _ _ _ _ _ _ _ _ A2 Z3 A3) as (U1e & B1e & D1e & M1).
  destruct (stage_step _ _ _ _ _ _ _ _ _ _ _ _ _ _ _ A4 Z3 A5) as (U2e & B2e & D2e & M2).
  destruct (stage_step _ _ _ _ _ _ _ _ _ _ _ _ _ _ _ A6 Z3' A7) as (U3e & B3e & D3e & M3).
  destruct (Hrest _ _ _ _ _ A8) as (S1 & S2 & S3 & S4).
  exists p1, p2, p3. split; [exact M1|split; [exact M2|split; [exact M3|]]]. intros mean.
  rewrite A13, !wrap_off, H2d. unfold moved. cbn [c_spos c_dpos c_ddx]. split; [|split]; intros i l Hi Hl.
  - destruct (Nat.eqb_spec Ns 0) as [|HN]; [lia|]. unfold eul, euler_timestep, blend.
    destruct (flow_spheres_still _ _ _ _ _ _ _ (A9 HN) S1 Hi Hl) as [-> _].
    rewrite U1e, U2e, U3e, S2 by auto. unfold mean. field.
  - destruct (Nat.eqb_spec Nd 0) as [|HN]; [lia|]. unfold eul, euler_timestep, blend.
    destruct (flow_dumbbells_still _ _ _ _ _ _ i l (A10 HN) S1 (proj2 (proj2 S1)) Hl) as [E1 _]. rewrite E1.
    rewrite B1e, B2e, B3e, S3 by auto. unfold mean. field.
  - destruct (Nat.eqb_spec Nd 0) as [|HN]; [lia|]. unfold eul, euler_timestep.
    destruct (flow_dumbbells_still _ _ _ _ _ _ i l (A10 HN) S1 (proj2 (proj2 S1)) Hl) as [_ E1]. rewrite E1.
    rewrite D1e, D2e, D3e, S4 by auto. unfold mean. field.
Qed.
End Field.

(** ** Velocities depending on time only *)
Section Time.
Variables VU VB VD : R -> nat -> vec.
Hypothesis Hrest : forall p t v M s, rest p t v M = Ok s -> still s /\
  (forall i l, (i < Ns)%nat -> (l < 3)%nat -> o_Ua s i l = VU t i l) /\
  (forall i l, (i < Nd)%nat -> (l < 3)%nat -> o_Ub s i l = VB t i l) /\
  (forall i l, (i < Nd)%nat -> (l < 3)%nat -> o_HalfDUb s i l = VD t i l).

Definition total (V : R -> nat -> vec) (n : nat) (i l : nat) : R :=
  rsum n (fun k => increment (g_scheme g) (g_start g) (fun t => V t i l) (g_start g + k)).

Lemma run_total n st0 st :
  frames st0 (seq (g_start g) n) = Ok st -> s_error st = false ->
  ((0 < n)%nat -> g_scheme g = ab2 -> agree Ns (v_U (s_vel st)) (VU (INR (g_start g + n) - 1))) /\
  (forall i l, (i < Ns)%nat -> (l < 3)%nat -> c_spos (s_pos st) i l = c_spos (s_pos st0) i l + g_dt g * total VU n i l) /\
  (forall i l, (i < Nd)%nat -> (l < 3)%nat -> c_dpos (s_pos st) i l = c_dpos (s_pos st0) i l + g_dt g * total VB n i l) /\
  (forall i l, (i < Nd)%nat -> (l < 3)%nat -> c_ddx (s_pos st) i l = c_ddx (s_pos st0) i l + g_dt g * (2 * total VD n i l)).
Proof.
  revert st. induction n as [|n IH]; intros st H He.
  - injection H as <-. unfold total. cbn [rsum]. repeat split; intros; try lia; ring.
  - pose proof H as H'. apply frames_snoc in H'. destruct H' as (st1 & H1 & H2).
    pose proof (no_error_before _ _ _ _ _ _ _ _ _ _ _ _ H (Nat.le_succ_diag_r n) H1 He) as He1.
    destruct (IH _ H1 He1) as (I1 & I2 & I3 & I4). clear IH.
    destruct (frame_inv _ _ _ _ _ _ _ _ _ He1 H2) as (regen & r & R1 & R2 & R3 & _ & _ & R6 & _).
    rewrite R3, R6. unfold total in *. cbn [rsum]. set (f := (g_start g + n)%nat) in *.
    unfold step in R2. destruct (g_scheme g) eqn:Es; [| | |discriminate].
    + destruct (euler_step (fun _ => VU) (fun _ => VB) (fun _ => VD) Hrest _ _ _ _ _ _ _ Es R2) as (M1 & M2 & M3).
      split; [discriminate|]. unfold increment in *.
      split; [|split]; intros i l Hi Hl; [rewrite M1, I2 by auto|rewrite M2, I3 by auto|rewrite M3, I4 by auto]; ring.
    + destruct (ab2_step (fun _ => VU) (fun _ => VB) (fun _ => VD) Hrest _ _ _ _ _ _ _ Es R2) as (M1 & M2 & M3).
      split.
      { intros _ _ i l Hi Hl. rewrite M2 by auto. f_equal. unfold f. replace (g_start g + S n)%nat with (S (g_start g + n)) by lia.
        rewrite S_INR. ring. }
      split; [|split; intros; lia]. intros i l Hi Hl. rewrite M3, I2 by auto. unfold increment.
      destruct (Nat.eqb_spec f (g_start g)) as [Ef|Ef]; [ring|].
      assert (Hn : (0 < n)%nat) by (unfold f in Ef; lia).
      assert (Ev : vel_at g st1 f = s_vel st1).
      { unfold vel_at. destruct (Nat.eqb_spec f 0); [unfold f in *; lia|]. destruct (Nat.eqb_spec f (g_start g)); [contradiction|reflexivity]. }
      rewrite Ev, (I1 Hn eq_refl) by auto. ring.
    + destruct (rk4_step (fun _ => VU) (fun _ => VB) (fun _ => VD) Hrest _ _ _ _ _ _ _ R2) as (p1 & p2 & p3 & _ & _ & _ & M1 & M2 & M3).
      split; [discriminate|]. unfold increment in *.
      split; [|split]; intros i l Hi Hl; [rewrite M1, I2 by auto|rewrite M2, I3 by auto|rewrite M3, I4 by auto]; field.
Qed.
End Time.
End Scheme.

(** Sums of increments. *)
Lemma sum_const sch s n c : rsum n (fun k => increment sch s (fun _ => c) (s + k)) = INR n * c.
Proof.
  induction n as [|n IH]; [simpl; ring|]. cbn [rsum]. rewrite IH, S_INR.
  unfold increment. destruct sch; [ring| |field|field]. destruct (Nat.eqb _ _); [ring|field].
Qed.
Lemma sum_rk4 s n a b c d :
  rsum n (fun k => increment rk4 s (cubic a b c d) (s + k)) = antiderivative a b c d (INR (s + n)) - antiderivative a b c d (INR s).
Proof.
  induction n as [|n IH]; [rewrite Nat.add_0_r; simpl; ring|]. cbn [rsum]. rewrite IH.
  replace (s + S n)%nat with (S (s + n)) by lia. rewrite S_INR. unfold increment, cubic, antiderivative. field.
Qed.
Lemma sum_ab2 s n a b :
  rsum (S n) (fun k => increment ab2 s (cubic a b 0 0) (s + k)) =
  cubic a b 0 0 (INR s) + (antiderivative a b 0 0 (INR (s + S n)) - antiderivative a b 0 0 (INR s + 1)).
Proof.
  induction n as [|n IH].
  - cbn [rsum]. replace (s + 1)%nat with (S s) by lia. rewrite Nat.add_0_r, S_INR. unfold increment. rewrite Nat.eqb_refl. ring.
  - replace (rsum (S (S n)) (fun k => increment ab2 s (cubic a b 0 0) (s + k))) with
      (rsum (S n) (fun k => increment ab2 s (cubic a b 0 0) (s + k)) + increment ab2 s (cubic a b 0 0) (s + S n)) by reflexivity.
    rewrite IH. replace (s + S (S n))%nat with (S (s + S n)) by lia. rewrite S_INR.
    unfold increment. destruct (Nat.eqb_spec (s + S n) s); [lia|]. unfold cubic, antiderivative. field.
Qed.
