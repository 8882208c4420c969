(** Forces returned by a step, and the error flag. *)
From Coq Require Import Reals List Arith Bool Lia Lra.
From Verif Require Import Base Py Model_Mob Model_Close Model_Step Model_Frame Spec_Frame Proof_Close Proof_Frame Proof_Frame3.
Import ListNotations.
Local Open Scope R_scope.

Section Err.
Lemma wrong_spec e Nd dx ex : did_something_go_wrong e Nd dx ex = true <->
  e = true \/ (ex = true /\ exists i, (i < Nd)%nat /\ 5 < norm (dx i)).
Proof.
  unfold did_something_go_wrong. induction Nd as [|n IH] using nat_ind.
  - simpl. split; [auto|]. intros [H|(_ & i & Hi & _)]; [exact H|lia].
  - rewrite seq_S, fold_left_app. cbn [fold_left]. rewrite Nat.add_0_l.
    set (e1 := fold_left _ (seq 0 n) e) in *. unfold Rltb.
    destruct (Rlt_dec 5 (norm (dx n))) as [H|H]; destruct ex; simpl andb; cbv iota; rewrite ?IH; split; intros H1; auto.
    + right. split; [reflexivity|]. exists n. split; [lia|exact H].
    + destruct H1 as [H1|(H1 & _)]; [auto|discriminate].
    + destruct H1 as [H1|(H1 & _)]; [auto|discriminate].
    + destruct H1 as [H1|(H1 & i & Hi & H2)]; [auto|]. right. split; [auto|]. exists i. split; [lia|exact H2].
    + destruct H1 as [H1|(H1 & i & Hi & H2)]; [auto|]. right. split; [auto|]. exists i. split; [|exact H2].
      destruct (Nat.eq_dec i n) as [-> |]; [contradiction|lia].
    + destruct H1 as [H1|(H1 & _)]; [auto|discriminate].
    + destruct H1 as [H1|(H1 & _)]; [auto|discriminate].
Qed.

Variable inv : mat -> mat.
Variables Ns Nd : nat.
Variable far : config -> R -> mat.
Variable rest : config -> R -> velocities -> mat -> res solution.
Variable g : settings.

Lemma gen_inv p t vel last regen m s : gen far rest g p t vel last regen = Ok (m, s) ->
  m = (if (g_use_drag g || regen)%bool then far p t else last) /\ rest p t vel m = Ok s.
Proof. unfold gen. intros H. binv H. injection H as <- <-. auto. Qed.

(** Euler and AB2. *)
Lemma euler_inv f regen p err minv vel r :
  step_euler_ab2 inv Ns Nd far rest g f regen p err minv vel = Ok r ->
  exists s U W B D,
    t_minv r = (if (g_use_drag g || regen)%bool then far p (INR f) else minv) /\
    rest p (INR f) vel (t_minv r) = Ok s /\
    (Ns <> 0%nat -> exists U0, flow_spheres Ns s (c_spos p) = Ok (U0, W) /\ U = if g_fully_2d g then flatten_y U0 else U0) /\
    (Nd <> 0%nat -> flow_dumbbells s (o_Ea s) (c_dpos p) (c_ddx p) = Ok (B, D)) /\
    (Nd <> 0%nat -> g_scheme g = euler) /\
    (Ns = 0%nat -> U = v_U zero_vel /\ W = v_O zero_vel) /\
    (Nd = 0%nat -> B = v_B zero_vel /\ D = v_D zero_vel) /\
    t_vel r = mkVel U B D W /\
    t_forces r = mkFsnap (o_Fa s) (o_Fb s) (o_DFb s) (o_Sa s) (o_wall s) /\
    let first := match g_scheme g with euler => true | _ => Nat.eqb f (g_start g) end in
    let x := if first then eul (c_spos p) U (g_dt g)
             else fun i => ab2_timestep (c_spos p i) (U i) (v_U vel i) (g_dt g) in
    let q := if first then euler_timestep_rotation inv (c_spos p) (c_srot p) x W (g_dt g)
             else ab2_timestep_rotation inv (c_spos p) (c_srot p) x W (v_O vel) (g_dt g) in
    let dx := eul (c_ddx p) (twice D) (g_dt g) in
    t_pos r = mkConfig (c_ssizes p)
                (if Nat.eqb Ns 0 then c_spos p else wrap inv g s x)
                (if Nat.eqb Ns 0 then c_srot p else q)
                (c_dsizes p)
                (if Nat.eqb Nd 0 then c_dpos p else wrap inv g s (eul (c_dpos p) B (g_dt g)))
                (if Nat.eqb Nd 0 then c_ddx p else dx) /\
    t_error r = if Nat.eqb Nd 0 then err else did_something_go_wrong err Nd dx (g_explosion g).
Proof.
  unfold step_euler_ab2. intros H. binv H. destruct a as [mi s]. apply gen_inv in E. destruct E as [-> E].
  binv H. destruct a as [[[spos srot] U] W]. binv H. destruct a as [[[[dpos ddx] B] D] e]. injection H as <-.
  exists s, U, W, B, D. cbn [t_minv t_vel t_forces t_pos t_error].
  destruct (Nat.eqb_spec Ns 0) as [E2|E2]; destruct (Nat.eqb_spec Nd 0) as [E3|E3].
  - injection E0 as <- <- <- <-. injection E1 as <- <- <- <- <-. repeat split; auto; intros; contradiction.
  - injection E0 as <- <- <- <-. binv E1. destruct a as [B0 D0]. destruct (g_scheme g) eqn:Es; try discriminate.
    injection E1 as <- <- <- <- <-. repeat split; auto; intros; contradiction.
  - injection E1 as <- <- <- <- <-. binv E0. destruct a as [U0 W0]. injection E0 as <- <- <- <-.
    repeat split; auto; try (intros; contradiction). intros _. exists U0. auto.
  - binv E0. destruct a as [U0 W0]. injection E0 as <- <- <- <-. binv E1. destruct a as [B0 D0].
    destruct (g_scheme g) eqn:Es; try discriminate. injection E1 as <- <- <- <- <-.
    repeat split; auto; try (intros; contradiction). intros _. exists U0. auto.
Qed.

(** RK4. *)
Lemma stage_inv s Ea p e h p1 U B D W e1 :
  rk4_stage inv Ns Nd g s Ea p e h = Ok (p1, U, B, D, W, e1) ->
  (Ns <> 0%nat -> flow_spheres Ns s (c_spos p) = Ok (U, W)) /\
  (Nd <> 0%nat -> flow_dumbbells s Ea (c_dpos p) (c_ddx p) = Ok (B, D)) /\
  (Ns = 0%nat -> U = v_U zero_vel /\ W = v_O zero_vel) /\
  (Nd = 0%nat -> B = v_B zero_vel /\ D = v_D zero_vel) /\
  p1 = mkConfig (c_ssizes p)
         (if Nat.eqb Ns 0 then c_spos p else wrap inv g s (eul (c_spos p) U h))
         (if Nat.eqb Ns 0 then c_srot p else euler_timestep_rotation inv (c_spos p) (c_srot p) (eul (c_spos p) U h) W h)
         (c_dsizes p)
         (if Nat.eqb Nd 0 then c_dpos p else wrap inv g s (eul (c_dpos p) B h))
         (if Nat.eqb Nd 0 then c_ddx p else eul (c_ddx p) (twice D) h) /\
  e1 = if Nat.eqb Nd 0 then e else did_something_go_wrong e Nd (eul (c_ddx p) (twice D) h) (g_explosion g).
Proof.
  unfold rk4_stage. intros H. binv H. destruct a as [[[spos srot] U'] W']. binv H. destruct a as [[[[dpos ddx] B'] D'] e'].
  injection H as <- <- <- <- <- <-.
  destruct (Nat.eqb_spec Ns 0) as [E2|E2]; destruct (Nat.eqb_spec Nd 0) as [E3|E3].
  - injection E as <- <- <- <-. injection E0 as <- <- <- <- <-. repeat split; auto; intros; contradiction.
  - injection E as <- <- <- <-. binv E0. destruct a as [B0 D0].
    injection E0 as <- <- <- <- <-. repeat split; auto; intros; contradiction.
  - injection E0 as <- <- <- <- <-. binv E. destruct a as [U0 W0]. injection E as <- <- <- <-.
    repeat split; auto; intros; contradiction.
  - binv E. destruct a as [U0 W0]. injection E as <- <- <- <-. binv E0. destruct a as [B0 D0].
    injection E0 as <- <- <- <- <-. repeat split; auto; intros; contradiction.
Qed.

Definition stage_minv (regen : bool) (p : config) (t : R) (mi : mat) : mat :=
  if (g_use_drag g || (if g_rk4_each g then regen else false))%bool then far p t else mi.

Lemma rk4_inv f regen p err minv vel r :
  step_rk4 inv Ns Nd far rest g f regen p err minv vel = Ok r ->
  exists s1 p1 U1 B1 D1 O1 e1 s2 p2 U2 B2 D2 O2 e2 s3 p3 U3 B3 D3 O3 e3 s4 U4 B4 D4 O4,
    t_minv r = (if (g_use_drag g || regen)%bool then far p (INR f) else minv) /\
    rest p (INR f) vel (t_minv r) = Ok s1 /\
    rk4_stage inv Ns Nd g s1 (o_Ea s1) p err (g_dt g / 2) = Ok (p1, U1, B1, D1, O1, e1) /\
    rest p1 (INR f + 5 / 10) vel (stage_minv regen p1 (INR f + 5 / 10) (t_minv r)) = Ok s2 /\
    rk4_stage inv Ns Nd g s2 (o_Ea s1) p e1 (g_dt g / 2) = Ok (p2, U2, B2, D2, O2, e2) /\
    rest p2 (INR f + 5 / 10) vel (stage_minv regen p2 (INR f + 5 / 10) (t_minv r)) = Ok s3 /\
    rk4_stage inv Ns Nd g s3 (o_Ea s3) p e2 (g_dt g) = Ok (p3, U3, B3, D3, O3, e3) /\
    rest p3 (INR f + 1) vel (stage_minv regen p3 (INR f + 1) (t_minv r)) = Ok s4 /\
    (Ns <> 0%nat -> flow_spheres Ns s4 (c_spos p) = Ok (U4, O4)) /\
    (Nd <> 0%nat -> flow_dumbbells s4 (o_Ea s4) (c_dpos p) (c_ddx p) = Ok (B4, D4)) /\
    let U := if g_fully_2d g then flatten_y (blend U1 U2 U3 U4) else blend U1 U2 U3 U4 in
    let W := blend O1 O2 O3 O4 in
    let B := blend B1 B2 B3 B4 in
    let D := fun i l => 2 / 6 * (D1 i l + 2 * D2 i l + 2 * D3 i l + D4 i l) in
    let x := wrap inv g s1 (eul (c_spos p) U (g_dt g)) in
    t_vel r = mkVel U B D W /\
    t_forces r = mkFsnap (blend (o_Fa s1) (o_Fa s2) (o_Fa s3) (o_Fa s4))
                 (blend (o_Fb s1) (o_Fb s2) (o_Fb s3) (o_Fb s4))
                 (blend (o_DFb s1) (o_DFb s2) (o_DFb s3) (o_DFb s4))
                 (blend_m (o_Sa s1) (o_Sa s2) (o_Sa s3) (o_Sa s4))
                 (blend_v (o_wall s1) (o_wall s2) (o_wall s3) (o_wall s4)) /\
    t_pos r = mkConfig (c_ssizes p)
                (if Nat.eqb Ns 0 then c_spos p else x)
                (if Nat.eqb Ns 0 then c_srot p else euler_timestep_rotation inv (c_spos p) (c_srot p) x W (g_dt g))
                (c_dsizes p)
                (if Nat.eqb Nd 0 then c_dpos p else wrap inv g s1 (eul (c_dpos p) B (g_dt g)))
                (if Nat.eqb Nd 0 then c_ddx p else eul (c_ddx p) D (g_dt g)) /\
    t_error r = if Nat.eqb Nd 0 then e3 else did_something_go_wrong e3 Nd (eul (c_ddx p) D (g_dt g)) (g_explosion g).
Proof.
  unfold step_rk4. intros H.
  binv H. destruct a as [mi s1]. apply gen_inv in E. destruct E as [Em E1].
  binv H. destruct a as [[[[[p1 U1] B1] D1] O1] e1].
  binv H. destruct a as [m2 s2]. apply gen_inv in E0. destruct E0 as [Em2 E2].
  binv H. destruct a as [[[[[p2 U2] B2] D2] O2] e2].
  binv H. destruct a as [m3 s3]. apply gen_inv in E3. destruct E3 as [Em3 E3].
  binv H. destruct a as [[[[[p3 U3] B3] D3] O3] e3].
  binv H. destruct a as [m4 s4]. apply gen_inv in E5. destruct E5 as [Em4 E5].
  binv H. destruct a as [U4 O4]. binv H. destruct a as [B4 D4].
  exists s1, p1, U1, B1, D1, O1, e1, s2, p2, U2, B2, D2, O2, e2, s3, p3, U3, B3, D3, O3, e3, s4, U4, B4, D4, O4.
  unfold stage_minv.
  destruct (Nat.eqb_spec Ns 0) as [Z1|Z1]; destruct (Nat.eqb_spec Nd 0) as [Z2|Z2];
    cbv beta iota zeta in H; injection H as <-; cbn [t_minv t_vel t_forces t_pos t_error]; subst m2 m3 m4;
    (split; [exact Em|]); repeat (split; [first [assumption|intros; first [assumption|contradiction]|reflexivity]|]); reflexivity.
Qed.

Lemma euler_forces f regen p err minv vel r :
  g_scheme g = euler \/ g_scheme g = ab2 ->
  step inv Ns Nd far rest g f regen p err minv vel = Ok r ->
  exists s, rest p (INR f) vel (t_minv r) = Ok s /\
    t_forces r = mkFsnap (o_Fa s) (o_Fb s) (o_DFb s) (o_Sa s) (o_wall s).
Proof.
  intros Hs H. unfold step in H. assert (H' : step_euler_ab2 inv Ns Nd far rest g f regen p err minv vel = Ok r) by (destruct Hs as [E|E]; rewrite E in H; exact H).
  apply euler_inv in H'. destruct H' as (s & U & W & B & D & A1 & A2 & A3 & A4 & A5 & A6 & A7 & A8 & A9 & _). exists s. auto.
Qed.

Lemma euler_error f regen p minv vel r :
  g_scheme g = euler \/ g_scheme g = ab2 ->
  step inv Ns Nd far rest g f regen p false minv vel = Ok r ->
  (t_error r = true <-> g_explosion g = true /\ exists i, (i < Nd)%nat /\ 5 < norm (c_ddx (t_pos r) i)).
Proof.
  intros Hs H. unfold step in H. assert (H' : step_euler_ab2 inv Ns Nd far rest g f regen p false minv vel = Ok r) by (destruct Hs as [E|E]; rewrite E in H; exact H).
  apply euler_inv in H'. destruct H' as (s & U & W & B & D & A1 & A2 & A3 & A4 & A5 & A6 & A7 & A8 & A9 & A10 & A11).
  rewrite A10, A11. cbn [c_ddx]. destruct (Nat.eqb_spec Nd 0) as [E0|E0].
  - split; [discriminate|]. intros (_ & i & Hi & _). lia.
  - rewrite wrong_spec. split; [intros [HH|HH]; [discriminate|exact HH]|auto].
Qed.

Lemma wrong_off e n dx : did_something_go_wrong e n dx false = e.
Proof.
  destruct (did_something_go_wrong e n dx false) eqn:E.
  - apply wrong_spec in E. destruct E as [->|[? _]]; [reflexivity|discriminate].
  - destruct e; [|reflexivity]. rewrite <- E. apply wrong_spec. auto.
Qed.

(** Whatever the scheme: a step not flagged leaves every dumbbell at most 5
    long; without explosion protection no step is flagged. *)
Lemma step_error f regen p minv vel r :
  step inv Ns Nd far rest g f regen p false minv vel = Ok r ->
  (t_error r = false -> g_explosion g = true -> forall i, (i < Nd)%nat -> norm (c_ddx (t_pos r) i) <= 5) /\
  (g_explosion g = false -> t_error r = false).
Proof.
  intros H. destruct (g_scheme g) eqn:Es.
  1, 2: assert (HI : t_error r = true <-> g_explosion g = true /\ exists i, (i < Nd)%nat /\ 5 < norm (c_ddx (t_pos r) i))
    by (eapply euler_error; [rewrite Es; auto|exact H]); split;
    [intros He Hx i Hi; destruct (Rle_lt_dec (norm (c_ddx (t_pos r) i)) 5) as [|Hlt]; [assumption|];
     assert (t_error r = true) by (apply HI; split; [exact Hx|exists i; auto]); congruence
    |intros Hx; destruct (t_error r); [|reflexivity]; destruct HI as [HI _]; destruct (HI eq_refl); congruence].
  2: unfold step in H; rewrite Es in H; discriminate.
  unfold step in H. rewrite Es in H. apply rk4_inv in H.
  destruct H as (s1 & p1 & U1 & B1 & D1 & O1 & e1 & s2 & p2 & U2 & B2 & D2 & O2 & e2 & s3 & p3 & U3 & B3 & D3 & O3 & e3 & s4 & U4 & B4 & D4 & O4
     & A1 & A2 & A3 & A4 & A5 & A6 & A7 & A8 & A9 & A10 & A11 & A12 & A13 & A14).
  apply stage_inv in A3, A5, A7.
  destruct A3 as (_ & _ & _ & _ & _ & A3). destruct A5 as (_ & _ & _ & _ & _ & A5). destruct A7 as (_ & _ & _ & _ & _ & A7).
  rewrite A13, A14. cbn [c_ddx]. destruct (Nat.eqb_spec Nd 0) as [E0|E0].
  - split; [intros; lia|]. congruence.
  - split.
    + intros He Hx i Hi. apply Rnot_lt_le. intros Hlt.
      match type of He with ?t = false => assert (t = true); [|congruence] end.
      apply wrong_spec. right. split; [exact Hx|]. exists i. auto.
    + intros Hx. rewrite Hx, wrong_off in *. congruence.
Qed.
End Err.
