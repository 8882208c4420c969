(** C97: one sphere in a linear flow. *)
From Coq Require Import Reals List Arith ZArith Bool Lia Lra.
From Verif Require Import Base Py Model_Pack Model_Mob Model_Layout Model_Minf Model_Grand Model_Close Model_R2B Model_GrandP Model_Step
  Model_Shear Model_Output Model_Frame Model_Inputs Model_Sim Spec_Pack Spec_Layout Spec_Minf Spec_Convert Spec_Output Spec_Step Spec_Frame Spec_Posdef Spec_Run
  Spec_Turn Spec_Push Spec_Alone
  Proof_Posdef Proof_Posdef2 Proof_Frame Proof_Run Proof_Run2 Spec_Runs Proof_Runs2 Proof_Runs3 Prop_Runs Prop_Run
  Proof_Turn2 Proof_Work3 Proof_Alone.
From Verif Require Proof_Step.
Import ListNotations.
Local Open Scope R_scope.

(** Every completed run of form fte with one sphere, Euler or Adams-Bashforth,
    with or without near field, whatever the force, the torque, the strain and
    the flow, which may change in time and depend on the configuration. *)
Theorem C97_alone :
  forall inv inv3 solve sc table h stale bb minf_only cutoff_factor g input p0 s fs,
    let N := g_num_frames g in
    let a := c_ssizes p0 0%nat in
    0 < cutoff_factor -> inverts_posdef inv -> solves_posdef solve ->
    g_use_drag g = false -> g_start g = 0%nat -> no_box_g g -> g_scheme g = euler \/ g_scheme g = ab2 ->
    (0 < g_save_pos g)%nat -> (0 < g_save_forces g)%nat ->
    (g_save_after g mod g_save_pos g = 0)%nat -> (g_save_after g mod g_save_forces g = 0)%nat ->
    (forall p t i f, input p t = Ok (i, f) -> well_posed 1 0 fte i /\ symmetric_traceless (strain_given (i_Ea i) 0) /\ 0 < f_mu f /\ unbounded f) ->
    0 < a ->
    full_simulation inv inv3 solve sc table h stale 1 0 fte false bb minf_only cutoff_factor g input p0 = Ok (Some (s, fs)) ->
    exists (pos : nat -> config) (inp : nat -> inputs) (fl : nat -> flow) (V W : nat -> vec) (frc : nat -> fsnapshot),
      pos 0%nat = p0 /\
      (forall m, (m < N)%nat -> input (pos m) (INR m) = Ok (inp m, fl m) /\
         exists k, latest_due 0 (g_invert_every g) m k /\ lone_frame g (f_mu (fl k)) a (inp m) (fl m) (c_spos (pos m) 0%nat) (V m) (W m) (frc m)) /\
      (forall m, (m < N)%nat ->
         let first := match g_scheme g with euler => true | _ => Nat.eqb m 0 end in
         let v := fun l => if first then V m l else 3 / 2 * V m l - 1 / 2 * V (m - 1)%nat l in
         let w := fun l => if first then W m l else 3 / 2 * W m l - 1 / 2 * W (m - 1)%nat l in
         let arm := fun p k => vsub (c_srot p 0%nat k) (c_spos p 0%nat) in
         (forall l, (l < 3)%nat -> c_spos (pos (S m)) 0%nat l = c_spos (pos m) 0%nat l + g_dt g * v l) /\
         forall k, inverts inv3 -> (exists l, (l < 3)%nat /\ arm (pos m) k l <> 0) ->
           forall l, (l < 3)%nat -> arm (pos (S m)) k l = rodrigues w (norm w * g_dt g) (arm (pos m) k) l) /\
      s = map (fun m => snap 1 (pos m)) (due_frames (g_save_pos g) (g_save_after g) N)
          ++ (if save_due (g_save_pos g) (g_save_after g) (N - 1) then [snap 1 (pos N)] else []) /\
      fs = map frc (due_frames (g_save_forces g) (g_save_after g) N).
Proof.
  intros inv inv3 solve sc table h stale bb mo cf g input p0 s fs N a Hcf Hi Hs Hd H0 Hb Hsch S1 S2 S3 S4 HI Ha E.
  exact (lone_run inv inv3 solve sc table h stale bb mo cf g input p0 Hcf Hi Hs Hd H0 Hb S1 S2 S3 S4 HI Ha s fs E Hsch).
Qed.
Print Assumptions C97_alone.

(** ** Shear *)
Definition shear_input (oscillating : bool) : Z := if oscillating then 3%Z else 7%Z.
Lemma xz_st c : symmetric_traceless (literal_xz c).
Proof. split; [intros a b Ha Hb; idx3 Ha; idx3 Hb; reflexivity|cbn; ring]. Qed.
Lemma shear_is osc p t dt : exists Ot Et,
  let r := shear_rate osc (t * dt) in
  input_ftsuoe (shear_input osc) fte 1 0 p t dt =
    Ok (with_Ea (default_inputs fte 1 0) [Some (row2 (literal_xz (5 / 10 * r)))],
        mkFlow (v3 0 0 0) (v3 0 (5 / 10 * r) 0) (v3 (still_height osc) 0 (still_height osc)) Ot Et (v3 0 0 0) (v3 0 0 0) 1).
Proof.
  destruct osc; cbn [shear_input].
  - unfold input_ftsuoe. cbn [Z.ltb Z.compare]. cbv zeta. unfold oscillatory_shear. cbv zeta.
    assert (Reqb 10 0 = false) as ->. { unfold Reqb. destruct (Req_EM_T 10 0); [lra|reflexivity]. }
    cbn [bind with_shear h_Ea h_U h_O h_centre h_Ot h_Et Nat.max repeat map seq shear_rate still_height].
    replace (t * dt * (2 * PI / 10) + 0) with (2 * PI * (t * dt) / 10) by field.
    replace (1 * (5 / 10)) with (5 / 10) by ring. replace (225 / 100) with (9 / 4) by lra. eexists. eexists. reflexivity.
  - eexists. eexists. unfold input_ftsuoe. cbn [Z.ltb Z.compare]. cbv zeta. unfold constant_shear. cbv zeta.
    cbn [with_shear h_Ea h_U h_O h_centre h_Ot h_Et Nat.max repeat map shear_rate still_height]. reflexivity.
Qed.
Lemma row2_given c a b : (a < 3)%nat -> (b < 3)%nat -> strain_given [Some (row2 (literal_xz c))] 0 a b = literal_xz c a b.
Proof. intros Ha Hb. unfold strain_given. cbn [nth_error]. idx3 Ha; idx3 Hb; reflexivity. Qed.

Lemma turned_y_zero v l : (l < 3)%nat -> turned_y 0 v l = v l.
Proof. intros Hl. unfold turned_y. rewrite cos_0, sin_0. idx3 Hl; cbn [v3]; ring. Qed.
Lemma turned_y_add s t v l : (l < 3)%nat -> turned_y s (turned_y t v) l = turned_y (t + s) v l.
Proof. intros Hl. unfold turned_y. rewrite cos_plus, sin_plus. idx3 Hl; cbn [v3]; ring. Qed.
Lemma turned_y_ext s v v' l : (forall l, (l < 3)%nat -> v l = v' l) -> turned_y s v l = turned_y s v' l.
Proof. intros E. unfold turned_y. rewrite !E by lia. reflexivity. Qed.
Lemma turned_y_nonzero t v : (exists l, (l < 3)%nat /\ v l <> 0) -> exists l, (l < 3)%nat /\ turned_y t v l <> 0.
Proof.
  intros (l & Hl & Hv). destruct (Req_dec (turned_y t v 0%nat) 0) as [E0|E0]; [|exists 0%nat; split; [lia|exact E0]].
  destruct (Req_dec (turned_y t v 1%nat) 0) as [E1|E1]; [|exists 1%nat; split; [lia|exact E1]].
  destruct (Req_dec (turned_y t v 2%nat) 0) as [E2|E2]; [|exists 2%nat; split; [lia|exact E2]]. exfalso. apply Hv.
  rewrite <- (turned_y_zero v l Hl). replace 0 with (t + - t) at 1 by ring. rewrite <- turned_y_add by exact Hl.
  assert (Z : forall k, (k < 3)%nat -> turned_y t v k = 0) by (intros k Hk; idx3 Hk; assumption).
  rewrite (turned_y_ext _ _ (fun _ => 0) l Z). unfold turned_y. idx3 Hl; cbn [v3]; ring.
Qed.
Lemma rodrigues_y (w : vec) c dt v l : w 0%nat = 0 -> w 1%nat = c -> w 2%nat = 0 -> (l < 3)%nat -> rodrigues w (norm w * dt) v l = turned_y (c * dt) v l.
Proof.
  intros W0 W1 W2 Hl. assert (EN : norm w = Rabs c).
  { unfold norm, dot3. rewrite W0, W1, W2. rewrite <- sqrt_Rsqr_abs. f_equal. unfold Rsqr. ring. }
  unfold rodrigues. rewrite EN. unfold dot3, vscal, cross. destruct (Req_dec c 0) as [C|C].
  - subst c. rewrite C, Rabs_R0, !Rmult_0_l. unfold turned_y. rewrite sin_0, cos_0. idx3 Hl; cbn [v3]; ring.
  - assert (HC : (Rabs c = c \/ Rabs c = - c)) by (unfold Rabs; destruct (Rcase_abs c); auto).
    assert (I : / Rabs c * c * (/ Rabs c * c) = 1) by (destruct HC as [-> | ->]; field; exact C).
    assert (S : sin (Rabs c * dt) * (/ Rabs c * c) = sin (c * dt)).
    { destruct HC as [-> | ->]; [field_simplify; [reflexivity|exact C]|]. replace (- c * dt) with (- (c * dt)) by ring. rewrite sin_neg. field. exact C. }
    assert (K : cos (Rabs c * dt) = cos (c * dt)).
    { destruct HC as [-> | ->]; [reflexivity|]. replace (- c * dt) with (- (c * dt)) by ring. apply cos_neg. }
    rewrite K. unfold turned_y. rewrite <- S. idx3 Hl; cbn [v3]; rewrite W0, W1, W2.
    + ring.
    + transitivity (cos (c * dt) * v 1%nat + (1 - cos (c * dt)) * v 1%nat * (/ Rabs c * c * (/ Rabs c * c))); [ring|rewrite I; ring].
    + ring.
Qed.

Lemma lone_completes inv inv3 solve sc table h stale bb mo cf g dt osc p0 :
  solves_shape solve -> usable g 0 -> 0 < c_ssizes p0 0%nat -> mo = true \/ In 1 table ->
  exists s fs, full_simulation inv inv3 solve sc table h stale 1 0 fte false bb mo cf g (fun p t => input_ftsuoe (shear_input osc) fte 1 0 p t dt) p0 = Ok (Some (s, fs)).
Proof.
  intros Hsh HU Ha Ht.
  destruct (C62_complete inv inv3 solve sc table h stale 1 0 fte false bb mo cf g (fun p t => input_ftsuoe (shear_input osc) fte 1 0 p t dt) p0 [c_ssizes p0 0%nat] Hsh) as (s & fs & E & _).
  - intros i Hi'. left. assert (C : i = 0%nat) by lia. rewrite C. reflexivity.
  - intros i Hi'. lia.
  - destruct Ht as [-> |H1]; [left; reflexivity|right]. intros a b [<-|[]] [<-|[]]. exists 1. split; [exact H1|].
    replace (1 - c_ssizes p0 0%nat / c_ssizes p0 0%nat) with 0 by (field; lra). rewrite Rabs_R0.
    apply Rplus_le_le_0_compat; [|apply Rmult_le_pos; [|apply Rabs_pos]]; left; apply Rinv_0_lt_compat, pow_lt; lra.
  - discriminate.
  - intros p t _ _. destruct (shear_is osc p t dt) as (Ot & Et & E).
    destruct (given_inputs (shear_input osc) fte 1 0 p t dt) as (i & f & E' & C & _).
    + destruct osc; cbn; lia.
    + unfold workable. cbn [Nat.eqb]. left. destruct osc; discriminate.
    + exists i, f. split; [exact E'|]. split; [exact C|]. left. rewrite E in E'. injection E' as _ <-.
      unfold free_space. cbn [f_bl f_tr]. exact free_default.
  - exact HU.
  - exists s, fs. exact E.
Qed.

(** A sphere in the constant or oscillating shear: with usable settings the run
    completes; the sphere moves in x only, by the strain summed up times its
    height above the layer at rest, turns about y by half that strain, carries
    no force, and its stresslet is 10/3 pi a^3 times the shear rate. *)
Theorem C97_shear :
  forall inv inv3 solve sc table h stale bb minf_only cutoff_factor g oscillating p0,
    let N := g_num_frames g in
    let a := c_ssizes p0 0%nat in
    let x := c_spos p0 0%nat in
    let arm := fun p k => vsub (c_srot p 0%nat k) (c_spos p 0%nat) in
    let rate := shear_rate oscillating in
    0 < cutoff_factor -> inverts_posdef inv -> solves_posdef solve -> solves_shape solve ->
    usable g 0 -> g_scheme g <> rk4 -> g_use_drag g = false -> no_box_g g -> 0 < a -> minf_only = true \/ In 1 table ->
    exists s fs, full_simulation inv inv3 solve sc table h stale 1 0 fte false bb minf_only cutoff_factor g
        (fun p t => input_ftsuoe (shear_input oscillating) fte 1 0 p t (g_dt g)) p0 = Ok (Some (s, fs)) /\
      exists (pos : nat -> config) (frc : nat -> fsnapshot),
        (forall m, (m <= N)%nat ->
           let strain := strain_summed g rate m in
           (forall l, (l < 3)%nat -> c_spos (pos m) 0%nat l = v3 (x 0%nat + strain * (x 2%nat - still_height oscillating)) (x 1%nat) (x 2%nat) l) /\
           forall k, inverts inv3 -> (exists l, (l < 3)%nat /\ arm p0 k l <> 0) ->
             forall l, (l < 3)%nat -> arm (pos m) k l = turned_y (strain / 2) (arm p0 k) l) /\
        (forall m, (m < N)%nat ->
           (forall l, (l < 3)%nat -> n_Fa (frc m) 0%nat l = 0) /\
           forall k l, (k < 3)%nat -> (l < 3)%nat -> n_Sa (frc m) 0%nat k l =
             if ((Nat.eqb k 0 && Nat.eqb l 2) || (Nat.eqb k 2 && Nat.eqb l 0))%bool then 10 / 3 * PI * a ^ 3 * rate (INR m * g_dt g) else 0) /\
        s = map (fun m => snap 1 (pos m)) (due_frames (g_save_pos g) 0 N) ++ (if save_due (g_save_pos g) 0 (N - 1) then [snap 1 (pos N)] else []) /\
        fs = map frc (due_frames (g_save_forces g) 0 N).
Proof.
  intros inv inv3 solve sc table h stale bb mo cf g osc p0 N a x arm rate Hcf Hi Hs Hsh HU Hr Hd Hb Ha Ht.
  destruct (lone_completes inv inv3 solve sc table h stale bb mo cf g (g_dt g) osc p0 Hsh HU Ha Ht) as (s & fs & E). exists s, fs. split; [exact E|].
  pose proof HU as (SC & U1 & U2 & U3 & U4 & U5 & U6 & U7).
  assert (Hsch : g_scheme g = euler \/ g_scheme g = ab2) by (destruct SC as [C|[C|[C _]]]; [left; exact C|contradiction|right; exact C]).
  assert (M0 : forall e, (0 < e)%nat -> (g_save_after g mod e = 0)%nat) by (intros e He; rewrite U7; apply Nat.mod_0_l; lia).
  set (input := fun p t => input_ftsuoe (shear_input osc) fte 1 0 p t (g_dt g)) in *.
  assert (HI : forall p t i f, input p t = Ok (i, f) -> well_posed 1 0 fte i /\ symmetric_traceless (strain_given (i_Ea i) 0) /\ 0 < f_mu f /\ unbounded f).
  { intros p t i f EI. destruct (shear_is osc p t (g_dt g)) as (Ot & Et & E'). cbv zeta in E'. unfold input in EI. rewrite EI in E'. injection E' as -> ->. split; [|split; [|split; [cbn; lra|intros l Hl; reflexivity]]].
    - unfold well_posed. cbn [with_Ea default_inputs i_Ta i_Fa i_Ea i_Fb i_DFb].
      split; [exact (zeros_given 1)|]. split; [exact (zeros_given 1)|]. split; [exact (shear_given 1 _ (Nat.lt_0_succ 0))|]. split; exact (zeros_given 0).
    - cbn [with_Ea i_Ea]. destruct (xz_st (5 / 10 * shear_rate osc (t * g_dt g))) as [A B]. split.
      + intros b c Hb' Hc. rewrite !row2_given by assumption. apply A; assumption.
      + rewrite !row2_given by lia. exact B. }
  destruct (C97_alone inv inv3 solve sc table h stale bb mo cf g input p0 s fs Hcf Hi Hs Hd U2 Hb Hsch U5 U6 (M0 _ U5) (M0 _ U6) HI Ha E)
    as (pos & inp & fl & V & W & frc & P0 & PF & PM & PS & PFS).
  assert (EQ : forall m, (m < N)%nat -> exists Ot Et, let r := rate (INR m * g_dt g) in
     inp m = with_Ea (default_inputs fte 1 0) [Some (row2 (literal_xz (5 / 10 * r)))] /\
     fl m = mkFlow (v3 0 0 0) (v3 0 (5 / 10 * r) 0) (v3 (still_height osc) 0 (still_height osc)) Ot Et (v3 0 0 0) (v3 0 0 0) 1).
  { intros m Hm. destruct (PF m Hm) as (EI & _). destruct (shear_is osc (pos m) (INR m) (g_dt g)) as (Ot & Et & E'). cbv zeta in E'. unfold input in EI. rewrite EI in E'. injection E' as -> ->.
    exists Ot, Et. split; reflexivity. }
  assert (VW : forall m, (m < N)%nat -> let r := rate (INR m * g_dt g) in
     (forall l, (l < 3)%nat -> V m l = v3 (r * (c_spos (pos m) 0%nat 2%nat - still_height osc)) 0 0 l) /\
     (forall l, (l < 3)%nat -> W m l = v3 0 (r / 2) 0 l) /\ (forall l, (l < 3)%nat -> n_Fa (frc m) 0%nat l = 0) /\
     forall k l, (k < 3)%nat -> (l < 3)%nat -> n_Sa (frc m) 0%nat k l = 20 / 3 * PI * a ^ 3 * literal_xz (5 / 10 * r) k l).
  { intros m Hm r. destruct (PF m Hm) as (_ & k & LD & K1 & K2). assert (Hk : (k <= m)%nat) by apply LD.
    destruct (EQ m Hm) as (Ot & Et & Ei & Ef). destruct (EQ k ltac:(lia)) as (Ot' & Et' & _ & Ef'). cbv zeta in Ei, Ef, Ef'. fold r in Ei, Ef.
    assert (Mu : f_mu (fl k) = 1) by (rewrite Ef'; reflexivity).
    assert (LF : forall l, load (i_Fa (inp m)) 0 l = 0) by (intros l; rewrite Ei; unfold load, zeros3; cbn; destruct l as [|[|[|[|l]]]]; reflexivity).
    assert (LT : forall l, load (i_Ta (inp m)) 0 l = 0) by (intros l; rewrite Ei; unfold load, zeros3; cbn; destruct l as [|[|[|[|l]]]]; reflexivity).
    assert (LE : forall k l, (k < 3)%nat -> (l < 3)%nat -> strain_given (i_Ea (inp m)) 0 k l = literal_xz (5 / 10 * r) k l) by (intros b c Hb' Hc; rewrite Ei; cbn [with_Ea i_Ea]; apply row2_given; assumption).
    assert (FU : forall l, (l < 3)%nat -> f_U (fl m) l = 0) by (intros l Hl; rewrite Ef; cbn [f_U]; idx3 Hl; reflexivity).
    assert (FO : forall l, f_O (fl m) l = v3 0 (5 / 10 * r) 0 l) by (intros l; rewrite Ef; reflexivity).
    assert (FC : forall l, f_centre (fl m) l = v3 (still_height osc) 0 (still_height osc) l) by (intros l; rewrite Ef; reflexivity).
    cbv zeta in K1, K2. rewrite Mu in K1, K2. split; [|split; [|split]].
    - intros l Hl. destruct (K1 l Hl) as (-> & _ & _). rewrite LF. unfold linear_flow, mvec, rsum. rewrite (FU l Hl).
      unfold cross, vsub. rewrite ?FO, ?FC, !LE by lia.
      idx3 Hl; cbn [Nat.eqb]; rewrite ?andb_false_r, ?andb_true_r; try destruct (g_fully_2d g); cbn [v3 literal_xz]; unfold Rdiv; rewrite ?FO, ?FC; cbn [v3]; ring || lra.
    - intros l Hl. destruct (K1 l Hl) as (_ & -> & _). rewrite LT, FO. idx3 Hl; cbn [v3]; unfold Rdiv; ring || lra.
    - intros l Hl. destruct (K1 l Hl) as (_ & _ & ->). apply LF.
    - intros b c Hb' Hc. rewrite (K2 b c Hb' Hc), (LE b c Hb' Hc). fold a. ring. }
  exists pos, frc. split; [|split; [|rewrite U7 in PS, PFS; split; [exact PS|exact PFS]]].
  - set (first := fun m => match g_scheme g with euler => true | _ => Nat.eqb m 0 end).
    induction m as [|m IH]; intros Hm strain.
    + assert (Z : strain = 0) by (unfold strain, strain_summed; cbn [rsum]; ring). rewrite Z, P0. split.
      * intros l Hl. fold x. idx3 Hl; cbn [v3]; ring.
      * intros k _ _ l Hl. replace (0 / 2) with 0 by field. rewrite turned_y_zero by exact Hl. reflexivity.
    + specialize (IH ltac:(lia)). cbv zeta in IH. set (u := if first m then rate (INR m * g_dt g) else 3 / 2 * rate (INR m * g_dt g) - 1 / 2 * rate (INR (m - 1) * g_dt g)).
      assert (ST : strain = strain_summed g rate m + g_dt g * u) by (unfold strain, strain_summed; cbn [rsum]; fold (first m); fold u; ring).
      destruct IH as [IX IR]. destruct (PM m ltac:(lia)) as [MX MR]. destruct (VW m ltac:(lia)) as (VX & WX & _).
      assert (FB : first m = false -> (1 <= m)%nat).
      { unfold first. destruct (g_scheme g), m; cbn; try discriminate; lia. }
      assert (H2 : first m = false -> c_spos (pos (m - 1)%nat) 0%nat 2%nat = c_spos (pos m) 0%nat 2%nat).
      { intros B. apply FB in B. destruct (PM (m - 1)%nat ltac:(lia)) as [MX' _]. replace (S (m - 1)) with m in MX' by lia. rewrite (MX' 2%nat ltac:(lia)).
        destruct (VW (m - 1)%nat ltac:(lia)) as (VX' & _). rewrite (VX' 2%nat ltac:(lia)). destruct (Nat.eq_dec (m - 1) 0) as [Z|Z].
        - assert (C : match g_scheme g with euler => true | _ => Nat.eqb (m - 1) 0 end = true) by (rewrite Z; destruct (g_scheme g); reflexivity). rewrite C. cbn [v3]. ring.
        - destruct (VW (m - 1 - 1)%nat ltac:(lia)) as (VX2 & _). rewrite (VX2 2%nat ltac:(lia)). cbn [v3].
          destruct (match g_scheme g with euler => true | _ => Nat.eqb (m - 1) 0 end); ring. }
      rewrite ST. split.
      * intros l Hl. rewrite (MX l Hl). fold (first m). rewrite (VX l Hl).
        assert (Z2 : c_spos (pos m) 0%nat 2%nat = x 2%nat) by (rewrite (IX 2%nat ltac:(lia)); reflexivity). rewrite (IX l Hl).
        destruct (first m) eqn:B; unfold u.
        -- rewrite Z2. idx3 Hl; cbn [v3]; ring.
        -- destruct (VW (m - 1)%nat ltac:(specialize (FB eq_refl); lia)) as (VX' & _). rewrite (VX' l Hl), (H2 eq_refl), Z2. idx3 Hl; cbn [v3]; ring.
      * intros k I3 Hne l Hl. specialize (IR k I3 Hne). specialize (MR k I3).
        assert (NZ : exists l, (l < 3)%nat /\ vsub (c_srot (pos m) 0%nat k) (c_spos (pos m) 0%nat) l <> 0).
        { destruct (turned_y_nonzero (strain_summed g rate m / 2) _ Hne) as (c & Hc & Q). exists c. split; [exact Hc|]. rewrite <- (IR c Hc) in Q. exact Q. }
        specialize (MR NZ l Hl). unfold arm. rewrite MR. fold (first m).
        rewrite (rodrigues_y _ (u / 2)).
        -- rewrite (turned_y_ext _ _ _ l IR), turned_y_add by exact Hl. f_equal. field.
        -- destruct (first m) eqn:B; [rewrite (WX 0%nat ltac:(lia)); reflexivity|].
           destruct (VW (m - 1)%nat ltac:(specialize (FB eq_refl); lia)) as (_ & WX' & _). rewrite (WX 0%nat ltac:(lia)), (WX' 0%nat ltac:(lia)). cbn [v3]. ring.
        -- unfold u. destruct (first m) eqn:B; [rewrite (WX 1%nat ltac:(lia)); reflexivity|].
           destruct (VW (m - 1)%nat ltac:(specialize (FB eq_refl); lia)) as (_ & WX' & _). rewrite (WX 1%nat ltac:(lia)), (WX' 1%nat ltac:(lia)). cbn [v3]. field.
        -- destruct (first m) eqn:B; [rewrite (WX 2%nat ltac:(lia)); reflexivity|].
           destruct (VW (m - 1)%nat ltac:(specialize (FB eq_refl); lia)) as (_ & WX' & _). rewrite (WX 2%nat ltac:(lia)), (WX' 2%nat ltac:(lia)). cbn [v3]. ring.
        -- exact Hl.
  - intros m Hm. destruct (VW m Hm) as (_ & _ & A & B). split; [exact A|]. intros k l Hk Hl. rewrite (B k l Hk Hl). fold rate.
    idx3 Hk; idx3 Hl; cbn [literal_xz Nat.eqb andb orb]; try ring; field.
Qed.
Print Assumptions C97_shear.

(** ** The strain added up *)
Lemma cos_summed t m : 2 * sin t * rsum m (fun k => cos (2 * INR k * t)) = sin ((2 * INR m - 1) * t) + sin t.
Proof.
  induction m as [|m IH].
  - cbn [rsum INR]. replace ((2 * 0 - 1) * t) with (- t) by ring. rewrite sin_neg. ring.
  - cbn [rsum]. rewrite Rmult_plus_distr_l, IH, S_INR.
    replace ((2 * (INR m + 1) - 1) * t) with (2 * INR m * t + t) by ring. replace ((2 * INR m - 1) * t) with (2 * INR m * t - t) by ring.
    rewrite sin_plus, sin_minus. ring.
Qed.
Lemma osc_rate dt k : shear_rate true (INR k * dt) = PI / 15 * cos (2 * INR k * (PI * dt / 10)).
Proof. unfold shear_rate. replace (2 * PI * (INR k * dt) / 10) with (2 * INR k * (PI * dt / 10)) by field. field. Qed.
Lemma sin_step n : (2 <= n)%nat -> 0 < sin (PI / INR n).
Proof.
  intros Hn. assert (2 <= INR n) by (replace 2 with (INR 2) by reflexivity; apply le_INR; exact Hn). pose proof PI_RGT_0 as HP.
  apply sin_gt_0; [apply Rdiv_lt_0_compat; lra|]. apply Rmult_lt_reg_r with (INR n); [lra|]. unfold Rdiv. rewrite Rmult_assoc, Rinv_l by lra. nra.
Qed.
Lemma period_sum n j : (2 <= n)%nat -> rsum (j * n) (fun k => cos (2 * INR k * (PI / INR n))) = 0.
Proof.
  intros Hn. pose proof (sin_step n Hn) as HS. assert (0 < INR n) by (apply lt_0_INR; lia).
  pose proof (cos_summed (PI / INR n) (j * n)) as E. rewrite mult_INR in E.
  replace ((2 * (INR j * INR n) - 1) * (PI / INR n)) with (- (PI / INR n) + 2 * INR j * PI) in E by (field; lra).
  rewrite sin_period, sin_neg in E. apply Rmult_eq_reg_l with (2 * sin (PI / INR n)); [|lra]. rewrite E. ring.
Qed.

(** The strain is exact in a constant shear.  In the oscillating one Euler's
    formula gives this sum for any timestep; with two or more whole timesteps in
    a period it comes back to zero after every period; Adams' and Bashforth's,
    which starts with one step of Euler's, is off by the same amount, against
    the first displacement, after every period. *)
Theorem C97_strain :
  (forall g m, g_scheme g = euler \/ g_scheme g = ab2 -> strain_summed g (shear_rate false) m = INR m * g_dt g) /\
  (forall g m, g_scheme g = euler -> let t := PI * g_dt g / 10 in
     sin t * strain_summed g (shear_rate true) m = 1 / 3 * t * (sin ((2 * INR m - 1) * t) + sin t)) /\
  (forall g n j, g_scheme g = euler -> (2 <= n)%nat -> g_dt g = 10 / INR n -> strain_summed g (shear_rate true) (j * n) = 0) /\
  (forall g n j, g_scheme g = ab2 -> (2 <= n)%nat -> g_dt g = 10 / INR n -> (0 < j)%nat ->
     strain_summed g (shear_rate true) (j * n) = - (1 / 3 * (PI / INR n) * (1 - cos (2 * PI / INR n))) /\
     strain_summed g (shear_rate true) (j * n) < 0).
Proof.
  split; [|split; [|split]].
  - intros g m [E|E]; unfold strain_summed; rewrite E; induction m as [|m IH]; try (cbn [rsum INR]; ring);
      cbn [rsum]; rewrite Rmult_plus_distr_l, IH, S_INR; unfold shear_rate; try destruct (Nat.eqb m 0); field.
  - intros g m E t. unfold strain_summed. rewrite E.
    rewrite (rsum_ext m _ (fun k => PI / 15 * cos (2 * INR k * t))) by (intros k Hk; apply osc_rate). rewrite rsum_scal_l.
    transitivity (PI * g_dt g / 30 * (2 * sin t * rsum m (fun k => cos (2 * INR k * t)))); [field|]. rewrite cos_summed. unfold t. field.
  - intros g n j E Hn Hdt. assert (0 < INR n) by (apply lt_0_INR; lia). unfold strain_summed. rewrite E, Hdt.
    rewrite (rsum_ext (j * n) _ (fun k => PI / 15 * cos (2 * INR k * (PI / INR n)))).
    + rewrite rsum_scal_l, (period_sum n j Hn). ring.
    + intros k Hk. rewrite osc_rate. do 3 f_equal. field. lra.
  - intros g n j E Hn Hdt Hj. assert (HN : 0 < INR n) by (apply lt_0_INR; lia).
    assert (X : strain_summed g (shear_rate true) (j * n) = - (1 / 3 * (PI / INR n) * (1 - cos (2 * PI / INR n)))).
    { unfold strain_summed. rewrite E, Hdt. set (c := fun k => cos (2 * INR k * (PI / INR n))).
      assert (R : forall k, shear_rate true (INR k * (10 / INR n)) = PI / 15 * c k) by (intros k; rewrite osc_rate; unfold c; do 3 f_equal; field; lra).
      assert (G : forall m, rsum (S m) (fun k => if Nat.eqb k 0 then shear_rate true (INR k * (10 / INR n)) else 3 / 2 * shear_rate true (INR k * (10 / INR n)) - 1 / 2 * shear_rate true (INR (k - 1) * (10 / INR n)))
                  = PI / 15 * (rsum (S m) c + 1 / 2 * (c m - c 0%nat))).
      { induction m as [|m IH].
        - cbn [rsum Nat.eqb]. rewrite R. field.
        - cbn [rsum] in *. rewrite IH. cbn [Nat.eqb Nat.sub]. rewrite ?Nat.sub_0_r. rewrite !R. field. }
      assert (J : (j * n = S (j * n - 1))%nat) by nia. rewrite J at 1. rewrite G, <- J. unfold c at 1. rewrite (period_sum n j Hn).
      assert (C0 : c 0%nat = 1) by (unfold c; cbn [INR]; rewrite Rmult_0_r, Rmult_0_l; apply cos_0).
      assert (C1 : c (j * n - 1)%nat = cos (2 * PI / INR n)).
      { unfold c. rewrite minus_INR by nia. rewrite mult_INR. replace (2 * (INR j * INR n - INR 1) * (PI / INR n)) with (- (2 * PI / INR n) + 2 * INR j * PI) by (cbn [INR]; field; lra).
        rewrite cos_period. apply cos_neg. }
      rewrite C0, C1. field. lra. }
    split; [exact X|]. rewrite X. pose proof (sin_step n Hn) as HS. pose proof PI_RGT_0 as HP.
    replace (2 * PI / INR n) with (2 * (PI / INR n)) by (field; lra). rewrite cos_2a_sin.
    assert (0 < PI / INR n) by (apply Rdiv_lt_0_compat; lra).
    assert (0 < PI / INR n * (sin (PI / INR n) * sin (PI / INR n))) by (apply Rmult_lt_0_compat; [assumption|apply Rmult_lt_0_compat; assumption]). nra.
Qed.
Print Assumptions C97_strain.

(** In the oscillating shear with the settings the repository comes with and a
    whole number n of timesteps in a period: at the end of every period a
    sphere is back where it started, orientation points included. *)
Theorem C97_period :
  forall inv inv3 solve sc table h stale bb minf_only cutoff_factor n j p0,
    0 < cutoff_factor -> inverts_posdef inv -> solves_posdef solve -> solves_shape solve -> inverts inv3 ->
    0 < c_ssizes p0 0%nat -> minf_only = true \/ In 1 table -> (2 <= n)%nat -> (0 < j)%nat -> oriented 1 p0 ->
    exists s fs, full_simulation inv inv3 solve sc table h stale 1 0 fte false bb minf_only cutoff_factor
        (shipped_settings (10 / INR n) (j * n) (v3 0 0 0) (v3 0 0 0)) (fun p t => input_ftsuoe 3 fte 1 0 p t (10 / INR n)) p0 = Ok (Some (s, fs)) /\
      length s = S (j * n) /\
      forall i, (i <= j)%nat -> exists x, nth_error s (i * n) = Some x /\ forall l, (l < 3)%nat ->
        n_pos x 0%nat l = c_spos p0 0%nat l /\ forall k, (k < 2)%nat -> n_rot x 0%nat k l = c_srot p0 0%nat k l.
Proof.
  intros inv inv3 solve sc table h stale bb mo cf n j p0 Hcf Hi Hs Hsh I3 Ha Ht Hn Hj Ho.
  destruct (C97_shear inv inv3 solve sc table h stale bb mo cf (shipped_settings (10 / INR n) (j * n) (v3 0 0 0) (v3 0 0 0)) true p0) as (s & fs & E & pos & frc & A & _ & B & _);
    try assumption.
  - repeat split; cbn; auto; nia.
  - discriminate.
  - reflexivity.
  - intros l Hl. reflexivity.
  - exists s, fs. split; [exact E|].
    assert (S' : s = map (fun m => snap 1 (pos m)) (seq 0 (S (j * n)))).
    { rewrite B. cbn [g_save_pos shipped_settings g_num_frames]. rewrite due_every. unfold save_due. rewrite Nat.mod_1_r. cbn [Nat.eqb Nat.leb andb]. rewrite seq_S, map_app. reflexivity. }
    split; [rewrite S', map_length; apply seq_length|]. intros i Hi'. exists (snap 1 (pos (i * n)%nat)).
    assert (HL : (i * n <= j * n)%nat) by (apply Nat.mul_le_mono_r; exact Hi').
    split.
    + rewrite S'. rewrite nth_error_map, (nth_error_nth' _ 0%nat) by (rewrite seq_length; lia). rewrite seq_nth by lia. reflexivity.
    + destruct (A (i * n)%nat HL) as [AX AR]. pose proof (proj1 (proj2 (proj2 C97_strain)) (shipped_settings (10 / INR n) (j * n) (v3 0 0 0) (v3 0 0 0)) n i eq_refl Hn eq_refl) as Z.
      rewrite Z in AX, AR. clear Z.
      assert (PX : forall l, (l < 3)%nat -> c_spos (pos (i * n)%nat) 0%nat l = c_spos p0 0%nat l) by (intros l Hl; rewrite (AX l Hl); idx3 Hl; cbn [v3]; ring).
      intros l Hl. split; [cbn [snap n_pos]; unfold append_rows; cbn [Nat.ltb Nat.leb]; apply PX, Hl|].
      intros k Hk. cbn [snap n_rot]. specialize (AR k I3).
      assert (NZ : exists l, (l < 3)%nat /\ vsub (c_srot p0 0%nat k) (c_spos p0 0%nat) l <> 0).
      { destruct (Ho 0%nat k (Nat.lt_0_succ 0) Hk) as (c & Hc & Q). exists c. split; [exact Hc|]. unfold vsub. lra. }
      specialize (AR NZ l Hl). replace (0 / 2) with 0 in AR by field. rewrite turned_y_zero in AR by exact Hl. unfold vsub in AR. rewrite (PX l Hl) in AR. lra.
Qed.
Print Assumptions C97_period.

(** ** Examples *)
(** A unit sphere at a height of 4 with orientation points up and to the side. *)
Definition sphere_up : config :=
  mkConfig (fun _ => 1) (fun _ => v3 0 0 4) (fun _ k => if Nat.eqb k 0 then v3 0 0 5 else v3 1 0 4) (fun _ => 1) (fun _ => v3 0 0 0) (fun _ => v3 0 0 0).
Example C97_period_example sc :
  exists s fs, full_simulation pinv Proof_Step.inv3 psolve sc [1] 0 (fun _ _ => 0) 1 0 fte false true false 2
      (shipped_settings (10 / INR 10) (3 * 10) (v3 0 0 0) (v3 0 0 0)) (fun p t => input_ftsuoe 3 fte 1 0 p t (10 / INR 10)) sphere_up = Ok (Some (s, fs)) /\
    exists x, nth_error s 20 = Some x /\ n_pos x 0%nat 0%nat = 0 /\ n_rot x 0%nat 0%nat 2%nat = 5.
Proof.
  assert (SH : solves_shape psolve) by (intros n A b _; unfold psolve; rewrite map_length, seq_length; reflexivity).
  destruct (C97_period pinv Proof_Step.inv3 psolve sc [1] 0 (fun _ _ => 0) true false 2 10 3 sphere_up) as (s & fs & E & _ & P); try lia; try (cbn; lra).
  - exact pinv_ok.
  - exact psolve_ok.
  - exact SH.
  - exact Proof_Step.inv3_inverts.
  - intros j k _ Hk. destruct k as [|[|k]]; [exists 2%nat|exists 0%nat|lia]; (split; [lia|cbn; lra]).
  - exists s, fs. split; [exact E|]. destruct (P 2%nat ltac:(lia)) as (x & X1 & X2). exists x. split; [exact X1|].
    split; [apply (X2 0%nat ltac:(lia))|apply (X2 2%nat ltac:(lia)); lia].
Qed.
