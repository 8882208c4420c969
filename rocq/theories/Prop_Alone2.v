(** C97: one sphere in a linear flow; Runge-Kutta. *)
From Coq Require Import Reals List Arith ZArith Bool Lia Lra FunctionalExtensionality.
From Verif Require Import Base Py Model_Pack Model_Mob Model_Layout Model_Minf Model_Grand Model_Close Model_R2B Model_GrandP Model_Step
  Model_Shear Model_Output Model_Frame Model_Inputs Model_Sim Spec_Pack Spec_Layout Spec_Minf Spec_Convert Spec_Output Spec_Step Spec_Frame Spec_Posdef Spec_Run Spec_Run4
  Spec_Turn Spec_Push Spec_Alone
  Proof_Posdef Proof_Posdef2 Proof_Frame Proof_Run Proof_Run2 Spec_Runs Proof_Runs2 Proof_Runs3 Prop_Runs Prop_Run
  Proof_Turn2 Proof_Work3 Proof_Alone Proof_Alone2 Prop_Alone.
From Verif Require Proof_Step.
Import ListNotations.
Local Open Scope R_scope.

(** Every completed Runge-Kutta run of form fte with one sphere, with or without
    near field, the load and the flow depending on time: the sphere moves and
    turns with the weighted means of the velocities of the four stages, all at
    the position of the start of the frame; the saved force and stresslet are
    the means of those of the stages. *)
Theorem C97_rk4 :
  forall inv inv3 solve sc table h stale bb minf_only cutoff_factor g input inp fl mu p0 s fs,
    let N := g_num_frames g in
    let a := c_ssizes p0 0%nat in
    0 < cutoff_factor -> inverts_posdef inv -> solves_posdef solve ->
    g_use_drag g = false -> g_start g = 0%nat -> no_box_g g -> g_scheme g = rk4 ->
    (0 < g_save_pos g)%nat -> (0 < g_save_forces g)%nat ->
    (g_save_after g mod g_save_pos g = 0)%nat -> (g_save_after g mod g_save_forces g = 0)%nat ->
    (forall p t, input p t = Ok (inp t, fl t)) -> 0 < mu ->
    (forall t, well_posed 1 0 fte (inp t) /\ symmetric_traceless (strain_given (i_Ea (inp t)) 0) /\ f_mu (fl t) = mu /\ unbounded (fl t)) ->
    0 < a ->
    full_simulation inv inv3 solve sc table h stale 1 0 fte false bb minf_only cutoff_factor g input p0 = Ok (Some (s, fs)) ->
    exists (pos : nat -> config) (frc : nat -> fsnapshot),
      pos 0%nat = p0 /\
      (forall m, (m < N)%nat ->
         let time := stage_time m in
         let arm := fun p k => vsub (c_srot p 0%nat k) (c_spos p 0%nat) in
         let w := fun l => mean4 (fun k => lone_spin mu a (inp (time k)) (fl (time k)) l) in
         (forall l, (l < 3)%nat -> c_spos (pos (S m)) 0%nat l = c_spos (pos m) 0%nat l + g_dt g *
            (if (g_fully_2d g && Nat.eqb l 1)%bool then 0 else mean4 (fun k => lone_velocity mu a (inp (time k)) (fl (time k)) (c_spos (pos m) 0%nat) l))) /\
         (forall k, inverts inv3 -> (exists l, (l < 3)%nat /\ arm (pos m) k l <> 0) ->
            forall l, (l < 3)%nat -> arm (pos (S m)) k l = rodrigues w (norm w * g_dt g) (arm (pos m) k) l) /\
         (forall l, (l < 3)%nat -> n_Fa (frc m) 0%nat l = mean4 (fun k => load (i_Fa (inp (time k))) 0 l)) /\
         (forall k l, (k < 3)%nat -> (l < 3)%nat -> n_Sa (frc m) 0%nat k l = 20 / 3 * PI * mu * a ^ 3 * mean4 (fun j => strain_given (i_Ea (inp (time j))) 0 k l))) /\
      s = map (fun m => snap 1 (pos m)) (due_frames (g_save_pos g) (g_save_after g) N)
          ++ (if save_due (g_save_pos g) (g_save_after g) (N - 1) then [snap 1 (pos N)] else []) /\
      fs = map frc (due_frames (g_save_forces g) (g_save_after g) N).
Proof.
  intros inv inv3 solve sc table h stale bb mo cf g input inp fl mu p0 s fs N a Hcf Hi Hs Hd H0 Hb Hsch S1 S2 S3 S4 HT Hmu HI Ha E.
  assert (EI : input = fun _ t => Ok (inp t, fl t)) by (apply functional_extensionality; intros p; apply functional_extensionality; intros t; apply HT).
  rewrite EI in E.
  exact (lone_run4 inv inv3 solve sc table h stale bb mo cf g inp fl p0 mu Hcf Hi Hs Hd H0 Hb S1 S2 S3 S4 Hmu HI Ha Hsch s fs E).
Qed.
Print Assumptions C97_rk4.

(** The constant and the oscillating shear: as C97_shear, with the strain and
    the shear rate by Simpson's rule. *)
Theorem C97_shear_rk4 :
  forall inv inv3 solve sc table h stale bb minf_only cutoff_factor g oscillating p0,
    let N := g_num_frames g in
    let a := c_ssizes p0 0%nat in
    let x := c_spos p0 0%nat in
    let arm := fun p k => vsub (c_srot p 0%nat k) (c_spos p 0%nat) in
    let rate := shear_rate oscillating in
    let dt := g_dt g in
    0 < cutoff_factor -> inverts_posdef inv -> solves_posdef solve -> solves_shape solve ->
    usable g 0 -> g_scheme g = rk4 -> g_use_drag g = false -> no_box_g g -> 0 < a -> minf_only = true \/ In 1 table ->
    exists s fs, full_simulation inv inv3 solve sc table h stale 1 0 fte false bb minf_only cutoff_factor g
        (fun p t => input_ftsuoe (shear_input oscillating) fte 1 0 p t dt) p0 = Ok (Some (s, fs)) /\
      exists (pos : nat -> config) (frc : nat -> fsnapshot),
        (forall m, (m <= N)%nat ->
           let strain := strain_simpson dt rate m in
           (forall l, (l < 3)%nat -> c_spos (pos m) 0%nat l = v3 (x 0%nat + strain * (x 2%nat - still_height oscillating)) (x 1%nat) (x 2%nat) l) /\
           forall k, inverts inv3 -> (exists l, (l < 3)%nat /\ arm p0 k l <> 0) ->
             forall l, (l < 3)%nat -> arm (pos m) k l = turned_y (strain / 2) (arm p0 k) l) /\
        (forall m, (m < N)%nat ->
           (forall l, (l < 3)%nat -> n_Fa (frc m) 0%nat l = 0) /\
           forall k l, (k < 3)%nat -> (l < 3)%nat -> n_Sa (frc m) 0%nat k l =
             if ((Nat.eqb k 0 && Nat.eqb l 2) || (Nat.eqb k 2 && Nat.eqb l 0))%bool
             then 10 / 3 * PI * a ^ 3 * (1 / 6 * (rate (INR m * dt) + 4 * rate ((INR m + 1 / 2) * dt) + rate ((INR m + 1) * dt))) else 0) /\
        s = map (fun m => snap 1 (pos m)) (due_frames (g_save_pos g) 0 N) ++ (if save_due (g_save_pos g) 0 (N - 1) then [snap 1 (pos N)] else []) /\
        fs = map frc (due_frames (g_save_forces g) 0 N).
Proof.
  intros inv inv3 solve sc table h stale bb mo cf g osc p0 N a x arm rate dt Hcf Hi Hs Hsh HU Hsch Hd Hb Ha Ht.
  destruct (lone_completes inv inv3 solve sc table h stale bb mo cf g dt osc p0 Hsh HU Ha Ht) as (s & fs & E). exists s, fs. split; [exact E|].
  pose proof HU as (_ & U1 & U2 & U3 & U4 & U5 & U6 & U7).
  assert (M0 : forall e, (0 < e)%nat -> (g_save_after g mod e = 0)%nat) by (intros e He; rewrite U7; apply Nat.mod_0_l; lia).
  set (input := fun p t => input_ftsuoe (shear_input osc) fte 1 0 p t dt) in *.
  set (inp := fun t => with_Ea (default_inputs fte 1 0) [Some (row2 (literal_xz (5 / 10 * rate (t * dt))))]).
  set (fl := fun t => match input p0 t with Ok (_, f) => f | Raise _ => default_flow end).
  assert (NP : forall p t, input p t = input p0 t).
  { intros p t. unfold input, input_ftsuoe. destruct osc; reflexivity. }
  assert (FL : forall t, exists Ot Et, fl t = mkFlow (v3 0 0 0) (v3 0 (5 / 10 * rate (t * dt)) 0) (v3 (still_height osc) 0 (still_height osc)) Ot Et (v3 0 0 0) (v3 0 0 0) 1).
  { intros t. destruct (shear_is osc p0 t dt) as (Ot & Et & E'). exists Ot, Et. unfold fl, input. rewrite E'. reflexivity. }
  assert (HT : forall p t, input p t = Ok (inp t, fl t)).
  { intros p t. rewrite NP. destruct (shear_is osc p0 t dt) as (Ot & Et & E'). unfold fl, input. rewrite E'. reflexivity. }
  assert (HI : forall t, well_posed 1 0 fte (inp t) /\ symmetric_traceless (strain_given (i_Ea (inp t)) 0) /\ f_mu (fl t) = 1 /\ unbounded (fl t)).
  { intros t. destruct (FL t) as (Ot & Et & ->). unfold inp. split; [|split; [|split; [reflexivity|intros l Hl; reflexivity]]].
    - unfold well_posed. cbn [with_Ea default_inputs i_Ta i_Fa i_Ea i_Fb i_DFb].
      split; [exact (zeros_given 1)|]. split; [exact (zeros_given 1)|]. split; [exact (shear_given 1 _ (Nat.lt_0_succ 0))|]. split; exact (zeros_given 0).
    - cbn [with_Ea i_Ea]. destruct (xz_st (5 / 10 * rate (t * dt))) as [A B]. split.
      + intros b c Hb' Hc. rewrite !row2_given by assumption. apply A; assumption.
      + rewrite !row2_given by lia. exact B. }
  destruct (C97_rk4 inv inv3 solve sc table h stale bb mo cf g input inp fl 1 p0 s fs Hcf Hi Hs Hd U2 Hb Hsch U5 U6 (M0 _ U5) (M0 _ U6) HT ltac:(lra) HI Ha E)
    as (pos & frc & P0 & PM & PS & PFS).
  assert (LV : forall t y l, (l < 3)%nat -> lone_velocity 1 a (inp t) (fl t) y l = v3 (rate (t * dt) * (y 2%nat - still_height osc)) 0 0 l).
  { intros t y l Hl. destruct (FL t) as (Ot & Et & ->). unfold lone_velocity, linear_flow, mvec, rsum, cross, vsub, inp. cbn [with_Ea i_Ea i_Fa default_inputs f_U f_O f_centre].
    rewrite !row2_given by lia. unfold load. cbn [repeat nth_error]. unfold zeros3. idx3 Hl; cbn [nth v3 literal_xz]; unfold Rdiv; ring || lra. }
  assert (LS : forall t l, (l < 3)%nat -> lone_spin 1 a (inp t) (fl t) l = v3 0 (rate (t * dt) / 2) 0 l).
  { intros t l Hl. destruct (FL t) as (Ot & Et & ->). unfold lone_spin, inp. cbn [with_Ea i_Ta default_inputs f_O]. unfold load. cbn [repeat nth_error]. unfold zeros3. idx3 Hl; cbn [nth v3]; unfold Rdiv; ring || lra. }
  set (mean := fun m => 1 / 6 * (rate (INR m * dt) + 4 * rate ((INR m + 1 / 2) * dt) + rate ((INR m + 1) * dt))).
  exists pos, frc. split; [|split; [|rewrite U7 in PS, PFS; split; [exact PS|exact PFS]]].
  - induction m as [|m IH]; intros Hm strain.
    + assert (Z : strain = 0) by (unfold strain, strain_simpson; cbn [rsum]; ring). rewrite Z, P0. split.
      * intros l Hl. fold x. idx3 Hl; cbn [v3]; ring.
      * intros k _ _ l Hl. replace (0 / 2) with 0 by field. rewrite turned_y_zero by exact Hl. reflexivity.
    + specialize (IH ltac:(lia)). cbv zeta in IH. destruct IH as [IX IR].
      assert (ST : strain = strain_simpson dt rate m + dt * mean m) by (unfold strain, strain_simpson, mean; cbn [rsum]; ring).
      destruct (PM m ltac:(lia)) as (MX & MR & _). rewrite ST.
      assert (Z2 : c_spos (pos m) 0%nat 2%nat = x 2%nat) by (rewrite (IX 2%nat ltac:(lia)); reflexivity).
      split.
      * intros l Hl. rewrite (MX l Hl), (IX l Hl). unfold mean4. rewrite !LV by exact Hl. rewrite Z2. cbn [stage_time]. fold dt. unfold mean.
        idx3 Hl; cbn [Nat.eqb]; rewrite ?andb_false_r, ?andb_true_r; try destruct (g_fully_2d g); cbn [v3]; field.
      * intros k I3 Hne l Hl. specialize (IR k I3 Hne). specialize (MR k I3).
        assert (NZ : exists l, (l < 3)%nat /\ vsub (c_srot (pos m) 0%nat k) (c_spos (pos m) 0%nat) l <> 0).
        { destruct (turned_y_nonzero (strain_simpson dt rate m / 2) _ Hne) as (c & Hc & Q). exists c. split; [exact Hc|]. rewrite <- (IR c Hc) in Q. exact Q. }
        specialize (MR NZ l Hl). unfold arm. rewrite MR.
        rewrite (rodrigues_y _ (mean m / 2)).
        -- rewrite (turned_y_ext _ _ _ l IR), turned_y_add by exact Hl. f_equal. fold dt. field.
        -- unfold mean4. rewrite !LS by lia. cbn [v3]. ring.
        -- unfold mean4. rewrite !LS by lia. cbn [v3 stage_time]. unfold mean. field.
        -- unfold mean4. rewrite !LS by lia. cbn [v3]. ring.
        -- exact Hl.
  - intros m Hm. destruct (PM m Hm) as (_ & _ & A & B). split.
    + intros l Hl. rewrite (A l Hl). unfold mean4, inp. cbn [with_Ea i_Fa default_inputs]. unfold load. cbn [repeat nth_error]. unfold zeros3. idx3 Hl; cbn [nth]; field.
    + intros k l Hk Hl. rewrite (B k l Hk Hl). unfold mean4, inp. cbn [with_Ea i_Ea]. rewrite !row2_given by assumption. cbn [stage_time]. fold a.
      idx3 Hk; idx3 Hl; cbn [literal_xz Nat.eqb andb orb]; field.
Qed.
Print Assumptions C97_shear_rk4.

(** Simpson's strain is exact in a constant shear; in the oscillating one it is
    the true strain, sin(2 pi t / 10) / 3, times a factor that does not depend
    on the time, so that it vanishes at the end of every period. *)
Theorem C97_simpson :
  (forall dt m, strain_simpson dt (shear_rate false) m = INR m * dt) /\
  (forall dt m, let t := PI * dt / 10 in
     sin t * strain_simpson dt (shear_rate true) m = t * (2 + cos t) / 3 * (1 / 3 * sin (2 * PI * (INR m * dt) / 10))) /\
  (forall n j, (2 <= n)%nat -> strain_simpson (10 / INR n) (shear_rate true) (j * n) = 0).
Proof.
  assert (G : forall dt m, let t := PI * dt / 10 in
     sin t * strain_simpson dt (shear_rate true) m = t * (2 + cos t) / 3 * (1 / 3 * sin (2 * PI * (INR m * dt) / 10))).
  { intros dt m t. unfold strain_simpson. induction m as [|m IH].
    - cbn [rsum INR]. replace (2 * PI * (0 * dt) / 10) with 0 by field. rewrite sin_0. ring.
    - cbn [rsum]. rewrite !Rmult_plus_distr_l, IH, S_INR. clear IH. unfold shear_rate.
      set (u := 2 * INR m * t + t).
      replace (2 * PI * (INR m * dt) / 10) with (u - t) by (unfold u, t; field).
      replace (2 * PI * ((INR m + 1 / 2) * dt) / 10) with u by (unfold u, t; field).
      replace (2 * PI * ((INR m + 1) * dt) / 10) with (u + t) by (unfold u, t; field).
      rewrite sin_plus, sin_minus, cos_plus, cos_minus. unfold t. field. }
  split; [|split; [exact G|]].
  - intros dt m. unfold strain_simpson. induction m as [|m IH]; [cbn [rsum INR]; ring|]. cbn [rsum]. rewrite Rmult_plus_distr_l, IH, S_INR. unfold shear_rate. field.
  - intros n j Hn. pose proof (sin_step n Hn) as HS. assert (0 < INR n) by (apply lt_0_INR; lia).
    pose proof (G (10 / INR n) (j * n)%nat) as E. cbv zeta in E. rewrite mult_INR in E.
    replace (PI * (10 / INR n) / 10) with (PI / INR n) in E by (field; lra).
    replace (2 * PI * (INR j * INR n * (10 / INR n)) / 10) with (0 + 2 * INR j * PI) in E by (field; lra).
    rewrite sin_period, sin_0, !Rmult_0_r in E. apply Rmult_integral in E. destruct E as [E|E]; [lra|exact E].
Qed.
Print Assumptions C97_simpson.

(** ** Finding: first order only *)
(** A steady straining flow stretching the fluid along x at the rate [e], the
    sphere free of forces: an input a user may write. *)
Definition stretching (e : R) (p : config) (t : R) : res (inputs * flow) :=
  Ok (with_Ea (default_inputs fte 1 0) [Some [[e; 0; 0]; [0; - (e / 2); 0]; [0; 0; - (e / 2)]]], default_flow).
(** The factor by which a method of fourth order stretches in one step, for
    z = e dt: the exponential up to that order. *)
Definition fourth_order (z : R) : R := 1 + z + z ^ 2 / 2 + z ^ 3 / 6 + z ^ 4 / 24.
Theorem C97_order_refuted :
  forall inv inv3 solve sc table h stale bb minf_only cutoff_factor g e p0,
    let N := g_num_frames g in
    let x0 := c_spos p0 0%nat 0%nat in
    let z := e * g_dt g in
    0 < cutoff_factor -> inverts_posdef inv -> solves_posdef solve -> solves_shape solve ->
    usable g 0 -> g_scheme g = rk4 -> g_use_drag g = false -> no_box_g g -> 0 < c_ssizes p0 0%nat -> minf_only = true \/ In 1 table ->
    exists s fs, full_simulation inv inv3 solve sc table h stale 1 0 fte false bb minf_only cutoff_factor g (stretching e) p0 = Ok (Some (s, fs)) /\
      exists pos : nat -> config,
        (forall m, (m <= N)%nat -> c_spos (pos m) 0%nat 0%nat = x0 * (1 + z) ^ m) /\
        (0 < z -> 0 < x0 -> forall m, (0 < m <= N)%nat -> c_spos (pos m) 0%nat 0%nat < x0 * fourth_order z ^ m) /\
        s = map (fun m => snap 1 (pos m)) (due_frames (g_save_pos g) 0 N) ++ (if save_due (g_save_pos g) 0 (N - 1) then [snap 1 (pos N)] else []).
Proof.
  intros inv inv3 solve sc table h stale bb mo cf g e p0 N x0 z Hcf Hi Hs Hsh HU Hsch Hd Hb Ha Ht.
  set (i := with_Ea (default_inputs fte 1 0) [Some [[e; 0; 0]; [0; - (e / 2); 0]; [0; 0; - (e / 2)]]]).
  assert (GE : all_given33 1 (i_Ea i)).
  { split; [reflexivity|]. intros o [<-|[]]. eexists. split; [reflexivity|]. split; [reflexivity|]. intros r [<-|[<-|[<-|[]]]]; reflexivity. }
  assert (EX : exists s fs, full_simulation inv inv3 solve sc table h stale 1 0 fte false bb mo cf g (stretching e) p0 = Ok (Some (s, fs))).
  { destruct (C62_complete inv inv3 solve sc table h stale 1 0 fte false bb mo cf g (stretching e) p0 [c_ssizes p0 0%nat] Hsh) as (s & fs & E & _).
    - intros j Hj. left. assert (C : j = 0%nat) by lia. rewrite C. reflexivity.
    - intros j Hj. lia.
    - destruct Ht as [-> |H1]; [left; reflexivity|right]. intros a b [<-|[]] [<-|[]]. exists 1. split; [exact H1|].
      replace (1 - c_ssizes p0 0%nat / c_ssizes p0 0%nat) with 0 by (field; lra). rewrite Rabs_R0.
      apply Rplus_le_le_0_compat; [|apply Rmult_le_pos; [|apply Rabs_pos]]; left; apply Rinv_0_lt_compat, pow_lt; lra.
    - discriminate.
    - intros p t _ _. exists i, default_flow. split; [reflexivity|]. split; [|left; exact free_default].
      unfold complete. cbv zeta. split; [lia|]. split; [exact (zeros_given 1)|]. split; [exact (zeros_given 1)|]. split; [exact GE|]. split; exact (zeros_given 0).
    - exact HU.
    - exists s, fs. exact E. }
  destruct EX as (s & fs & E). exists s, fs. split; [exact E|].
  pose proof HU as (_ & U1 & U2 & U3 & U4 & U5 & U6 & U7).
  assert (M0 : forall k, (0 < k)%nat -> (g_save_after g mod k = 0)%nat) by (intros k Hk; rewrite U7; apply Nat.mod_0_l; lia).
  destruct (C97_rk4 inv inv3 solve sc table h stale bb mo cf g (stretching e) (fun _ => i) (fun _ => default_flow) 1 p0 s fs Hcf Hi Hs Hd U2 Hb Hsch U5 U6 (M0 _ U5) (M0 _ U6))
    as (pos & frc & P0 & PM & PS & _); try assumption; try lra.
  - intros p t. reflexivity.
  - intros _. split; [|split; [|split; [reflexivity|intros l Hl; reflexivity]]].
    + unfold well_posed. split; [exact (zeros_given 1)|]. split; [exact (zeros_given 1)|]. split; [exact GE|]. split; exact (zeros_given 0).
    + unfold strain_given, i. cbn [with_Ea i_Ea nth_error]. split; [intros a b Hra Hrb; idx3 Hra; idx3 Hrb; reflexivity|cbn; field].
  - exists pos.
    assert (X : forall m, (m <= N)%nat -> c_spos (pos m) 0%nat 0%nat = x0 * (1 + z) ^ m).
    { induction m as [|m IH]; intros Hm; [rewrite P0; cbn [pow]; unfold x0; ring|].
      destruct (PM m ltac:(lia)) as (MX & _). rewrite (MX 0%nat ltac:(lia)), (IH ltac:(lia)). cbn [Nat.eqb]. rewrite andb_false_r.
      unfold mean4, lone_velocity, linear_flow, mvec, rsum, cross, vsub, load, strain_given, i. cbn [with_Ea default_inputs i_Fa i_Ea repeat nth_error zeros3 nth default_flow f_U f_O f_centre v3].
      rewrite (IH ltac:(lia)). cbn [pow]. unfold z, Rdiv. lra. }
    split; [exact X|]. split; [|rewrite U7 in PS; exact PS].
    intros Hz Hx m Hm. rewrite (X m ltac:(lia)). apply Rmult_lt_compat_l; [exact Hx|].
    assert (LT : 1 + z < fourth_order z).
    { unfold fourth_order. assert (0 < z ^ 2) by (apply pow_lt; exact Hz). assert (0 < z ^ 3) by (apply pow_lt; exact Hz). assert (0 < z ^ 4) by (apply pow_lt; exact Hz). lra. }
    clear X PM PS E. destruct m as [|m]; [lia|]. clear Hm. induction m as [|m IH]; [cbn [pow]; lra|].
    change ((1 + z) * (1 + z) ^ S m < fourth_order z * fourth_order z ^ S m).
    assert (0 < (1 + z) ^ S m) by (apply pow_lt; lra). apply Rmult_gt_0_lt_compat; lra.
Qed.
Print Assumptions C97_order_refuted.

(** ** Examples *)
Definition rk4_settings (dt : R) (n : nat) : settings :=
  mkSettings rk4 dt n 0 1 false true false false (v3 0 0 0) (v3 0 0 0) 1 1 0 true 120.
(** Ten steps of 1/10 at the rate 1 from x = 1: 2.5937..., not the 2.71828 of a
    fourth order method. *)
Example C97_order_example sc :
  exists s fs x, full_simulation pinv Proof_Step.inv3 psolve sc [1] 0 (fun _ _ => 0) 1 0 fte false true false 2 (rk4_settings (1 / 10) 10) (stretching 1)
      (mkConfig (fun _ => 1) (fun _ => v3 1 0 0) (fun _ k => v3 1 0 1) (fun _ => 1) (fun _ => v3 0 0 0) (fun _ => v3 0 0 0)) = Ok (Some (s, fs)) /\
    nth_error s 10 = Some x /\ 2593 / 1000 < n_pos x 0%nat 0%nat < 2594 / 1000 /\ 2718 / 1000 < fourth_order (1 / 10) ^ 10.
Proof.
  assert (SH : solves_shape psolve) by (intros n A b _; unfold psolve; rewrite map_length, seq_length; reflexivity).
  destruct (C97_order_refuted pinv Proof_Step.inv3 psolve sc [1] 0 (fun _ _ => 0) true false 2 (rk4_settings (1 / 10) 10) 1
    (mkConfig (fun _ => 1) (fun _ => v3 1 0 0) (fun _ k => v3 1 0 1) (fun _ => 1) (fun _ => v3 0 0 0) (fun _ => v3 0 0 0))) as (s & fs & E & pos & A & _ & B).
  - lra.
  - exact pinv_ok.
  - exact psolve_ok.
  - exact SH.
  - repeat split; cbn; auto; lia.
  - reflexivity.
  - reflexivity.
  - intros l Hl. reflexivity.
  - cbn. lra.
  - right. left. reflexivity.
  - exists s, fs, (snap 1 (pos 10%nat)). split; [exact E|]. split; [rewrite B; reflexivity|]. split.
    + change (n_pos (snap 1 (pos 10%nat)) 0%nat 0%nat) with (c_spos (pos 10%nat) 0%nat 0%nat). rewrite (A 10%nat ltac:(cbn; lia)). cbn [rk4_settings g_dt c_spos v3]. cbn [pow]. lra.
    + unfold fourth_order. cbn [pow]. lra.
Qed.
(** The oscillating shear, 4 steps a period: after a quarter the sphere has
    moved by more than half a radius, after a whole period it is back. *)
Example C97_shear_rk4_example sc :
  exists s fs x y, full_simulation pinv Proof_Step.inv3 psolve sc [] 0 (fun _ _ => 0) 1 0 fte false true true 2 (rk4_settings (10 / INR 4) 4)
      (fun p t => input_ftsuoe 3 fte 1 0 p t (10 / INR 4)) sphere_up = Ok (Some (s, fs)) /\
    nth_error s 1 = Some x /\ nth_error s 4 = Some y /\ 1 / 2 < n_pos x 0%nat 0%nat /\ n_pos y 0%nat 0%nat = 0.
Proof.
  assert (SH : solves_shape psolve) by (intros n A b _; unfold psolve; rewrite map_length, seq_length; reflexivity).
  destruct (C97_shear_rk4 pinv Proof_Step.inv3 psolve sc [] 0 (fun _ _ => 0) true true 2 (rk4_settings (10 / INR 4) 4) true sphere_up) as (s & fs & E & pos & frc & A & _ & B & _).
  - lra.
  - exact pinv_ok.
  - exact psolve_ok.
  - exact SH.
  - repeat split; cbn; auto; lia.
  - reflexivity.
  - reflexivity.
  - intros l Hl. reflexivity.
  - cbn. lra.
  - left. reflexivity.
  - exists s, fs, (snap 1 (pos 1%nat)), (snap 1 (pos 4%nat)). split; [exact E|]. split; [rewrite B; reflexivity|]. split; [rewrite B; reflexivity|].
    change (n_pos (snap 1 (pos 1%nat)) 0%nat 0%nat) with (c_spos (pos 1%nat) 0%nat 0%nat). change (n_pos (snap 1 (pos 4%nat)) 0%nat 0%nat) with (c_spos (pos 4%nat) 0%nat 0%nat).
    destruct (A 1%nat ltac:(cbn; lia)) as [A1 _], (A 4%nat ltac:(cbn; lia)) as [A4 _]. rewrite (A1 0%nat), (A4 0%nat) by lia. cbn [rk4_settings g_dt sphere_up c_spos v3 still_height].
    split.
    + destruct C97_simpson as (_ & G & _). specialize (G (10 / INR 4) 1%nat). cbv zeta in G. set (st := strain_simpson (10 / INR 4) (shear_rate true) 1) in *.
      replace (PI * (10 / INR 4) / 10) with (PI / 4) in G by (cbn [INR]; field). replace (2 * PI * (INR 1 * (10 / INR 4)) / 10) with (PI / 2) in G by (cbn [INR]; field).
      rewrite sin_PI2, sin_PI4, cos_PI4 in G. pose proof (sqrt_lt_R0 2 ltac:(lra)) as Q. pose proof (sqrt_sqrt 2 ltac:(lra)) as Q2.
      assert (HP : 3 < PI) by (pose proof PI2_3_2; lra).
      assert (Q3 : sqrt 2 < 3 / 2) by nra. assert (Q4 : 7 / 5 < sqrt 2) by nra.
      assert (I : 1 / sqrt 2 = sqrt 2 / 2) by (apply Rmult_eq_reg_l with (sqrt 2); [|lra]; field_simplify; [nra|lra]).
      rewrite I in G. assert (2 / 7 < st) by nra. lra.
    + destruct C97_simpson as (_ & _ & G). pose proof (G 4%nat 1%nat ltac:(lia)) as Z. cbn [Nat.mul Nat.add] in Z. rewrite Z. ring.
Qed.
