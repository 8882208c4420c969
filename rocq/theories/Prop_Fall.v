(** C106: two equal spheres pulled alike, with near field, at a separation of the
    table. *)
From Coq Require Import Reals List Arith ZArith Bool Lia Lra.
From Verif Require Import Base Py Model_Pack Model_Mob Model_Layout Model_Minf Model_Grand Model_Close Model_R2B Model_GrandP Model_Step Model_Subtract
  Model_Output Model_Frame Model_Inputs Model_Sim Spec_Pack Spec_Layout Spec_Minf Spec_Convert Spec_Output Spec_Step Spec_Frame Spec_Posdef Spec_Run Spec_Run4
  Spec_Turn Spec_Turn4 Spec_Renumber Spec_Work Spec_Pair Spec_Two Spec_Scalars Spec_R2B Spec_Subtract Spec_Exact Spec_Fall
  Proof_Posdef Proof_Posdef2 Spec_Runs Prop_Runs Proof_Pair Proof_Pair2 Prop_Pair Proof_Two5 Prop_Two Prop_Drift Proof_Exact4 Prop_Exact Proof_Fall.
From Verif Require Proof_Step.
Import ListNotations.
Local Open Scope R_scope.

Lemma law_drift x mu d F U O S : mu <> 0 -> mobility_law x d U O (fun _ k => F k / mu) (fun _ _ => 0) (fun _ _ _ => 0) S ->
  (forall l, (l < 3)%nat -> U 0%nat l = exact_drift x mu d F l) /\
  (forall k l, (k < 3)%nat -> (l < 3)%nat -> S 0%nat k l * mu = exact_stresslet x d F k l).
Proof.
  intros Hmu (A & _ & C). split.
  - intros l Hl. rewrite (A 0%nat l) by (assumption || lia). unfold exact_drift, tA, dot3. cbn [rsum]. idx3 Hl; unfold delta; cbn [Nat.eqb]; field; exact Hmu.
  - intros k l Hk Hl. rewrite (C 0%nat k l) by (assumption || lia). unfold exact_stresslet, tG, dot3. cbn [rsum]. idx3 Hk; idx3 Hl; unfold delta; cbn [Nat.eqb]; field; exact Hmu.
Qed.

(** Two spheres of equal radius [a], both always given the force [F] and nothing
    else, in a fluid of viscosity [mu], near field included, with the table made
    by subtract_R2Binfinity from the dimensionless scalars of the literature
    ([x], [X]), at one of the tabulated separations and within the cutoff: in
    every completed run of any of the three schemes, both are displaced in frame
    [m] by m dt times the velocity those scalars give (in the planar mode without
    the y component), and the stresslets saved are those of the scalars. *)
Theorem C106_pulled :
  forall x X lams srange raw inv inv3 solve h stale fm bb cutoff_factor g input mu F p0 s fs,
    let N := g_num_frames g in
    let a := c_ssizes p0 0%nat in
    let sep := vsub (c_spos p0 1%nat) (c_spos p0 0%nat) in
    let r := norm sep in
    let sc := XYZ (subtract_R2Binfinity inv bb lams srange raw) srange in
    two_sphere_scalars x X -> tabulates X lams srange raw -> increasing srange -> distinguishable lams ->
    (forall l, In l lams -> 0 < l) -> (forall t, In t srange -> 2 < t) -> In 1 lams ->
    inverts_posdef inv -> solves_posdef solve ->
    g_scheme g = euler \/ g_scheme g = ab2 \/ g_scheme g = rk4 -> g_start g = 0%nat -> g_use_drag g = false -> no_box_g g ->
    (0 < g_save_pos g)%nat -> (0 < g_save_forces g)%nat ->
    (g_save_after g mod g_save_pos g = 0)%nat -> (g_save_after g mod g_save_forces g = 0)%nat ->
    pulled_alike fm mu F input -> (forall p t i f, input p t = Ok (i, f) -> well_posed 2 0 fm i) -> 0 < mu ->
    c_ssizes p0 1%nat = a -> 0 < a -> / 10 ^ 8 < r -> In (r / a) srange -> r / a < 2 * cutoff_factor ->
    full_simulation inv inv3 solve sc lams h stale 2 0 fm false bb false cutoff_factor g input p0 = Ok (Some (s, fs)) ->
    let d := vscal (/ r) sep in
    let U := fun l => if (g_fully_2d g && Nat.eqb l 1)%bool then 0 else exact_drift (x a a r) mu d (fun k => nth k F 0) l in
    let S := exact_stresslet (x a a r) d (fun k => nth k F 0) in
    exists (pos : nat -> snapshot) (frc : nat -> fsnapshot),
      (forall m, (m <= N)%nat -> carried p0 U (INR m * g_dt g) (pos m)) /\
      (forall m, (m < N)%nat -> opposite_stresslets S (frc m)) /\
      s = map pos (due_frames (g_save_pos g) (g_save_after g) N) ++ (if save_due (g_save_pos g) (g_save_after g) (N - 1) then [pos N] else []) /\
      fs = map frc (due_frames (g_save_forces g) (g_save_after g) N).
Proof.
  intros x X lams srange raw inv inv3 solve h stale fm bb cf g input mu F p0 s fs N a sep r sc HX HT Hinc Hdis Hpos Hap One Hi Hs Hsch H0 Hd Hb S1 S2 S3 S4 HI HW Hmu Hsz Ha E8 Is Hc E d U T.
  assert (Hsz' : c_ssizes p0 0%nat = c_ssizes p0 1%nat) by (symmetry; exact Hsz).
  assert (Hcf : 0 < cf) by (pose proof (Hap _ Is); lra).
  pose proof (table_grand x X lams srange raw HX HT Hinc Hdis Hpos Hap One inv bb Hi p0 cf mu Hsz' Ha Hmu Hc Is E8) as TG.
  pose proof (pair_posed_if inv inv3 solve sc lams h stale fm bb false cf input p0 mu F Hcf Hi Hs HI Hsz' Hmu Ha E8 TG HW g Hd H0 Hb Hsch) as PP.
  assert (K : exists V S, straight g p0 s fs V S /\ ((0 < N)%nat -> worked_out sc lams fm bb false cf g input p0 mu V S)).
  { destruct PP as [[C P]|[C P]].
    - exact (solved_euler inv inv3 solve sc lams h stale fm bb false cf g input p0 mu F Hcf Hi Hs H0 Hb HI Hsz' S1 S2 S3 S4 s fs E C P).
    - exact (solved_rk4 inv inv3 solve sc lams h stale fm bb false cf g input p0 mu F Hcf Hi Hs H0 Hb HI Hsz' S1 S2 S3 S4 s fs E C P). }
  destruct K as (V & S & (pos & frc & A & A' & B & B') & WO). exists pos, frc.
  assert (Q : forall f o, solved_pair sc lams fm bb false cf g input p0 mu f o ->
    (forall l, (l < 3)%nat -> rowof (Model_Output.o_Ua o) 0%nat l = exact_drift (x a a r) mu d (fun k => nth k F 0) l) /\
    (forall k l, (k < 3)%nat -> (l < 3)%nat -> matof (Model_Output.o_Sa o) 0%nat k l = T k l)).
  { intros f o SV.
    pose proof (solved_law x X lams srange raw HX HT Hinc Hdis Hpos Hap One inv bb Hi p0 cf mu Hsz' Ha Hmu Hc Is E8 g fm input F HI Hd f o SV) as ML.
    destruct (law_drift _ mu _ (fun k => nth k F 0) _ _ _ ltac:(lra) ML) as [D1 D2]. split; [exact D1|].
    intros k l Hk Hl. transitivity (matof (Model_Output.o_Sa o) 0%nat k l / mu * mu); [field; lra|exact (D2 k l Hk Hl)]. }
  split; [|split; [|split; [exact B|exact B']]].
  2:{ intros m Hm k l Hk Hl. destruct (WO ltac:(fold N; lia)) as (f & o & SV & _ & ES). destruct (A' m Hm k l Hk Hl) as [Y Z].
      rewrite ES in Y, Z. rewrite (proj2 (Q f o SV) k l Hk Hl) in Y, Z. split; [exact Y|exact Z]. }
  intros m Hm j l Hj Hl. rewrite (A m Hm j l Hj Hl). destruct (Nat.eq_dec m 0) as [->|Nm]; [cbn [INR]; ring|].
  destruct (WO ltac:(fold N; lia)) as (f & o & SV & EV & _). rewrite EV. unfold U. destruct (g_fully_2d g && Nat.eqb l 1)%bool; [reflexivity|].
  rewrite (proj1 (Q f o SV) l Hl). reflexivity.
Qed.
Print Assumptions C106_pulled.

Lemma exact_drift_pull x mu d F F' l : (forall k, (k < 3)%nat -> F k = F' k) -> (l < 3)%nat -> exact_drift x mu d F l = exact_drift x mu d F' l.
Proof. intros H Hl. unfold exact_drift, dot3. rewrite !H by lia. reflexivity. Qed.
Lemma exact_stresslet_pull x d F F' k l : (forall k, (k < 3)%nat -> F k = F' k) -> (k < 3)%nat -> (l < 3)%nat -> exact_stresslet x d F k l = exact_stresslet x d F' k l.
Proof. intros H Hk Hl. unfold exact_stresslet, dot3. rewrite !H by lia. reflexivity. Qed.

(** Falling under gravity (input 1), with usable settings: the run completes. *)
Theorem C106_falling :
  forall x X lams srange raw inv inv3 solve h stale fm bb cutoff_factor g dt p0,
    let N := g_num_frames g in
    let input := fun p t => input_ftsuoe 1 fm 2 0 p t dt in
    let a := c_ssizes p0 0%nat in
    let sep := vsub (c_spos p0 1%nat) (c_spos p0 0%nat) in
    let r := norm sep in
    let sc := XYZ (subtract_R2Binfinity inv bb lams srange raw) srange in
    let d := vscal (/ r) sep in
    let U := fun l => if (g_fully_2d g && Nat.eqb l 1)%bool then 0 else exact_drift (x a a r) 1 d (v3 0 0 (-1)) l in
    two_sphere_scalars x X -> tabulates X lams srange raw -> increasing srange -> distinguishable lams ->
    (forall l, In l lams -> 0 < l) -> (forall t, In t srange -> 2 < t) -> In 1 lams ->
    inverts_posdef inv -> solves_posdef solve -> solves_shape solve -> fm = fte \/ fm = ufte ->
    usable g 0 -> g_use_drag g = false -> no_box_g g ->
    c_ssizes p0 1%nat = a -> 0 < a -> / 10 ^ 8 < r -> In (r / a) srange -> r / a < 2 * cutoff_factor ->
    exists s fs, full_simulation inv inv3 solve sc lams h stale 2 0 fm false bb false cutoff_factor g input p0 = Ok (Some (s, fs)) /\
      exists (pos : nat -> snapshot) (frc : nat -> fsnapshot),
        (forall m, (m <= N)%nat -> carried p0 U (INR m * g_dt g) (pos m)) /\
        (forall m, (m < N)%nat -> opposite_stresslets (exact_stresslet (x a a r) d (v3 0 0 (-1))) (frc m)) /\
        s = map pos (due_frames (g_save_pos g) 0 N) ++ (if save_due (g_save_pos g) 0 (N - 1) then [pos N] else []) /\
        fs = map frc (due_frames (g_save_forces g) 0 N).
Proof.
  intros x X lams srange raw inv inv3 solve h stale fm bb cf g dt p0 N input a sep r sc d U HX HT Hinc Hdis Hpos Hap One Hi Hs Hsh Hfm HU Hd Hb Hsz Ha E8 Is Hc.
  destruct (pair_completes inv inv3 solve sc lams h stale fm bb false cf g dt p0 Hsh Hfm HU Hsz Ha) as (s & fs & E); [right; exact One|].
  exists s, fs. split; [exact E|]. pose proof HU as (SC & U1 & U2 & U3 & U4 & U5 & U6 & U7).
  assert (M0 : forall e, (0 < e)%nat -> (g_save_after g mod e = 0)%nat) by (intros e He; rewrite U7; apply Nat.mod_0_l; lia).
  assert (G3 : forall n, (n < 3)%nat -> nth n [0; 0; - (1)] 0 = v3 0 0 (-1) n) by (intros n Hn; idx3 Hn; cbn [nth v3]; ring).
  destruct (C106_pulled x X lams srange raw inv inv3 solve h stale fm bb cf g input 1 [0; 0; - (1)] p0 s fs) as (pos & frc & A & A' & B & B'); try assumption; try lra.
  - tauto.
  - apply M0, U5.
  - apply M0, U6.
  - exact (gravity_alike fm dt Hfm).
  - exact (gravity_posed fm dt Hfm).
  - exists pos, frc. split; [|split; [|rewrite U7 in B, B'; split; [exact B|exact B']]].
    2:{ intros m Hm k l Hk Hl. destruct (A' m Hm k l Hk Hl) as [Y Z]. rewrite (exact_stresslet_pull _ _ _ (v3 0 0 (-1)) k l G3 Hk Hl) in Y, Z. split; assumption. }
    intros m Hm j l Hj Hl. rewrite (A m Hm j l Hj Hl). unfold U.
    destruct (g_fully_2d g && Nat.eqb l 1)%bool; [reflexivity|]. rewrite (exact_drift_pull _ _ _ _ (v3 0 0 (-1)) l G3 Hl). reflexivity.
Qed.
Print Assumptions C106_falling.

(** Two unit spheres, one above the other at 2.1 radii, with the example scalars
    of C105: they fall with the mobility along the line of centres, faster than
    one alone. *)
Definition upright_pair : config :=
  mkConfig (fun _ => 1) (fun j => v3 0 0 (21 / 10 * INR j)) (fun j k => v3 1 0 (INR j)) (fun _ => 1) (fun _ => v3 0 0 0) (fun _ => v3 0 0 0).
Example C106_upright_example dt num_frames : 0 < dt -> (0 < num_frames)%nat ->
  exists s fs, full_simulation pinv Proof_Step.inv3 psolve (XYZ (subtract_R2Binfinity pinv true exL exS exRaw) exS) exL 0 (fun _ _ => 0) 2 0 fte false true false 2
      (shipped_settings dt num_frames (v3 0 0 0) (v3 0 0 0)) (fun p t => input_ftsuoe 1 fte 2 0 p t dt) upright_pair = Ok (Some (s, fs)) /\
    exists (U : vec) (pos : nat -> snapshot),
      (forall m, (m <= num_frames)%nat -> carried upright_pair U (INR m * dt) (pos m)) /\
      U 0%nat = 0 /\ U 2%nat = - (scalar (ex_x 1 1 (21 / 10)) 0 0 0 + scalar (ex_x 1 1 (21 / 10)) 0 0 1) /\ U 2%nat < - / (6 * PI).
Proof.
  intros Hdt HN.
  assert (SH : solves_shape psolve) by (intros n A b _; unfold psolve; rewrite map_length, seq_length; reflexivity).
  assert (NR : norm (vsub (c_spos upright_pair 1) (c_spos upright_pair 0)) = 21 / 10).
  { unfold norm, vsub, upright_pair, v3. cbn [c_spos INR]. replace (_ + _) with ((21 / 10) ^ 2) by field. apply sqrt_pow2. lra. }
  destruct ex_table as (A & B & C & D & E).
  destruct (C106_falling ex_x ex_X exL exS exRaw pinv Proof_Step.inv3 psolve 0 (fun _ _ => 0) fte true 2 (shipped_settings dt num_frames (v3 0 0 0) (v3 0 0 0)) dt upright_pair)
    as (s & fs & ES & pos & frc & P1 & _); try assumption; try reflexivity; try exact ex_two_spheres; try exact pinv_ok; try exact psolve_ok; cbv zeta; rewrite ?NR; cbn [c_ssizes upright_pair]; try lra.
  - cbn; auto 7.
  - left. reflexivity.
  - repeat split; cbn; auto; lia.
  - intros l Hl. reflexivity.
  - replace (21 / 10 / 1) with (21 / 10) by field. cbn; auto.
  - exists s, fs. split; [exact ES|]. eexists. exists pos. split; [exact P1|]. cbv zeta. rewrite NR. cbn [c_ssizes upright_pair shipped_settings g_fully_2d andb].
    unfold exact_drift, dot3, vscal, vsub. cbn [c_spos upright_pair v3 INR].
    assert (K0 : scalar (ex_x 1 1 (21 / 10)) 0 0 0 = 1 / (6 * PI * (1 - 100 / 441))).
    { unfold ex_x. rewrite from3_scalar by lia. cbn -[PI]. unfold ex_c. f_equal. f_equal. field. }
    assert (K1 : scalar (ex_x 1 1 (21 / 10)) 0 0 1 = 10 / 21 / (6 * PI * (1 - 100 / 441))).
    { unfold ex_x. rewrite from3_scalar by lia. cbn -[PI]. unfold ex_c. f_equal; [|f_equal]; field. }
    pose proof PI_RGT_0 as HPI. pose proof (Rinv_0_lt_compat PI HPI) as HPI'.
    split; [field|]. split; [field|]. rewrite K0, K1.
    match goal with |- ?u < _ => replace u with (- (21 / 11) * / (6 * PI)) by (field; lra) end.
    assert (0 < / (6 * PI)) by (apply Rinv_0_lt_compat; lra). lra.
Qed.
