(** C85: the scripts in examples/ show the drag coefficients, paths, speeds and
    concentrations of the runs they are for. *)
From Coq Require Import Reals List Arith ZArith Bool Lia Lra FunctionalExtensionality.
From Verif Require Import Base Py Model_Mob Model_Minf Model_Grand Model_Close Model_R2B Model_MinfP Model_GrandP Model_Step
  Model_Output Model_Frame Model_Inputs Model_Sim Model_Setups Model_Video Spec_Pack Spec_Convert Spec_Output Spec_Step Spec_Frame Spec_Posdef
  Spec_Run Spec_Run4 Spec_Close Spec_Turn Spec_Turn4 Model_Examples Spec_Examples Proof_Frame Proof_Posdef Proof_Posdef2 Proof_Examples Proof_Turn5 Spec_Sim Proof_Run Proof_Run2 Proof_Sim2 Spec_Runs Proof_Runs2 Proof_Runs3 Prop_Runs Prop_Posdef Spec_Wide Prop_Wide Prop_R2B Prop_Run Prop_Run4 Prop_Turn Prop_Turn4.
Import ListNotations.
Local Open Scope R_scope.

(** The first frame of a run under gravity that saved every frame, outside a
    box: the script finds the drag coefficients of the solution of the
    equations for the initial configuration. *)
Theorem C85_coefficients :
  forall inv3 sc table h stale Ns bb minf_only cutoff_factor g dt p0 s fs,
    let input := fun p t => input_ftsuoe 1 fte Ns 0 p t dt in
    no_box_g g -> g_save_pos g = 1%nat -> g_save_forces g = 1%nat -> g_save_after g = 0%nat -> (0 < g_num_frames g)%nat ->
    correct_output inv3 sc table h stale Ns 0 fte bb minf_only cutoff_factor g input p0 s fs ->
    exists o dc,
      solved inv3 sc table h stale Ns 0 fte bb minf_only cutoff_factor g input (fun _ => p0) 0 default_flow o /\
      drag_coefficients Ns s fs = Ok dc /\ length dc = Ns /\
      forall j, (j < Ns)%nat ->
        rowof (Model_Output.o_Fa o) j 2%nat = - (1) /\
        (g_dt g = 1 -> c_ssizes p0 j = 1 ->
         nth j dc 0 = drag_coefficient (rowof (Model_Output.o_Fa o) j 2%nat) 1 (c_ssizes p0 j) (rowof (Model_Output.o_Ua o) j 2%nat)) /\
        nth j dc 0 = - (1) / (6 * PI * (g_dt g * rowof (Model_Output.o_Ua o) j 2%nat)).
Proof.
  intros inv3 sc table h stale Ns bb minf_only cf g dt p0 s fs input HB S1 S2 S3 HN HC.
  destruct (first_frame inv3 sc table h stale Ns bb minf_only cf g input p0 s fs
    (with_Fa (default_inputs fte Ns 0) (repeat (Some [0; 0; - (1)]) Ns)) default_flow HC eq_refl eq_refl eq_refl S1 S3 HN)
    as (pos & o & V & W & SO & (r1 & Es) & Ef' & FZ & EZ & MO).
  destruct (Ef' S2) as (r2 & Ef).
  pose proof (first_move inv3 Ns g p0 default_flow o V W (pos 1%nat) ltac:(intros [|[|[|]]]; reflexivity) ltac:(intros [|[|[|]]]; reflexivity) EZ MO) as X.
  exists o, (map (fun j => n_Fa (forces_of o) j 2%nat / (6 * PI * 1 * ((n_pos (snap Ns (pos 1%nat)) j 2%nat - n_pos (snap Ns p0) j 2%nat) / 1))) (seq 0 Ns)).
  split; [exact SO|]. split; [rewrite Es, Ef; reflexivity|]. split; [rewrite map_length, seq_length; reflexivity|].
  intros j Hj. destruct (FZ j Hj) as (_ & _ & FZ'). split; [exact FZ'|].
  assert (K : nth j (map (fun j => n_Fa (forces_of o) j 2%nat / (6 * PI * 1 * ((n_pos (snap Ns (pos 1%nat)) j 2%nat - n_pos (snap Ns p0) j 2%nat) / 1))) (seq 0 Ns)) 0
    = - (1) / (6 * PI * (g_dt g * rowof (Model_Output.o_Ua o) j 2%nat))).
  { set (F := fun j => _). rewrite (nth_indep _ 0 (F 0%nat)) by (rewrite map_length, seq_length; exact Hj). rewrite map_nth, seq_nth by exact Hj.
    cbn [Nat.add]. unfold F. cbn [forces_of n_Fa snap n_pos]. unfold append_rows. destruct (Nat.ltb_spec j Ns); [|lia]. rewrite FZ'.
    destruct (X j Hj) as (x & X1 & X2). specialize (X1 2%nat ltac:(lia)). rewrite (X2 2%nat ltac:(lia)) in X1.
    replace (periodic g) with false in X1.
    2:{ unfold periodic. symmetry. apply negb_false_iff. unfold is_zero3, vsub. rewrite !HB by lia. rewrite !Rminus_eq_0. unfold Reqb. destruct (Req_EM_T 0 0); [reflexivity|lra]. }
    rewrite X1. replace (g_fully_2d g && Nat.eqb 2 1)%bool with false by (destruct (g_fully_2d g); reflexivity). f_equal. field. }
  split; [|exact K]. intros Hd Ha. rewrite K, Hd, Ha, FZ'. unfold drag_coefficient. f_equal. ring.
Qed.
Print Assumptions C85_coefficients.

(** What is plotted: the coefficients from the middle of the chain to its end. *)
Theorem C85_plot :
  forall s fs dc, drag_coefficients 15 s fs = Ok dc -> length dc = 15%nat ->
    exists curve, example_a 15 s fs = Ok curve /\ length curve = 8%nat /\
      forall k, (k < 8)%nat -> nth_error curve k = Some (INR k, nth (7 + k) dc 0).
Proof.
  intros s fs dc E L. unfold example_a. rewrite E. cbn [bind]. 
  do 15 (destruct dc as [|? dc]; [discriminate L|]). destruct dc; [|discriminate L].
  eexists. split; [reflexivity|]. split; [reflexivity|]. intros k Hk. do 8 (destruct k as [|k]; [reflexivity|]). lia.
Qed.
Print Assumptions C85_plot.

(** Finding: the docstring mentions chains of 5, 9 and 15 spheres; with any
    number but 15 the script stops with ValueError. *)
Theorem C85_chains_refuted :
  forall Ns s fs dc, drag_coefficients Ns s fs = Ok dc -> length dc = Ns -> Ns <> 15%nat -> example_a Ns s fs = Raise ValueError.
Proof.
  intros Ns s fs dc E L N. unfold example_a. rewrite E. cbn [bind]. unfold plot_xy. rewrite map_length, seq_length, skipn_length, L.
  destruct (Nat.eqb_spec ((Ns + 1) / 2) (Ns - ((Ns + 1) / 2 - 1))) as [H|H]; [|reflexivity]. cbn [bind].
  destruct (Nat.eqb_spec ((Ns + 1) / 2) (length durlofsky_data)) as [H'|H']; [|reflexivity]. exfalso. cbn [durlofsky_data length] in H'.
  rewrite H' in H. lia.
Qed.
Print Assumptions C85_chains_refuted.

(** Stokes' law: the coefficient of a lone sphere is its radius over the
    timestep, 1 for the unit sphere and timestep of the script. *)
Theorem C85_stokes :
  forall inv3 sc table h stale bb cutoff_factor minf_only g dt p0 s fs,
    let input := fun p t => input_ftsuoe 1 fte 1 0 p t dt in
    g_use_drag g = false -> 0 < cutoff_factor -> 0 < c_ssizes p0 0%nat -> 0 < g_dt g ->
    no_box_g g -> g_save_pos g = 1%nat -> g_save_forces g = 1%nat -> g_save_after g = 0%nat -> (0 < g_num_frames g)%nat ->
    correct_output inv3 sc table h stale 1 0 fte bb minf_only cutoff_factor g input p0 s fs ->
    drag_coefficients 1 s fs = Ok [c_ssizes p0 0%nat / g_dt g].
Proof.
  intros inv3 sc table h stale bb cf minf_only g dt p0 s fs input HD Hcf Ha Hdt HB S1 S2 S3 HN HC.
  destruct (C85_coefficients inv3 sc table h stale 1 bb minf_only cf g dt p0 s fs HB S1 S2 S3 HN HC) as (o & dc & (i & L & N & Ei & HL & HF & HA) & E & Ln & X).
  rewrite E. destruct dc as [|d [|]]; try discriminate Ln. f_equal. f_equal.
  destruct (X 0%nat ltac:(lia)) as (FZ & _ & K). cbn [nth] in K. rewrite K. clear K X E.
  unfold far_resistance in HL. rewrite HD in HL. destruct HL as (k & i' & f & M & _ & Ei' & [M1 _] & IM). cbn in Ei'. injection Ei' as _ <-.
  assert (UB : unbounded default_flow) by (intros l Hl; reflexivity).
  specialize (M1 UB). subst M.
  assert (N0 : forall a b, (a < 11)%nat -> (b < 11)%nat -> N a b = 0).
  { unfold near_field in HF. destruct minf_only; [subst N; reflexivity|]. destruct HF as [HF _]. specialize (HF UB).
    intros a b Hh Hb. refine (C15_separated_particles_zero sc table bb (posdata_of 1 0 p0) cf 1 N a b Hcf _ HF _ Hh Hb).
    - intros b' Hb'. assert (b' = 0%nat) by (cbn in Hb'; lia). subst b'. exact Ha.
    - intros b1 b2 H1 H2 Hne. cbn in H1, H2. lia. }
  pose proof (lone_speed 1 0 fte i bb (posdata_of 1 0 p0) 1 L o eq_refl eq_refl eq_refl eq_refl Rlt_0_1 Ha IM N N0 HA) as U.
  rewrite U, FZ. cbn [posdata_of sphere_sizes]. pose proof PI_RGT_0. field. repeat split; lra.
Qed.
Print Assumptions C85_stokes.

(** Finding: with the drag matrix option (use_drag_Minfinity) the coefficients
    are too small by the factor 6 pi (see C12). *)
Theorem C85_drag_refuted :
  forall inv3 sc table h stale Ns bb cutoff_factor g dt p0 s fs dc,
    let input := fun p t => input_ftsuoe 1 fte Ns 0 p t dt in
    g_use_drag g = true -> (forall j, (j < Ns)%nat -> 0 < c_ssizes p0 j) -> 0 < g_dt g ->
    no_box_g g -> g_save_pos g = 1%nat -> g_save_forces g = 1%nat -> g_save_after g = 0%nat -> (0 < g_num_frames g)%nat ->
    correct_output inv3 sc table h stale Ns 0 fte bb true cutoff_factor g input p0 s fs ->
    drag_coefficients Ns s fs = Ok dc ->
    length dc = Ns /\ forall j, (j < Ns)%nat -> nth j dc 0 = c_ssizes p0 j / g_dt g / (6 * PI).
Proof.
  intros inv3 sc table h stale Ns bb cf g dt p0 s fs dc input HD Ha Hdt HB S1 S2 S3 HN HC Edc.
  destruct (C85_coefficients inv3 sc table h stale Ns bb true cf g dt p0 s fs HB S1 S2 S3 HN HC) as (o & dc' & (i & L & N & Ei & HL & HF & HA) & E & Ln & X).
  rewrite E in Edc. injection Edc as <-. split; [exact Ln|]. intros j Hj. destruct (X j Hj) as (FZ & _ & ->).
  unfold far_resistance in HL. rewrite HD in HL. destruct HL as (i' & f & Ei' & _ & ->). cbn in Ei'. injection Ei' as _ <-.
  unfold near_field in HF. subst N.
  pose proof (drag_force Ns fte i (posdata_of Ns 0 p0) (f_mu default_flow) o j eq_refl eq_refl Hj HA) as U. rewrite FZ in U.
  cbn [posdata_of sphere_sizes f_mu default_flow] in U. specialize (Ha j Hj). pose proof PI_RGT_0.
  assert (Hu : rowof (Model_Output.o_Ua o) j 2%nat = - (1) / c_ssizes p0 j).
  { apply (Rmult_eq_reg_l (c_ssizes p0 j)); [|lra]. replace (c_ssizes p0 j * (- (1) / c_ssizes p0 j)) with (- (1)) by (field; lra). lra. }
  rewrite Hu. field. repeat split; lra.
Qed.
Print Assumptions C85_drag_refuted.

(** Example (b): curve j passes through the x and z coordinates of particle j in
    the saved rows, in order; *)
Theorem C85_paths :
  forall Ns s j k row, (j < Ns)%nat -> nth_error s k = Some row ->
    length (example_b Ns s) = Ns /\ length (nth j (example_b Ns s) []) = length s /\
    nth_error (nth j (example_b Ns s) []) k = Some (n_pos row j 0%nat, n_pos row j 2%nat).
Proof.
  intros Ns s j k row Hj Hk.
  assert (K : nth j (example_b Ns s) [] = map (fun r => (n_pos r j 0%nat, n_pos r j 2%nat)) s).
  { unfold example_b. set (F := fun j => _). rewrite (nth_indep _ [] (F 0%nat)) by (rewrite map_length, seq_length; exact Hj).
    rewrite map_nth, seq_nth by exact Hj. reflexivity. }
  split; [unfold example_b; rewrite map_length, seq_length; reflexivity|]. rewrite K. split; [apply map_length|].
  rewrite nth_error_map, Hk. reflexivity.
Qed.
Print Assumptions C85_paths.

(** and nothing is lost: in the run of the example (setup 2, three spheres in a
    row, under gravity, Runge-Kutta) the third coordinate is always zero. *)
Definition three_spheres : config := config_of (spheres_only [1; 1; 1] [v3 (- (5)) 0 0; v3 0 0 0; v3 7 0 0]).
Theorem C85_paths_flat :
  forall inv inv3 solve sc table h stale bb minf_only cutoff_factor g dt s fs,
    let input := fun p t => input_ftsuoe 1 fte 3 0 p t dt in
    inverts_posdef inv -> solves_posdef solve -> inverts inv3 -> 0 < cutoff_factor ->
    no_box_g g -> g_fully_2d g = false -> g_start g = 0%nat ->
    (0 < g_save_pos g)%nat -> (0 < g_save_forces g)%nat ->
    (g_save_after g mod g_save_pos g = 0)%nat -> (g_save_after g mod g_save_forces g = 0)%nat ->
    g_scheme g <> other_scheme ->
    match g_scheme g with
    | rk4 => posed_run4 inv inv3 solve sc table h stale 3 0 fte bb minf_only cutoff_factor g input three_spheres
    | _ => posed_run inv inv3 solve sc table h stale 3 0 fte bb minf_only cutoff_factor g input three_spheres
    end ->
    full_simulation inv inv3 solve sc table h stale 3 0 fte false bb minf_only cutoff_factor g input three_spheres = Ok (Some (s, fs)) ->
    forall j k row x z, (j < 3)%nat -> nth_error s k = Some row ->
      nth_error (nth j (example_b 3 s) []) k = Some (x, z) ->
      forall l, (l < 3)%nat -> n_pos row j l = v3 x 0 z l.
Proof.
  intros inv inv3 solve sc table h stale bb minf_only cf g dt s fs input Hi Hs H3 Hcf Hb H2 H0 S1 S2 S3 S4 HX HP E j k row x z Hj Hk Hb' l Hl.
  assert (FC : flat_config 3 0 three_spheres).
  { split; [|intros d Hd; lia]. intros a Ha. split; [idx3 Ha; reflexivity|]. intros b Hb1. assert (b = 0 \/ b = 1)%nat as [-> | ->] by lia; idx3 Ha;
      unfold three_spheres, config_of, add_sphere_rotations, axes_xz; cbn [c_srot nth spheres_only u_sp u_ss]; unfold v3; ring. }
  assert (OC : oriented 3 three_spheres).
  { intros a b Ha Hb1. assert (b = 0 \/ b = 1)%nat as [-> | ->] by lia; [exists 0%nat|exists 2%nat]; (split; [lia|]); idx3 Ha;
      unfold three_spheres, config_of, add_sphere_rotations, axes_xz; cbn [c_srot c_spos nth spheres_only u_sp u_ss]; unfold v3; lra. }
  assert (IT : input_turned mirror_y 3 0 input input) by (apply shipped_flat; left; reflexivity).
  assert (FL : Forall (flat_snapshot 3 0) s).
  { destruct (g_scheme g) eqn:Sch.
    - refine (proj1 (C82_flat inv inv3 solve sc table h stale 3 0 fte bb minf_only cf g input three_spheres s fs Hi Hs H3 ltac:(lia) Hcf Hb H2 H0 _ S1 S2 S3 S4 IT FC OC HP E)). auto.
    - refine (proj1 (C82_flat inv inv3 solve sc table h stale 3 0 fte bb minf_only cf g input three_spheres s fs Hi Hs H3 ltac:(lia) Hcf Hb H2 H0 _ S1 S2 S3 S4 IT FC OC HP E)). auto.
    - exact (proj1 (C82_rk4 inv inv3 solve sc table h stale 3 0 fte bb minf_only cf g input three_spheres s fs Hi Hs H3 ltac:(lia) Hcf Hb H2 H0 Sch S1 S2 S3 S4 IT FC OC HP E)).
    - exfalso. apply HX. reflexivity. }
  destruct (C85_paths 3 s j k row Hj Hk) as (_ & _ & P). rewrite P in Hb'. injection Hb' as <- <-.
  rewrite Forall_forall in FL. specialize (FL row (nth_error_In _ _ Hk)). destruct FL as [FL _].
  idx3 Hl; [reflexivity| |reflexivity]. apply FL. lia.
Qed.
Print Assumptions C85_paths_flat.

(** Example (c): the point drawn.  The concentration is that of the periodic
    array; the speed is the one of the solution of the equations in units of
    Stokes' velocity, provided that no sphere was put back into the box. *)
Lemma cubic_shipped fm Ns Nd p t dt : cubic_input 8 fm Ns Nd = input_ftsuoe 2 fm Ns Nd p t dt.
Proof. reflexivity. Qed.
Lemma cubic_setup_shipped rand fuel file : exists u, pos_setup rand fuel file 3 = Some (Ok u) /\ config_of u = cubic_setup 8.
Proof. eexists. split; reflexivity. Qed.

Theorem C85_sedimentation_step :
  forall inv3 g L f (o : outputs) V W p1 rest,
    let p0 := cubic_setup L in
    let bl := v3 (- L / 2) (- L / 2) (- L / 2) in let tr := v3 (L / 2) (L / 2) (L / 2) in
    let U := rowof (Model_Output.o_Ua o) 0 in
    inverts inv3 -> 0 < L -> g_box_bl g = bl -> g_box_tr g = tr ->
    (exists i, cubic_input L fte 8 0 = Ok (i, f)) -> matof (Model_Output.o_Ea o) 0 = mzero ->
    moved_on inv3 8 0 g 0 f o V W p0 p1 ->
    exists phi speed,
      example_c 8 (snap 8 p0 :: snap 8 p1 :: rest) = Ok (phi, speed) /\
      phi = volume_fraction 8 (c_ssizes p0) (vsub tr bl) /\
      (exists m : Z, speed = - (g_dt g * U 2%nat + IZR m * L) / (1 / (6 * PI))) /\
      ((forall l, (l < 3)%nat -> Rabs (g_dt g * U l) < L / 4) -> speed = - (g_dt g * U 2%nat) / (1 / (6 * PI))).
Proof.
  intros inv3 g L f o V W p1 rest p0 bl tr U Hi HL Hbl Htr [i Hf] HE MO.
  pose proof PI_RGT_0 as HP.
  assert (Ef : f = mkFlow (v3 0 0 0) (v3 0 0 0) (v3 0 0 0) (v3 0 0 0) mzero bl tr 1) by (unfold cubic_input, simple_cubic_8 in Hf; injection Hf as _ <-; reflexivity).
  assert (X : exists x, landed inv3 g f x (c_spos p1 0%nat) /\ forall l, (l < 3)%nat -> x l = c_spos p0 0%nat l + g_dt g * (if (g_fully_2d g && Nat.eqb l 1)%bool then 0 else U l)).
  { destruct MO as (_ & _ & MO & _). destruct (MO 0%nat ltac:(lia)) as (x & X1 & X2' & _). exists x. split; [exact X1|].
    intros l Hl. rewrite (X2' l Hl). replace (match g_scheme g with euler => true | _ => Nat.eqb 0 0 end) with true by (destruct (g_scheme g); reflexivity).
    unfold sphere_speed. destruct (g_fully_2d g && Nat.eqb l 1)%bool; [reflexivity|]. rewrite HE, Ef. fold U. f_equal. f_equal.
    unfold linear_flow, mvec, mzero, cross. cbn [f_U f_O f_centre rsum]. idx3 Hl; unfold v3; ring. }
  destruct X as (x & X1 & X2).
  assert (PG : periodic g = true).
  { unfold periodic. rewrite Hbl, Htr. apply negb_true_iff. unfold is_zero3, vsub, bl, tr, v3, Reqb.
    destruct (Req_EM_T (- L / 2 - L / 2) 0); [lra|reflexivity]. }
  assert (Y : forall l, (l < 3)%nat -> c_spos p1 0%nat l = wrap_around inv3 x bl tr (f_Ot f) (f_Et f) l).
  { intros l Hl. rewrite (X1 l Hl), PG, Hbl, Htr. reflexivity. }
  assert (Z1 : forall l, f_Ot f l = 0) by (rewrite Ef; intros [|[|[|]]]; reflexivity).
  assert (Z2 : forall k l, f_Et f k l = 0) by (rewrite Ef; intros k l; reflexivity).
  destruct (cube_wrap inv3 L (f_Ot f) (f_Et f) x Hi ltac:(lra) Z1 Z2) as [[m W1] W2]. fold bl tr in W1, W2.
  exists (8 * 4 / 3 * PI / (2 * (n_pos (snap 8 p0) 1%nat 2%nat - n_pos (snap 8 p0) 0%nat 2%nat)) ^ 3),
    (- ((n_pos (snap 8 p1) 0%nat 2%nat - n_pos (snap 8 p0) 0%nat 2%nat) / 1) * 6 * PI).
  assert (SP : forall d, c_spos p1 0%nat 2%nat = c_spos p0 0%nat 2%nat + d ->
    - ((n_pos (snap 8 p1) 0%nat 2%nat - n_pos (snap 8 p0) 0%nat 2%nat) / 1) * 6 * PI = - d / (1 / (6 * PI))).
  { intros d Hd. cbn [snap n_pos append_rows Nat.ltb Nat.leb]. rewrite Hd. field. lra. }
  assert (X2z : x 2%nat = c_spos p0 0%nat 2%nat + g_dt g * U 2%nat).
  { rewrite (X2 2%nat ltac:(lia)). replace (g_fully_2d g && Nat.eqb 2 1)%bool with false by (destruct (g_fully_2d g); reflexivity). reflexivity. }
  split; [reflexivity|]. split; [|split].
  - unfold volume_fraction, vsub, bl, tr, v3. cbn. field. lra.
  - exists (m 2%nat). apply SP. rewrite (Y 2%nat ltac:(lia)), (W1 2%nat ltac:(lia)), X2z. ring.
  - intros Hm. apply SP. rewrite (Y 2%nat ltac:(lia)). rewrite W2; [exact X2z|exact HL| |lia].
    intros l Hl. rewrite (X2 l Hl). specialize (Hm l Hl). apply Rabs_def2 in Hm.
    assert (C : c_spos p0 0%nat l = - L / 4) by (idx3 Hl; reflexivity). rewrite C.
    destruct (g_fully_2d g && Nat.eqb l 1)%bool; lra.
Qed.
Print Assumptions C85_sedimentation_step.

(** For completed runs: the velocities solve the equations in the box. *)
Theorem C85_sedimentation :
  forall inv3 sc table h stale bb minf_only cutoff_factor g L s fs,
    let input := fun (_ : config) (_ : R) => cubic_input L fte 8 0 in
    let p0 := cubic_setup L in
    let bl := v3 (- L / 2) (- L / 2) (- L / 2) in let tr := v3 (L / 2) (L / 2) (L / 2) in
    inverts inv3 -> 0 < L -> g_box_bl g = bl -> g_box_tr g = tr ->
    g_save_pos g = 1%nat -> g_save_after g = 0%nat -> (0 < g_num_frames g)%nat ->
    correct_output inv3 sc table h stale 8 0 fte bb minf_only cutoff_factor g input p0 s fs ->
    exists f o phi speed,
      solved inv3 sc table h stale 8 0 fte bb minf_only cutoff_factor g input (fun _ => p0) 0 f o /\
      f_bl f = bl /\ f_tr f = tr /\
      (forall j, (j < 8)%nat -> rowof (Model_Output.o_Fa o) j 2%nat = - (1)) /\
      example_c 8 s = Ok (phi, speed) /\
      phi = volume_fraction 8 (c_ssizes p0) (vsub tr bl) /\
      let U := rowof (Model_Output.o_Ua o) 0 in
      (exists m : Z, speed = - (g_dt g * U 2%nat + IZR m * L) / (1 / (6 * PI))) /\
      ((forall l, (l < 3)%nat -> Rabs (g_dt g * U l) < L / 4) -> speed = - (g_dt g * U 2%nat) / (1 / (6 * PI))).
Proof.
  intros inv3 sc table h stale bb minf_only cf g L s fs input p0 bl tr Hi HL Hbl Htr S1 S3 HN HC.
  set (f := mkFlow (v3 0 0 0) (v3 0 0 0) (v3 0 0 0) (v3 0 0 0) mzero bl tr 1).
  destruct (first_frame inv3 sc table h stale 8 bb minf_only cf g input p0 s fs
    (with_Fa (default_inputs fte 8 0) (repeat (Some [0; 0; - (1)]) 8)) f HC eq_refl eq_refl eq_refl S1 S3 HN)
    as (pos & o & V & W & SO & (r1 & Es) & _ & FZ & EZ & MO).
  destruct (C85_sedimentation_step inv3 g L f o V W (pos 1%nat) r1 Hi HL Hbl Htr) as (phi & speed & E1 & E2 & E3 & E4).
  - eexists. reflexivity.
  - apply EZ. lia.
  - exact MO.
  - exists f, o, phi, speed. split; [exact SO|]. split; [reflexivity|]. split; [reflexivity|]. split; [intros j Hj; apply (FZ j Hj)|].
    split; [rewrite Es; exact E1|]. split; [exact E2|]. split; [exact E3|exact E4].
Qed.
Print Assumptions C85_sedimentation.

(** Instance: spheres that fall at the fifth part of Stokes' velocity in the box of
    side 8. *)
Example C85_fall inv3 : inverts inv3 ->
  let o := mkOutputs [] [] [] [] [] (repeat [0; 0; - (1 / (30 * PI))] 8) [] (repeat zeros33 8) [] [] in
  let g := mkSettings euler 1 1 0 1 false false false false (v3 (- (8) / 2) (- (8) / 2) (- (8) / 2)) (v3 (8 / 2) (8 / 2) (8 / 2)) 1 1 0 false 1 in
  let f := mkFlow (v3 0 0 0) (v3 0 0 0) (v3 0 0 0) (v3 0 0 0) mzero (v3 (- (8) / 2) (- (8) / 2) (- (8) / 2)) (v3 (8 / 2) (8 / 2) (8 / 2)) 1 in
  exists p1, moved_on inv3 8 0 g 0 f o (fun _ _ => 0) (fun _ _ => 0) (cubic_setup 8) p1 /\
    example_c 8 [snap 8 (cubic_setup 8); snap 8 p1] = Ok (PI / 48, 1 / 5).
Proof.
  intros Hi o g f. set (p0 := cubic_setup 8).
  set (x := fun j l => c_spos p0 j l + g_dt g * sphere_speed g f o p0 j l).
  set (p1 := mkConfig (c_ssizes p0) (fun j => wrap_around inv3 (x j) (g_box_bl g) (g_box_tr g) (f_Ot f) (f_Et f))
    (fun j k l => x j l + rodrigues (sphere_spin f o j) (norm (sphere_spin f o j) * g_dt g) (vsub (c_srot p0 j k) (c_spos p0 j)) l)
    (c_dsizes p0) (c_dpos p0) (c_ddx p0)).
  assert (PG : periodic g = true).
  { unfold periodic. apply negb_true_iff. unfold is_zero3, vsub, g, v3, Reqb. cbn [g_box_bl g_box_tr]. destruct (Req_EM_T (- (8) / 2 - 8 / 2) 0); [lra|reflexivity]. }
  assert (MO : moved_on inv3 8 0 g 0 f o (fun _ _ => 0) (fun _ _ => 0) p0 p1).
  { split; [reflexivity|]. split; [reflexivity|]. split; [|intros j Hj; lia].
    intros j Hj. exists (x j). split; [intros l Hl; rewrite PG; reflexivity|]. split; [intros l Hl; reflexivity|].
    intros k _ _ l Hl. change (vsub (c_srot p1 j k) (x j) l = rodrigues (sphere_spin f o j) (norm (sphere_spin f o j) * g_dt g) (vsub (c_srot p0 j k) (c_spos p0 j)) l).
    unfold vsub at 1. cbn [c_srot p1]. ring. }
  exists p1. split; [exact MO|]. pose proof PI_RGT_0 as HP. pose proof PI_4 as HP4.
  assert (EZ : matof (Model_Output.o_Ea o) 0 = mzero).
  { apply functional_extensionality. intros [|[|[|[|]]]]; apply functional_extensionality; intros [|[|[|[|]]]]; reflexivity. }
  destruct (C85_sedimentation_step inv3 g 8 f o _ _ p1 [] Hi ltac:(lra) eq_refl eq_refl ltac:(eexists; reflexivity)
    EZ MO) as (phi & speed & E1 & E2 & _ & E4).
  fold p0 in E1. rewrite E1. f_equal. f_equal.
  - rewrite E2. unfold volume_fraction, vsub, v3. cbn. field.
  - rewrite E4.
    + cbn. field. lra.
    + assert (P3 : 0 < 1 / (30 * PI) < 1).
      { assert (1 < PI) by (pose proof PI2_1; lra). split; [apply Rdiv_lt_0_compat; lra|]. apply (Rmult_lt_reg_r (30 * PI)); [lra|]. unfold Rdiv. rewrite Rmult_assoc, Rinv_l; lra. }
      intros l Hl. apply Rabs_def1; idx3 Hl; cbn; lra.
Qed.

(** Instances.  Fifteen unit spheres falling with the drag matrix: the script
    runs to its end. *)
Example C85_example sc :
  let p0 := config_of (spheres_only (repeat 1 15) (map (fun i => v3 (4 * INR i) 0 0) (seq 0 15))) in
  exists s fs curve,
    full_simulation pinv (fun m => m) psolve sc [] 0 (fun _ _ => 0) 15 0 fte false true true 2 (drag_settings 1 1)
      (fun p t => input_ftsuoe 1 fte 15 0 p t 1) p0 = Ok (Some (s, fs)) /\
    example_a 15 s fs = Ok curve /\ length curve = 8%nat /\
    forall k, (k < 8)%nat -> nth_error curve k = Some (INR k, 1 / (6 * PI)).
Proof.
  intros p0.
  assert (HP : forall i, (i < 15)%nat -> c_ssizes p0 i = 1).
  { intros i Hi. do 15 (destruct i as [|i]; [reflexivity|]). lia. }
  destruct (C65_example sc 15 p0 1 1 ltac:(lia) ltac:(lia)) as (s & fs & E & C & _).
  { intros i Hi. rewrite HP by exact Hi. lra. }
  assert (NB : no_box_g (drag_settings 1 1)) by (intros l Hl; reflexivity).
  destruct (C85_coefficients (fun m => m) sc [] 0 (fun _ _ => 0) 15 true true 2 (drag_settings 1 1) 1 p0 s fs NB eq_refl eq_refl eq_refl ltac:(cbn; lia) C)
    as (o & dc & _ & Edc & Ln & _).
  destruct (C85_drag_refuted (fun m => m) sc [] 0 (fun _ _ => 0) 15 true 2 (drag_settings 1 1) 1 p0 s fs dc eq_refl
    ltac:(intros j Hj; rewrite HP by exact Hj; lra) ltac:(cbn; lra) NB eq_refl eq_refl eq_refl ltac:(cbn; lia) C Edc) as [_ V].
  destruct (C85_plot s fs dc Edc Ln) as (curve & Ec & Lc & Q).
  exists s, fs, curve. split; [exact E|]. split; [exact Ec|]. split; [exact Lc|].
  intros k Hk. rewrite (Q k Hk), V, HP by lia. cbn [g_dt drag_settings]. f_equal. f_equal. pose proof PI_RGT_0. field. lra.
Qed.

(** The box of side 8 as shipped holds unit spheres at volume fraction pi/48. *)
Example C85_shipped_fraction : volume_fraction 8 (c_ssizes (cubic_setup 8)) (v3 8 8 8) = PI / 48.
Proof. unfold volume_fraction, v3. cbn. field. Qed.

(** A lone sphere of any radius, with the mobility matrix and the near field,
    for any timestep and number of frames. *)
Example C85_stokes_example inv3 sc a dt N p0 : 0 < a -> 0 < dt -> (0 < N)%nat -> c_ssizes p0 0%nat = a ->
  let g := mkSettings euler dt N 0 1 false false false false (v3 0 0 0) (v3 0 0 0) 1 1 0 false 1 in
  exists s fs, full_simulation pinv inv3 psolve sc [1] 0 (fun _ _ => 0) 1 0 fte false true false 2 g
      (fun p t => input_ftsuoe 1 fte 1 0 p t dt) p0 = Ok (Some (s, fs)) /\
    drag_coefficients 1 s fs = Ok [a / dt].
Proof.
  intros Ha Hdt HN Hp g. set (input := fun p t => input_ftsuoe 1 fte 1 0 p t dt).
  assert (W : forall p t, exists i, input p t = Ok (i, default_flow) /\ complete fte 1 0 i).
  { intros p t. destruct (given_inputs 1 fte 1 0 p t dt ltac:(lia)) as (i & f & E & C & _).
    - left. discriminate.
    - exists i. split; [|exact C]. unfold input. rewrite E. unfold input_ftsuoe in E. cbn [Z.ltb Z.compare] in E. injection E as _ <-. reflexivity. }
  assert (SH : solves_shape psolve) by (intros n A b _; unfold psolve; rewrite map_length, seq_length; reflexivity).
  assert (US : usable g 0) by (repeat split; cbn; auto; lia).
  destruct (C62_complete pinv inv3 psolve sc [1] 0 (fun _ _ => 0) 1 0 fte false true false 2 g input p0 [a] SH) as (s & fs & E & _).
  { intros i Hi. assert (i = 0%nat) by lia. subst i. left. symmetry. exact Hp. }
  { intros i Hi. lia. }
  { right. intros x y Hx Hy. destruct Hx as [Hx|[]]. destruct Hy as [Hy|[]]. subst x y. exists 1. split; [left; reflexivity|].
    replace (a / a) with 1 by (field; lra). rewrite Rminus_eq_0, Rabs_R0, Rabs_R1. lra. }
  { discriminate. }
  { intros p t _ _. destruct (W p t) as (i & Ei & C). exists i, default_flow. split; [exact Ei|]. split; [exact C|]. left. exact free_default. }
  { exact US. }
  exists s, fs. split; [exact E|]. rewrite <- Hp. change dt with (g_dt g).
  apply (C85_stokes inv3 sc [1] 0 (fun _ _ => 0) true 2 false g dt p0 s fs); try reflexivity; try (cbn; lra); try (cbn; lia).
  { intros l Hl. reflexivity. }
  assert (Hq : forall m st, (m < g_num_frames g)%nat -> run_frames inv3 1 0 (far_inverse pinv 0 (fun _ _ => 0) 1 0 true g input)
    (solve_rest pinv inv3 psolve sc [1] 0 (fun _ _ => 0) 1 0 fte false true false 2 g input) g (fresh p0) (seq 0 m) = Ok st -> s_error st = false).
  { intros m st _ Hst. refine (no_flag _ _ _ _ _ g (fresh p0) _ eq_refl _ _ Hst). left. reflexivity. }
  assert (SZ : forall m p, (m < g_num_frames g)%nat -> (exists st, run_frames inv3 1 0 (far_inverse pinv 0 (fun _ _ => 0) 1 0 true g input)
    (solve_rest pinv inv3 psolve sc [1] 0 (fun _ _ => 0) 1 0 fte false true false 2 g input) g (fresh p0) (seq 0 m) = Ok st /\ s_pos st = p) -> c_ssizes p 0%nat = a).
  { intros m p Hm (st & Es & <-).
    destruct (sizes_kept pinv inv3 psolve sc [1] 0 (fun _ _ => 0) 1 0 fte false true false 2 g input p0 ltac:(lia) eq_refl (or_introl eq_refl) Hq m st ltac:(lia) Es) as [Z1 _].
    rewrite Z1. exact Hp. }
  assert (PD : forall p, c_ssizes p 0%nat = a -> pos_def 11 (generate_Minfinity true (posdata_of 1 0 p) 1)).
  { intros p Hz.
    assert (SP : forall d, spaced 1 (bead_positions (posdata_of 1 0 p)) d) by (intros d i j Hi Hj Hne; lia).
    refine (proj1 (proj2 (C68_far_field true (posdata_of 1 0 p) 1 a 1 _ Ha _ (SP _) (SP _)))); [lra|].
    cbn [posdata_of num_spheres num_dumbbells]. intros b Hb. assert (b = 0%nat) by lia. subst b.
    change (bead_sizes (posdata_of 1 0 p) 0%nat) with (c_ssizes p 0%nat). rewrite Hz. lra. }
  assert (UB : unbounded default_flow) by (intros l Hl; reflexivity).
  apply (C65_run pinv inv3 psolve sc [1] 0 (fun _ _ => 0) 1 0 fte true false 2 g input p0 s fs pinv_ok psolve_ok ltac:(lia));
    try reflexivity; try (cbn; lia); try exact E; try exact Hq.
  - left. reflexivity.
  - intros m p i f _ _ Ei. destruct (W p (INR m)) as (i' & Ei' & C). rewrite Ei in Ei'. injection Ei' as -> ->.
    unfold complete in C. unfold well_posed. tauto.
  - intros m p i f M Hm _ Hr Ei [M1 _]. destruct (W p (INR m)) as (i' & Ei' & _). rewrite Ei in Ei'. injection Ei' as _ ->.
    rewrite (M1 UB). apply PD, (SZ m); assumption.
  - intros m pos i f L N0 Hm Hr Ei HL HNf. destruct (W (pos m) (INR m)) as (i' & Ei' & _). rewrite Ei in Ei'. injection Ei' as _ ->.
    unfold far_resistance in HL. cbn [g_use_drag g] in HL. destruct HL as (k & ik & fk & M & (K1 & _) & Ek & [M1 _] & IM).
    destruct (W (pos k) (INR k)) as (ik' & Ek' & _). rewrite Ek in Ek'. injection Ek' as _ ->. rewrite (M1 UB) in IM.
    refine (pos_def_ext _ L _ _ (pos_def_inv _ _ _ (PD (pos k) (SZ k _ ltac:(lia) (Hr k ltac:(lia)))) IM)).
    intros x y Hx Hy. destruct HNf as [HNf _]. specialize (HNf UB).
    rewrite (C15_separated_particles_zero sc [1] true (posdata_of 1 0 (pos m)) 2 1 N0 x y); try exact HNf; try exact Hx; try exact Hy; try lra.
    + intros b Hb. cbn in Hb. assert (b = 0%nat) by lia. subst b. change (bead_sizes (posdata_of 1 0 (pos m)) 0%nat) with (c_ssizes (pos m) 0%nat). rewrite (SZ m _ Hm (Hr m (le_n m))). exact Ha.
    + intros b1 b2 H1 H2 Hne. cbn in H1, H2. lia.
Qed.
