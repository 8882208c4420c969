(** Runs with the drag matrix. *)
From Coq Require Import Reals List Arith ZArith Bool Lia Lra.
From Verif Require Import Base Py Model_Pack Model_Mob Model_Layout Model_Minf Model_Grand Model_Close Model_R2B Model_GrandP Model_Step
  Model_Output Model_Frame Model_Inputs Model_Sim
  Spec_Pack Spec_Convert Spec_Output Spec_Layout Spec_Minf Spec_Step Spec_Frame Spec_Posdef Spec_Run Spec_Run4
  Spec_Turn Spec_Turn4 Spec_Push Spec_Tow Spec_Alone Spec_Drag
  Proof_Minf4 Proof_Posdef Proof_Posdef2 Proof_Frame Proof_Run Proof_Run2 Proof_Run4 Proof_Output3 Proof_Runs2 Proof_Turn2 Proof_Turn3 Proof_Push3 Proof_Tow2 Proof_Tow4 Proof_Two4 Proof_Two6 Proof_Work Proof_Once
  Prop_Turn Prop_Run4 Prop_Turn4.
Import ListNotations.
Local Open Scope R_scope.

Lemma drag_bead p mu e i : (e < 2 * num_dumbbells p)%nat -> (i < 3)%nat ->
  drag_Minfinity_inverse p mu (11 * num_spheres p + 3 * e + i)%nat (11 * num_spheres p + 3 * e + i)%nat =
  mu * (2 * dumbbell_sizes p (if Nat.ltb e (num_dumbbells p) then e else e - num_dumbbells p)%nat).
Proof.
  intros He Hi. unfold drag_Minfinity_inverse. rewrite Nat.eqb_refl. f_equal.
  set (Ns := num_spheres p) in *. set (Nd := num_dumbbells p) in *.
  destruct (Nat.ltb_spec (11 * Ns + 3 * e + i) (3 * Ns)); [lia|].
  destruct (Nat.ltb_spec (11 * Ns + 3 * e + i) (6 * Ns)); [lia|].
  destruct (Nat.ltb_spec (11 * Ns + 3 * e + i) (11 * Ns)); [lia|].
  destruct (Nat.ltb_spec (11 * Ns + 3 * e + i) (11 * Ns + 3 * Nd)).
  - destruct (Nat.ltb_spec e Nd); [|lia]. do 2 f_equal. symmetry. apply (Nat.div_unique _ 3 e i); lia.
  - destruct (Nat.ltb_spec e Nd); [lia|]. do 2 f_equal. symmetry. apply (Nat.div_unique _ 3 (e - Nd) i); lia.
Qed.
Lemma drag_row n p mu w u r : (r < n)%nat -> linrel n (drag_Minfinity_inverse p mu) u w -> w r = drag_Minfinity_inverse p mu r r * u r.
Proof.
  intros Hr H. rewrite (H r Hr). rewrite (rsum_ext n _ (fun c => delta r c * (drag_Minfinity_inverse p mu r c * u c))).
  - rewrite (rsum_delta_l n r (fun c => drag_Minfinity_inverse p mu r c * u c) Hr). reflexivity.
  - intros c Hc. unfold delta. destruct (Nat.eqb_spec r c) as [->|Ne]; [ring|]. rewrite (drag_off p mu r c Ne). ring.
Qed.
Lemma strain_kept' n l out j a b : keeps 0 n l out -> length out = n -> (j < n)%nat -> matof out j a b = strain_given l j a b.
Proof.
  intros K L Hj. unfold strain_given, matof. rewrite (K j ltac:(lia)). destruct (nth_error out j) as [r|] eqn:E; [rewrite (nth_error_nth out j [] E); reflexivity|].
  apply nth_error_None in E. lia.
Qed.

Theorem drag_answers Ns Nd p0 q mu i R0 o :
  let n := (11 * Ns + 6 * Nd)%nat in
  0 < mu -> same_radii p0 q -> (forall j, (j < Ns)%nat -> 0 < c_ssizes p0 j) -> (forall j, (j < Nd)%nat -> 0 < c_dsizes p0 j) ->
  (forall r s, (r < n)%nat -> (s < n)%nat -> R0 r s = drag_Minfinity_inverse (posdata_of Ns Nd q) mu r s) ->
  answers Ns Nd fte i R0 o -> (forall j, (j < Ns)%nat -> symmetric_traceless (strain_given (i_Ea i) j)) ->
  let v := drag_velocity Ns Nd p0 mu i in
  (forall j, (j < Ns)%nat ->
    (forall l, (l < 3)%nat -> rowof (oUa o) j l = v j l) /\
    (forall l, (l < 3)%nat -> rowof (oOa o) j l = drag_spin p0 mu i j l) /\
    (forall k l, matof (oEa o) j k l = strain_given (i_Ea i) j k l) /\
    (forall l, rowof (oFa o) j l = load (i_Fa i) j l) /\
    (forall k l, (k < 3)%nat -> (l < 3)%nat -> matof (oSa o) j k l = drag_stresslet p0 mu i j k l)) /\
  (forall j, (j < Nd)%nat ->
    (forall l, (l < 3)%nat -> rowof (oUb o) j l = (v (Ns + j)%nat l + v (Ns + Nd + j)%nat l) / 2) /\
    (forall l, (l < 3)%nat -> rowof (oHDb o) j l = (v (Ns + Nd + j)%nat l - v (Ns + j)%nat l) / 2) /\
    (forall l, rowof (oFb o) j l = load (i_Fb i) j l) /\ (forall l, rowof (oDFb o) j l = load (i_DFb i) j l)).
Proof.
  intros n Hmu [Z1 Z2] Hs1 Hs2 HE HA HS v.
  destruct HA as ((L1 & L2 & L3) & (H1 & H2 & H3 & H4 & H5 & H6 & H7 & H8 & H9 & H10 & H11) & KT & KF & KE & KB' & KD').
  set (u := lvec (grand (oUa o) (oOa o) (oEa o) (oUb o) (oHDb o))) in *.
  set (w := lvec (grand (oFa o) (o_Ta o) (oSa o) (oFb o) (oDFb o))) in *.
  set (D := drag_Minfinity_inverse (posdata_of Ns Nd q) mu) in *.
  assert (GU : forall k b c, kvalid Ns Nd k b -> (c < ksize k)%nat -> u (kstart Ns k b + c)%nat = blk (oUa o) (oOa o) (oEa o) (oUb o) (oHDb o) Ns Nd k b c).
  { intros k b c Hk Hc. apply grand_at; try assumption. apply H10. }
  assert (GF : forall k b c, kvalid Ns Nd k b -> (c < ksize k)%nat -> w (kstart Ns k b + c)%nat = blk (oFa o) (o_Ta o) (oSa o) (oFb o) (oDFb o) Ns Nd k b c).
  { intros k b c Hk Hc. apply grand_at; try assumption. apply H9. }
  assert (LM : linrel n D u w).
  { intros r Hr. rewrite (L3 r Hr). apply rsum_ext. intros c Hc. rewrite HE by assumption. reflexivity. }
  assert (SPH : forall k j c, k <> KB -> (j < Ns)%nat -> (c < ksize k)%nat ->
    blk (oFa o) (o_Ta o) (oSa o) (oFb o) (oDFb o) Ns Nd k j c =
    mu * match k with KU => c_ssizes p0 j | KO => 4 / 3 * c_ssizes p0 j ^ 3 | _ => 10 / 9 * c_ssizes p0 j ^ 3 end * blk (oUa o) (oOa o) (oEa o) (oUb o) (oHDb o) Ns Nd k j c).
  { intros k j c Nk Hj Hc. assert (V : kvalid Ns Nd k j) by (destruct k; cbn; congruence || assumption).
    rewrite <- (GU k j c V Hc), <- (GF k j c V Hc). rewrite (drag_row n (posdata_of Ns Nd q) mu w u (kstart Ns k j + c)%nat); [|destruct k; try congruence; cbn [kstart ksize] in *; unfold n; lia|exact LM].
    pose proof (drag_entry (posdata_of Ns Nd q) mu k j c Hj Nk Hc) as DE. cbn [posdata_of num_spheres sphere_sizes] in DE. fold D in DE. fold D. rewrite DE, Z1. destruct k; try congruence; reflexivity. }
  assert (DUM : forall e c, (e < 2 * Nd)%nat -> (c < 3)%nat ->
    (if Nat.ltb e Nd then rowof (oFb o) e c else rowof (oDFb o) (e - Nd) c) =
    mu * (2 * c_dsizes p0 (if Nat.ltb e Nd then e else e - Nd)%nat) * (if Nat.ltb e Nd then rowof (oUb o) e c else rowof (oHDb o) (e - Nd) c)).
  { intros e c He Hc. assert (V : kvalid Ns Nd KB (Ns + e)) by (cbn; lia).
    pose proof (GU KB (Ns + e)%nat c V Hc) as A. pose proof (GF KB (Ns + e)%nat c V Hc) as B. cbn [kstart blk] in A, B. replace (Ns + e - Ns)%nat with e in * by lia.
    pose proof (drag_row n (posdata_of Ns Nd q) mu w u (11 * Ns + 3 * e + c)%nat ltac:(unfold n; lia) LM) as R. rewrite A, B in R.
    pose proof (drag_bead (posdata_of Ns Nd q) mu e c He Hc) as DE. cbn [posdata_of num_spheres num_dumbbells dumbbell_sizes] in DE. fold D in DE, R. rewrite DE, Z2 in R.
    destruct (Nat.ltb e Nd); exact R. }
  assert (KEv : forall j k l, (j < Ns)%nat -> matof (oEa o) j k l = strain_given (i_Ea i) j k l) by (intros j k l Hj; exact (strain_kept' Ns _ _ j k l KE (proj1 H10) Hj)).
  split.
  - intros j Hj. pose proof (Hs1 j Hj) as Pa. assert (A3 : 0 < c_ssizes p0 j ^ 3) by (apply pow_lt; exact Pa).
    split; [|split; [|split; [|split]]].
    + intros l Hl. pose proof (SPH KU j l ltac:(discriminate) Hj Hl) as G. cbn [blk] in G. rewrite (load_kept Ns _ _ j l KF H1 Hj) in G.
      unfold v, drag_velocity, bead_force, radii_of. destruct (Nat.ltb_spec j Ns); [|lia]. rewrite G. field. split; lra.
    + intros l Hl. pose proof (SPH KO j l ltac:(discriminate) Hj Hl) as G. cbn [blk] in G. rewrite (load_kept Ns _ _ j l KT H2 Hj) in G.
      unfold drag_spin. rewrite G. field. split; lra.
    + intros k l. exact (KEv j k l Hj).
    + intros l. exact (load_kept Ns _ _ j l KF H1 Hj).
    + apply (st_unique (matof (oSa o) j) (drag_stresslet p0 mu i j)).
      * apply (matof_st Ns); [exact H11|exact Hj].
      * destruct (HS j Hj) as [S1 S2]. unfold drag_stresslet. split; [intros k l Hk Hl; rewrite (S1 k l Hk Hl); reflexivity|].
        match goal with |- ?x = 0 => transitivity (10 / 9 * mu * c_ssizes p0 j ^ 3 * (strain_given (i_Ea i) j 0%nat 0%nat + strain_given (i_Ea i) j 1%nat 1%nat + strain_given (i_Ea i) j 2%nat 2%nat)) end; [ring|rewrite S2; ring].
      * intros m Hm. pose proof (SPH KS j m ltac:(discriminate) Hj Hm) as G. cbn [blk] in G. rewrite G.
        rewrite (Proof_Minf.condense_ext _ _ m (fun k l _ _ => KEv j k l Hj)). unfold drag_stresslet, condense_idx.
        rewrite <- rsum_scal_l. apply rsum_ext. intros k Hk. rewrite <- rsum_scal_l. apply rsum_ext. intros l Hl. field.
  - intros j Hj. pose proof (Hs2 j Hj) as Pa.
    assert (VB : forall l, v (Ns + j)%nat l = (load (i_Fb i) j l - load (i_DFb i) j l) / 2 / (mu * c_dsizes p0 j) /\ v (Ns + Nd + j)%nat l = (load (i_Fb i) j l + load (i_DFb i) j l) / 2 / (mu * c_dsizes p0 j)).
    { intros l. unfold v, drag_velocity, bead_force, radii_of. destruct (Nat.ltb_spec (Ns + j) Ns); [lia|]. destruct (Nat.ltb_spec (Ns + j) (Ns + Nd)); [|lia].
      destruct (Nat.ltb_spec (Ns + Nd + j) Ns); [lia|]. destruct (Nat.ltb_spec (Ns + Nd + j) (Ns + Nd)); [lia|].
      replace (Ns + j - Ns)%nat with j by lia. replace (Ns + Nd + j - Ns - Nd)%nat with j by lia. split; reflexivity. }
    split; [|split; [|split]].
    + intros l Hl. destruct (VB l) as [-> ->]. pose proof (DUM j l ltac:(lia) Hl) as G. destruct (Nat.ltb_spec j Nd); [|lia].
      rewrite (load_kept Nd _ _ j l KB' H3 Hj) in G. apply Rmult_eq_reg_l with (mu * (2 * c_dsizes p0 j)); [|apply Rgt_not_eq; nra]. rewrite <- G. field. split; lra.
    + intros l Hl. destruct (VB l) as [-> ->]. pose proof (DUM (Nd + j)%nat l ltac:(lia) Hl) as G. destruct (Nat.ltb_spec (Nd + j) Nd); [lia|].
      replace (Nd + j - Nd)%nat with j in G by lia. rewrite (load_kept Nd _ _ j l KD' H4 Hj) in G.
      apply Rmult_eq_reg_l with (mu * (2 * c_dsizes p0 j)); [|apply Rgt_not_eq; nra]. rewrite <- G. field. split; lra.
    + intros l. exact (load_kept Nd _ _ j l KB' H3 Hj).
    + intros l. exact (load_kept Nd _ _ j l KD' H4 Hj).
Qed.

(** ** Runs *)
Section Runs.
Variable inv : nat -> mat -> mat.
Variable inv3 : mat -> mat.
Variable solve : nat -> mat -> list R -> list R.
Variable sc : nat -> nat -> R -> nat -> R.
Variable table : list R.
Variable h : nat.
Variable stale : nat -> nat -> R.
Variables Ns Nd : nat.
Variables bb : bool.
Variable cf : R.
Variable g : settings.
Variable input : config -> R -> res (inputs * flow).
Variable p0 : config.
Notation N := (g_num_frames g).
Hypothesis Hinv : inverts_posdef inv.
Hypothesis Hsolve : solves_posdef solve.
Hypothesis HNs : (0 < Ns)%nat.
Hypothesis Hex : g_explosion g = false.
Hypothesis Hd : g_use_drag g = true.
Hypothesis Hstart : g_start g = 0%nat.
Hypothesis Hbox : no_box_g g.
Hypothesis S1 : (0 < g_save_pos g)%nat.
Hypothesis S2 : (0 < g_save_forces g)%nat.
Hypothesis S3 : (g_save_after g mod g_save_pos g = 0)%nat.
Hypothesis S4 : (g_save_after g mod g_save_forces g = 0)%nat.
Hypothesis HI : forall p t i f, input p t = Ok (i, f) -> well_posed Ns Nd fte i /\ (forall j, (j < Ns)%nat -> symmetric_traceless (strain_given (i_Ea i) j)) /\ 0 < f_mu f.
Hypothesis Ha : forall j, (j < Ns)%nat -> 0 < c_ssizes p0 j.
Hypothesis Hb : forall j, (j < Nd)%nat -> 0 < c_dsizes p0 j.
Variables (s : list snapshot) (fs : list fsnapshot).
Hypothesis E : full_simulation inv inv3 solve sc table h stale Ns Nd fte false bb true cf g input p0 = Ok (Some (s, fs)).

Lemma bead_kinds b : (b < Ns + 2 * Nd)%nat -> (b < Ns)%nat \/ (exists j, (j < Nd)%nat /\ b = (Ns + j)%nat) \/ (exists j, (j < Nd)%nat /\ b = (Ns + Nd + j)%nat).
Proof. intros H. destruct (Nat.lt_ge_cases b Ns); [left; assumption|right]. destruct (Nat.lt_ge_cases b (Ns + Nd)); [left; exists (b - Ns)%nat|right; exists (b - Ns - Nd)%nat]; lia. Qed.
Lemma HW : forall p t i f, input p t = Ok (i, f) -> well_posed Ns Nd fte i /\ 0 < f_mu f.
Proof. intros p t i f Ei. destruct (HI p t i f Ei) as (A & _ & B). auto. Qed.

Theorem drag_run : (g_scheme g = euler \/ (g_scheme g = ab2 /\ Nd = 0%nat)) ->
  exists (pos : nat -> config) (inp : nat -> inputs) (fl : nat -> flow) (frc : nat -> fsnapshot),
  pos 0%nat = p0 /\
  (forall m, (m < N)%nat -> input (pos m) (INR m) = Ok (inp m, fl m)) /\
  (forall m, (m < N)%nat ->
     let first := match g_scheme g with euler => true | _ => Nat.eqb m 0 end in
     let V := fun m b l => planar Ns g b l (drag_speed Ns Nd p0 (pos m) (fl m) (inp m) (inp m) b l) in
     let W := fun m => drag_turn p0 (fl m) (inp m) in
     carried Ns Nd inv3 (g_dt g) (fun b l => if first then V m b l else 3 / 2 * V m b l - 1 / 2 * V (m - 1)%nat b l)
       (fun j l => if first then W m j l else 3 / 2 * W m j l - 1 / 2 * W (m - 1)%nat j l) (pos m) (pos (S m))) /\
  (forall m, (m < N)%nat ->
     (forall j l, (j < Ns)%nat -> n_Fa (frc m) j l = load (i_Fa (inp m)) j l) /\
     (forall j k l, (j < Ns)%nat -> (k < 3)%nat -> (l < 3)%nat -> n_Sa (frc m) j k l = drag_stresslet p0 (f_mu (fl m)) (inp m) j k l) /\
     (forall j l, (j < Nd)%nat -> n_Fb (frc m) j l = load (i_Fb (inp m)) j l /\ n_DFb (frc m) j l = load (i_DFb (inp m)) j l)) /\
  s = map (fun m => snap Ns (pos m)) (due_frames (g_save_pos g) (g_save_after g) N)
      ++ (if save_due (g_save_pos g) (g_save_after g) (N - 1) then [snap Ns (pos N)] else []) /\
  fs = map frc (due_frames (g_save_forces g) (g_save_after g) N).
Proof.
  intros Hsch'. assert (Hsch : g_scheme g = euler \/ g_scheme g = ab2) by tauto.
  destruct (drag_posed inv inv3 solve sc table h stale Ns Nd fte bb cf g input p0 HNs Hd Hstart Hsch Hex Ha Hb HW) as (Hq & Hw & Hf & Hg & _).
  destruct (whole_run inv inv3 solve sc table h stale Ns Nd fte false bb true cf g input p0 Hinv Hsolve HNs eq_refl Hstart Hsch Hq Hw Hf Hg
    s fs S1 S2 S3 S4 E) as (pos & fl & out & (P0 & PR) & P1 & P2 & P3).
  set (inp := fun m => match input (pos m) (INR m) with Ok (i, _) => i | Raise _ => default_inputs fte Ns Nd end).
  assert (SZ : forall m, (m <= N)%nat -> same_radii p0 (pos m)).
  { induction m as [|m IH]; intros Hm; [rewrite P0; split; reflexivity|]. destruct (P1 m ltac:(lia)) as [_ (A & B & _)]. destruct (IH ltac:(lia)) as [C D]. split; congruence. }
  assert (EI : forall m, (m < N)%nat -> input (pos m) (INR m) = Ok (inp m, fl m)).
  { intros m Hm. destruct (P1 m Hm) as [(i & L & N0 & A1 & _) _]. unfold inp. rewrite A1. reflexivity. }
  assert (K : forall m, (m < N)%nat -> let v := drag_velocity Ns Nd p0 (f_mu (fl m)) (inp m) in
    (forall j, (j < Ns)%nat ->
      (forall l, (l < 3)%nat -> rowof (oUa (out m)) j l = v j l) /\
      (forall l, (l < 3)%nat -> rowof (oOa (out m)) j l = drag_spin p0 (f_mu (fl m)) (inp m) j l) /\
      (forall k l, matof (oEa (out m)) j k l = strain_given (i_Ea (inp m)) j k l) /\
      (forall l, rowof (oFa (out m)) j l = load (i_Fa (inp m)) j l) /\
      (forall k l, (k < 3)%nat -> (l < 3)%nat -> matof (oSa (out m)) j k l = drag_stresslet p0 (f_mu (fl m)) (inp m) j k l)) /\
    (forall j, (j < Nd)%nat ->
      (forall l, (l < 3)%nat -> rowof (oUb (out m)) j l = (v (Ns + j)%nat l + v (Ns + Nd + j)%nat l) / 2) /\
      (forall l, (l < 3)%nat -> rowof (oHDb (out m)) j l = (v (Ns + Nd + j)%nat l - v (Ns + j)%nat l) / 2) /\
      (forall l, rowof (oFb (out m)) j l = load (i_Fb (inp m)) j l) /\ (forall l, rowof (oDFb (out m)) j l = load (i_DFb (inp m)) j l))).
  { intros m Hm. pose proof (EI m Hm) as EIm. destruct (P1 m Hm) as [(i & L & N0 & A1 & A2 & A3 & A4) _].
    assert (Ei : i = inp m) by (unfold inp; rewrite A1; reflexivity). subst i. destruct (HI _ _ _ _ EIm) as (_ & ST & Mu).
    unfold near_field in A3. subst N0. unfold far_resistance in A2. rewrite Hd in A2. destruct A2 as (i' & f' & E' & _ & ->).
    rewrite EIm in E'. injection E' as _ <-.
    apply (drag_answers Ns Nd p0 (pos m) (f_mu (fl m)) (inp m) _ (out m) Mu (SZ m ltac:(lia)) Ha Hb) with (2 := A4); [|exact ST].
    intros. unfold mzero. ring. }
  exists pos, inp, fl, (fun m => forces_of (out m)).
  set (V := fun m b l => planar Ns g b l (drag_speed Ns Nd p0 (pos m) (fl m) (inp m) (inp m) b l)).
  set (W := fun m => drag_turn p0 (fl m) (inp m)).
  assert (VS : forall m j l, (m < N)%nat -> (j < Ns)%nat -> (l < 3)%nat -> sphere_speed g (fl m) (out m) (pos m) j l = V m j l).
  { intros m j l Hm Hj Hl. destruct (K m Hm) as [KA _]. destruct (KA j Hj) as (A1 & _ & A3 & _). unfold sphere_speed, V, planar, drag_speed.
    destruct (Nat.ltb_spec j Ns); [|lia]. rewrite andb_true_r. destruct (g_fully_2d g && Nat.eqb l 1)%bool; [reflexivity|]. rewrite (A1 l Hl). f_equal.
    unfold beads_of. destruct (Nat.ltb_spec j Ns); [|lia]. apply flow_strain. intros b Hb'. apply A3. }
  assert (WS : forall m j l, (m < N)%nat -> (j < Ns)%nat -> (l < 3)%nat -> sphere_spin (fl m) (out m) j l = W m j l).
  { intros m j l Hm Hj Hl. destruct (K m Hm) as [KA _]. destruct (KA j Hj) as (_ & A2 & _). unfold sphere_spin, W, drag_turn. rewrite (A2 l Hl). reflexivity. }
  assert (VB : forall m j l, (m < N)%nat -> (j < Nd)%nat -> (l < 3)%nat ->
    centre_speed (fl m) (out m) (pos m) j l = (V m (Ns + j)%nat l + V m (Ns + Nd + j)%nat l) / 2 /\
    stretch_speed (fl m) (out m) (pos m) j l = V m (Ns + Nd + j)%nat l - V m (Ns + j)%nat l).
  { intros m j l Hm Hj Hl. destruct (K m Hm) as [KA KB]. destruct (KB j Hj) as (B1 & B2 & _). destruct (KA 0%nat HNs) as (_ & _ & A3 & _).
    assert (FW : forall y, bead_flow (fl m) (out m) y l = linear_flow (f_U (fl m)) (f_O (fl m)) (strain_given (i_Ea (inp m)) 0) (f_centre (fl m)) y l).
    { intros y. unfold bead_flow. apply flow_strain. intros b Hb'. apply A3. }
    unfold centre_speed, stretch_speed, V, planar, drag_speed. rewrite first_bead, second_bead by exact Hj. rewrite !FW, (B1 l Hl), (B2 l Hl).
    destruct (Nat.ltb_spec (Ns + j) Ns); [lia|]. destruct (Nat.ltb_spec (Ns + Nd + j) Ns); [lia|]. rewrite andb_false_r. split; field. }
  split; [exact P0|]. split; [exact EI|]. split; [|split; [|split; [exact P2|exact P3]]].
  - intros m Hm first V' W'. destruct (P1 m Hm) as [_ (_ & _ & M1 & M2)]. fold first in M1. cbv zeta in M1.
    assert (FB : first = false -> (m - 1 < N)%nat) by lia.
    split.
    + intros b l Hb' Hl. change V' with V. destruct (bead_kinds b Hb') as [Hj|[(j & Hj & ->)|(j & Hj & ->)]].
      * destruct (M1 b Hj) as (y & LX & X & _). unfold beads_of. destruct (Nat.ltb_spec b Ns); [|lia].
        rewrite (landed_at inv3 g Hbox _ _ _ LX l Hl), (X l Hl), !VS by (try assumption; lia). reflexivity.
      * assert (F : first = true) by (destruct Hsch' as [C|[_ C]]; [unfold first; rewrite C; reflexivity|lia]). rewrite F.
        destruct (M2 j Hj) as ((y & LX & X) & Y). destruct (VB m j l Hm Hj Hl) as [V1 V2]. rewrite !first_bead by exact Hj. unfold bead_minus.
        rewrite (landed_at inv3 g Hbox _ _ _ LX l Hl), (X l Hl), (Y l Hl), V1, V2. field.
      * assert (F : first = true) by (destruct Hsch' as [C|[_ C]]; [unfold first; rewrite C; reflexivity|lia]). rewrite F.
        destruct (M2 j Hj) as ((y & LX & X) & Y). destruct (VB m j l Hm Hj Hl) as [V1 V2]. rewrite !second_bead by exact Hj. unfold bead_plus.
        rewrite (landed_at inv3 g Hbox _ _ _ LX l Hl), (X l Hl), (Y l Hl), V1, V2. field.
    + intros j k Hj I3 Hne l Hl. destruct (M1 j Hj) as (y & LX & _ & XR). unfold arm at 1, vsub at 1. rewrite (landed_at inv3 g Hbox _ _ _ LX l Hl).
      specialize (XR k I3 Hne l Hl). unfold vsub at 1 in XR. rewrite XR.
      apply rodrigues_same; [exact Hl|]. intros c Hc. change W' with W. rewrite !WS by (try assumption; lia). reflexivity.
  - intros m Hm. destruct (K m Hm) as [KA KB]. unfold forces_of. cbn [n_Fa n_Sa n_Fb n_DFb]. split; [|split].
    + intros j l Hj. apply (KA j Hj).
    + intros j k l Hj Hk Hl. apply (KA j Hj); assumption.
    + intros j l Hj. destruct (KB j Hj) as (_ & _ & B3 & B4). auto.
Qed.

(** Runge-Kutta. *)
Theorem drag_run4 : g_scheme g = rk4 ->
  exists (pos : nat -> config) (q : nat -> nat -> config) (inp : nat -> nat -> inputs) (fl : nat -> nat -> flow) (frc : nat -> fsnapshot),
  pos 0%nat = p0 /\
  (forall m, (m < N)%nat ->
     let V := fun k => drag_speed Ns Nd p0 (pos m) (fl m k) (inp m k) (inp m (strain_stage k)) in
     let W := fun k => drag_turn p0 (fl m k) (inp m k) in
     (forall k, (k < 4)%nat -> input (q m k) (stage_time m k) = Ok (inp m k, fl m k)) /\
     q m 0%nat = pos m /\
     (forall k, (k < 3)%nat -> carried Ns Nd inv3 (stage_step (g_dt g) k) (V k) (W k) (pos m) (q m (S k))) /\
     carried Ns Nd inv3 (g_dt g) (fun b l => planar Ns g b l (mean4 (fun k => V k b l))) (fun j l => mean4 (fun k => W k j l)) (pos m) (pos (S m))) /\
  (forall m, (m < N)%nat ->
     (forall j l, (j < Ns)%nat -> n_Fa (frc m) j l = mean4 (fun k => load (i_Fa (inp m k)) j l)) /\
     (forall j k l, (j < Ns)%nat -> (k < 3)%nat -> (l < 3)%nat -> n_Sa (frc m) j k l = mean4 (fun r => drag_stresslet p0 (f_mu (fl m r)) (inp m r) j k l)) /\
     (forall j l, (j < Nd)%nat -> n_Fb (frc m) j l = mean4 (fun k => load (i_Fb (inp m k)) j l) /\ n_DFb (frc m) j l = mean4 (fun k => load (i_DFb (inp m k)) j l))) /\
  s = map (fun m => snap Ns (pos m)) (due_frames (g_save_pos g) (g_save_after g) N)
      ++ (if save_due (g_save_pos g) (g_save_after g) (N - 1) then [snap Ns (pos N)] else []) /\
  fs = map frc (due_frames (g_save_forces g) (g_save_after g) N).
Proof.
  intros Hsch.
  assert (Hq : forall m st, (m < N)%nat -> run_frames inv3 Ns Nd (far_inverse inv h stale Ns Nd bb g input)
    (solve_rest inv inv3 solve sc table h stale Ns Nd fte false bb true cf g input) g (fresh p0) (seq 0 m) = Ok st -> s_error st = false)
    by (intros m st _ Est; exact (no_flag inv3 Ns Nd _ _ g (fresh p0) (or_introl Hex) eq_refl _ st Est)).
  destruct (whole_run_reached inv inv3 solve sc table h stale Ns Nd fte bb true cf g input p0 Hinv Hsolve HNs Hstart Hsch Hq
    (drag_posed_stages inv inv3 solve sc table h stale Ns Nd fte bb cf g input p0 HNs Hd Hstart Hsch Hq Ha Hb HW) s fs S1 S2 S3 S4 E)
    as (pos & q & L & fl & out & (P0 & PR) & P1 & P2 & P3).
  set (inp := fun m k => match input (q m k) (stage_time m k) with Ok (i, _) => i | Raise _ => default_inputs fte Ns Nd end).
  assert (SZ : forall m, (m <= N)%nat -> same_radii p0 (pos m)).
  { induction m as [|m IH]; intros Hm; [rewrite P0; split; reflexivity|]. destruct (P1 m ltac:(lia)) as [_ (A & B & _)]. destruct (IH ltac:(lia)) as [C D]. split; congruence. }
  assert (SQ : forall m k, (m < N)%nat -> (k < 4)%nat -> same_radii p0 (q m k)).
  { intros m k Hm Hk. destruct (SZ m ltac:(lia)) as [C D]. destruct (P1 m Hm) as [(Q0 & _ & MV) _]. destruct k as [|k]; [rewrite Q0; split; assumption|].
    destruct (MV k ltac:(lia) ltac:(lia)) as (A & B & _). split; congruence. }
  assert (EI : forall m k, (m < N)%nat -> (k < 4)%nat -> input (q m k) (stage_time m k) = Ok (inp m k, fl m k)).
  { intros m k Hm Hk. destruct (P1 m Hm) as [(_ & SV & _) _]. destruct (SV k Hk) as [_ (i & N0 & E0 & _)]. unfold inp. rewrite E0. reflexivity. }
  assert (K : forall m k, (m < N)%nat -> (k < 4)%nat -> let v := drag_velocity Ns Nd p0 (f_mu (fl m k)) (inp m k) in
    (forall j, (j < Ns)%nat ->
      (forall l, (l < 3)%nat -> rowof (oUa (out m k)) j l = v j l) /\
      (forall l, (l < 3)%nat -> rowof (oOa (out m k)) j l = drag_spin p0 (f_mu (fl m k)) (inp m k) j l) /\
      (forall a l, matof (oEa (out m k)) j a l = strain_given (i_Ea (inp m k)) j a l) /\
      (forall l, rowof (oFa (out m k)) j l = load (i_Fa (inp m k)) j l) /\
      (forall a l, (a < 3)%nat -> (l < 3)%nat -> matof (oSa (out m k)) j a l = drag_stresslet p0 (f_mu (fl m k)) (inp m k) j a l)) /\
    (forall j, (j < Nd)%nat ->
      (forall l, (l < 3)%nat -> rowof (oUb (out m k)) j l = (v (Ns + j)%nat l + v (Ns + Nd + j)%nat l) / 2) /\
      (forall l, (l < 3)%nat -> rowof (oHDb (out m k)) j l = (v (Ns + Nd + j)%nat l - v (Ns + j)%nat l) / 2) /\
      (forall l, rowof (oFb (out m k)) j l = load (i_Fb (inp m k)) j l) /\ (forall l, rowof (oDFb (out m k)) j l = load (i_DFb (inp m k)) j l))).
  { intros m k Hm Hk. pose proof (EI m k Hm Hk) as EIm. destruct (P1 m Hm) as [(Q0 & SV & _) _]. destruct (SV k Hk) as [FK (i & N0 & A1 & A3 & A4)].
    assert (Ei : i = inp m k) by (unfold inp; rewrite A1; reflexivity). subst i. destruct (HI _ _ _ _ EIm) as (_ & ST & Mu).
    unfold near_field in A3. subst N0.
    assert (EL : L m k = drag_Minfinity_inverse (posdata_of Ns Nd (q m k)) (f_mu (fl m k))).
    { destruct k as [|k].
      - unfold stage_far, far_resistance in FK. rewrite Hd in FK. destruct FK as (i' & f' & E' & _ & ->). rewrite Q0 in *. cbn [stage_time] in EIm. rewrite EIm in E'. injection E' as _ <-. reflexivity.
      - destruct FK as [FK _]. specialize (FK (or_introl Hd)). unfold far_of in FK. rewrite Hd in FK. destruct FK as (i' & f' & E' & _ & ->). rewrite EIm in E'. injection E' as _ <-. reflexivity. }
    apply (drag_answers Ns Nd p0 (q m k) (f_mu (fl m k)) (inp m k) _ (out m k) Mu (SQ m k Hm Hk) Ha Hb) with (2 := A4); [|exact ST].
    intros. rewrite EL. unfold mzero. ring. }
  exists pos, q, inp, fl, (fun m => mean_forces (out m)).
  split; [exact P0|]. split; [|split; [|split; [exact P2|exact P3]]].
  - intros m Hm V W. split; [intros k Hk; exact (EI m k Hm Hk)|]. destruct (P1 m Hm) as [(Q0 & SV & MV) AD]. split; [exact Q0|].
    assert (VS : forall k j l, (k < 4)%nat -> (j < Ns)%nat -> (l < 3)%nat -> stage_speed (fl m k) (out m k) (pos m) j l = V k j l).
    { intros k j l Hk Hj Hl. destruct (K m k Hm Hk) as [KA _]. destruct (KA j Hj) as (A1 & _ & A3 & _). unfold stage_speed, V, drag_speed.
      destruct (Nat.ltb_spec j Ns); [|lia]. rewrite (A1 l Hl). f_equal. unfold beads_of. destruct (Nat.ltb_spec j Ns); [|lia].
      apply flow_strain. intros b Hb'. apply A3. }
    assert (WS : forall k j l, (k < 4)%nat -> (j < Ns)%nat -> (l < 3)%nat -> sphere_spin (fl m k) (out m k) j l = W k j l).
    { intros k j l Hk Hj Hl. destruct (K m k Hm Hk) as [KA _]. destruct (KA j Hj) as (_ & A2 & _). unfold sphere_spin, W, drag_turn. rewrite (A2 l Hl). reflexivity. }
    assert (VB : forall k j l, (k < 4)%nat -> (j < Nd)%nat -> (l < 3)%nat ->
      stage_centre (fl m k) (out m k) (matof (oEa (out m (strain_stage k))) 0) (pos m) j l = (V k (Ns + j)%nat l + V k (Ns + Nd + j)%nat l) / 2 /\
      stage_stretch (fl m k) (out m k) (matof (oEa (out m (strain_stage k))) 0) (pos m) j l = V k (Ns + Nd + j)%nat l - V k (Ns + j)%nat l).
    { intros k j l Hk Hj Hl. destruct (K m k Hm Hk) as [_ KB]. destruct (KB j Hj) as (B1 & B2 & _).
      assert (Hk' : (strain_stage k < 4)%nat) by (destruct k as [|[|k]]; cbn; lia).
      destruct (K m (strain_stage k) Hm Hk') as [KA _]. destruct (KA 0%nat HNs) as (_ & _ & A3 & _).
      assert (FW : forall y, flow_with (fl m k) (matof (oEa (out m (strain_stage k))) 0) y l =
        linear_flow (f_U (fl m k)) (f_O (fl m k)) (strain_given (i_Ea (inp m (strain_stage k))) 0) (f_centre (fl m k)) y l).
      { intros y. unfold flow_with. apply flow_strain. intros b Hb'. apply A3. }
      unfold stage_centre, stage_stretch, V, drag_speed. rewrite first_bead, second_bead by exact Hj. rewrite !FW, (B1 l Hl), (B2 l Hl).
      destruct (Nat.ltb_spec (Ns + j) Ns); [lia|]. destruct (Nat.ltb_spec (Ns + Nd + j) Ns); [lia|]. split; field. }
    split.
    + intros k Hk. destruct (MV k ltac:(lia) Hk) as (_ & _ & M1 & M2). split.
      * intros b l Hb' Hl. destruct (bead_kinds b Hb') as [Hj|[(j & Hj & ->)|(j & Hj & ->)]].
        -- destruct (M1 b Hj) as (y & LX & X & _). unfold beads_of. destruct (Nat.ltb_spec b Ns); [|lia].
           rewrite (landed_at inv3 g Hbox _ _ _ LX l Hl), (X l Hl), VS by (try assumption; lia). reflexivity.
        -- destruct (M2 j Hj) as ((y & LX & X) & Y). destruct (VB k j l ltac:(lia) Hj Hl) as [V1 V2]. rewrite !first_bead by exact Hj. unfold bead_minus.
           rewrite (landed_at inv3 g Hbox _ _ _ LX l Hl), (X l Hl), (Y l Hl), V1, V2. field.
        -- destruct (M2 j Hj) as ((y & LX & X) & Y). destruct (VB k j l ltac:(lia) Hj Hl) as [V1 V2]. rewrite !second_bead by exact Hj. unfold bead_plus.
           rewrite (landed_at inv3 g Hbox _ _ _ LX l Hl), (X l Hl), (Y l Hl), V1, V2. field.
      * intros j e Hj I3 Hne l Hl. destruct (M1 j Hj) as (y & LX & _ & XR). unfold arm at 1, vsub at 1. rewrite (landed_at inv3 g Hbox _ _ _ LX l Hl).
        specialize (XR e I3 Hne l Hl). cbv iota in XR. unfold vsub at 1 in XR. rewrite XR.
        apply rodrigues_same; [exact Hl|]. intros c Hc. rewrite WS by (try assumption; lia). reflexivity.
    + destruct AD as (_ & _ & M1 & M2). split.
      * intros b l Hb' Hl. destruct (bead_kinds b Hb') as [Hj|[(j & Hj & ->)|(j & Hj & ->)]].
        -- destruct (M1 b Hj) as (y & LX & X & _). unfold beads_of, planar. destruct (Nat.ltb_spec b Ns); [|lia]. rewrite andb_true_r.
           rewrite (landed_at inv3 g Hbox _ _ _ LX l Hl), (X l Hl). destruct (g_fully_2d g && Nat.eqb l 1)%bool; [reflexivity|].
           unfold mean4. rewrite !VS by (try assumption; lia). reflexivity.
        -- destruct (M2 j Hj) as ((y & LX & X) & Y). unfold planar. destruct (Nat.ltb_spec (Ns + j) Ns); [lia|]. rewrite andb_false_r.
           rewrite !first_bead by exact Hj. unfold bead_minus. rewrite (landed_at inv3 g Hbox _ _ _ LX l Hl), (X l Hl), (Y l Hl). unfold mean4.
           rewrite !(fun k Hk => proj1 (VB k j l Hk Hj Hl)), !(fun k Hk => proj2 (VB k j l Hk Hj Hl)) by lia. field.
        -- destruct (M2 j Hj) as ((y & LX & X) & Y). unfold planar. destruct (Nat.ltb_spec (Ns + Nd + j) Ns); [lia|]. rewrite andb_false_r.
           rewrite !second_bead by exact Hj. unfold bead_plus. rewrite (landed_at inv3 g Hbox _ _ _ LX l Hl), (X l Hl), (Y l Hl). unfold mean4.
           rewrite !(fun k Hk => proj1 (VB k j l Hk Hj Hl)), !(fun k Hk => proj2 (VB k j l Hk Hj Hl)) by lia. field.
      * intros j e Hj I3 Hne l Hl. destruct (M1 j Hj) as (y & LX & _ & XR).
        specialize (XR e I3 Hne l Hl). cbv iota in XR. unfold arm at 1. rewrite XR.
        apply rodrigues_same; [exact Hl|]. intros c Hc. unfold mean4. rewrite !WS by (try assumption; lia). reflexivity.
  - intros m Hm. unfold mean_forces, mean4. cbn [n_Fa n_Sa n_Fb n_DFb].
    pose proof (K m 0%nat Hm ltac:(lia)) as [A0 B0]. pose proof (K m 1%nat Hm ltac:(lia)) as [A1 B1].
    pose proof (K m 2%nat Hm ltac:(lia)) as [A2 B2]. pose proof (K m 3%nat Hm ltac:(lia)) as [A3 B3]. split; [|split].
    + intros j l Hj. destruct (A0 j Hj) as (_ & _ & _ & -> & _), (A1 j Hj) as (_ & _ & _ & -> & _), (A2 j Hj) as (_ & _ & _ & -> & _), (A3 j Hj) as (_ & _ & _ & -> & _). reflexivity.
    + intros j k l Hj Hk Hl. destruct (A0 j Hj) as (_ & _ & _ & _ & C0), (A1 j Hj) as (_ & _ & _ & _ & C1), (A2 j Hj) as (_ & _ & _ & _ & C2), (A3 j Hj) as (_ & _ & _ & _ & C3).
      rewrite C0, C1, C2, C3 by assumption. reflexivity.
    + intros j l Hj. destruct (B0 j Hj) as (_ & _ & C0 & D0), (B1 j Hj) as (_ & _ & C1 & D1), (B2 j Hj) as (_ & _ & C2 & D2), (B3 j Hj) as (_ & _ & C3 & D3).
      rewrite C0, C1, C2, C3, D0, D1, D2, D3. split; reflexivity.
Qed.
End Runs.
