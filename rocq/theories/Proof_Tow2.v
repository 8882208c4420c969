(** Runs in form fts with dumbbells in which forces and torques are prescribed. *)
From Coq Require Import Reals List Arith ZArith Bool Lia Lra FunctionalExtensionality.
From Verif Require Import Base Py Model_Pack Model_Mob Model_Layout Model_Minf Model_Grand Model_Close Model_R2B Model_GrandP Model_Step
  Model_Output Model_Frame Model_Inputs Model_Sim
  Spec_Pack Spec_Convert Spec_Output Spec_Layout Spec_Minf Spec_Rotate Spec_Step Spec_Frame Spec_Posdef Spec_Run Spec_Run4
  Spec_Turn Spec_Turn4 Spec_Renumber Spec_Work Spec_Two Spec_Push Spec_Tow
  Proof_Minf3 Proof_Posdef Proof_Rotate3 Proof_Frame Proof_Run Proof_Run2 Proof_Output3 Proof_Runs2 Proof_Turn2 Proof_Turn3 Proof_Turn5 Proof_Work Proof_Work2 Proof_Work3 Proof_Two4 Proof_Two6
  Proof_Push1 Proof_Push2 Proof_Push3 Proof_Tow1.
Import ListNotations.
Local Open Scope R_scope.

Lemma beads_same Ns Nd q : bead_positions (posdata_of Ns Nd q) = beads_of Ns Nd q.
Proof.
  apply functional_extensionality. intros b. unfold bead_positions, beads_of, posdata_of. cbn [num_spheres num_dumbbells sphere_positions dumbbell_positions dumbbell_deltax].
  destruct (Nat.ltb b Ns); [reflexivity|]. destruct (Nat.ltb b (Ns + Nd)); apply functional_extensionality; intros l; unfold bead_minus, bead_plus, vsub, vadd, vscal; field.
Qed.
Lemma radii_same Ns Nd q : bead_sizes (posdata_of Ns Nd q) = radii_of Ns Nd q.
Proof. reflexivity. Qed.
Lemma towed_st bb mu Ns n x a F T i : (forall j, (j < n)%nat -> i <> j -> / 10 ^ 8 < norm (vsub (x i) (x j))) -> st (towed_strain bb mu Ns n x a F T i).
Proof.
  intros Hx. split.
  - intros k l Hk Hl. apply rsum_ext. intros j Hj. unfold felt. destruct (Nat.eqb_spec i j) as [_|Ne]; [reflexivity|]. cbn [negb andb].
    destruct (bb || Nat.ltb i Ns || Nat.ltb j Ns)%bool; [|reflexivity]. apply (strained_st mu _ _ (a i) (a j) (F j) (T j) (Hx j Hj Ne)); assumption.
  - unfold towed_strain. rewrite <- !rsum_plus. apply rsum_zero. intros j Hj. unfold felt. destruct (Nat.eqb_spec i j) as [_|Ne]; [cbn [negb andb]; ring|]. cbn [negb andb].
    destruct (bb || Nat.ltb i Ns || Nat.ltb j Ns)%bool; [|ring]. apply (strained_st mu _ _ (a i) (a j) (F j) (T j) (Hx j Hj Ne)).
Qed.

Theorem towed_answers bb Ns Nd q mu i L R0 o :
  let n := (11 * Ns + 6 * Nd)%nat in
  let x := beads_of Ns Nd q in
  let a := radii_of Ns Nd q in
  0 < mu -> (forall b, (b < Ns + 2 * Nd)%nat -> 0 < a b) ->
  (forall b b', (b < Ns + 2 * Nd)%nat -> (b' < Ns + 2 * Nd)%nat -> b <> b' -> / 10 ^ 8 < norm (vsub (x b) (x b'))) ->
  is_inv n (generate_Minfinity bb (posdata_of Ns Nd q) mu) L ->
  (forall r s, (r < n)%nat -> (s < n)%nat -> R0 r s = L r s) ->
  answers Ns Nd fts i R0 o -> no_stresslet (i_Sa i) ->
  let F := bead_force Ns Nd (load (i_Fa i)) (load (i_Fb i)) (load (i_DFb i)) in
  let T := bead_torque Ns (load (i_Ta i)) in
  let v := towed_velocity bb mu Ns (Ns + 2 * Nd) x a F T in
  (forall j, (j < Ns)%nat ->
    (forall l, (l < 3)%nat -> rowof (oUa o) j l = v j l) /\
    (forall l, (l < 3)%nat -> rowof (oOa o) j l = towed_spin bb mu Ns (Ns + 2 * Nd) x a F T j l) /\
    (forall k l, (k < 3)%nat -> (l < 3)%nat -> matof (oEa o) j k l = towed_strain bb mu Ns (Ns + 2 * Nd) x a F T j k l) /\
    (forall l, rowof (oFa o) j l = load (i_Fa i) j l) /\ (forall l, rowof (o_Ta o) j l = load (i_Ta i) j l) /\
    (forall k l, (k < 3)%nat -> (l < 3)%nat -> matof (oSa o) j k l = 0)) /\
  (forall j, (j < Nd)%nat ->
    (forall l, (l < 3)%nat -> rowof (oUb o) j l = (v (Ns + j)%nat l + v (Ns + Nd + j)%nat l) / 2) /\
    (forall l, (l < 3)%nat -> rowof (oHDb o) j l = (v (Ns + Nd + j)%nat l - v (Ns + j)%nat l) / 2) /\
    (forall l, rowof (oFb o) j l = load (i_Fb i) j l) /\ (forall l, rowof (oDFb o) j l = load (i_DFb i) j l)).
Proof.
  intros n x a Hmu Hsz Hap HL HE HA HS0 F T v.
  destruct HA as ((L1 & L2 & L3) & (H1 & H2 & H3 & H4 & H5 & H6 & H7 & H8 & H9 & H10 & H11) & KT & KF & KSt & KB' & KD').
  set (u := lvec (grand (oUa o) (oOa o) (oEa o) (oUb o) (oHDb o))) in *.
  set (w := lvec (grand (oFa o) (o_Ta o) (oSa o) (oFb o) (oDFb o))) in *.
  set (M := generate_Minfinity bb (posdata_of Ns Nd q) mu) in *.
  assert (GU : forall k b c, kvalid Ns Nd k b -> (c < ksize k)%nat -> u (kstart Ns k b + c)%nat = blk (oUa o) (oOa o) (oEa o) (oUb o) (oHDb o) Ns Nd k b c).
  { intros k b c Hk Hc. apply grand_at; try assumption. apply H10. }
  assert (GF : forall k b c, kvalid Ns Nd k b -> (c < ksize k)%nat -> w (kstart Ns k b + c)%nat = blk (oFa o) (o_Ta o) (oSa o) (oFb o) (oDFb o) Ns Nd k b c).
  { intros k b c Hk Hc. apply grand_at; try assumption. apply H9. }
  assert (LM : linrel n M w u).
  { pose proof (is_inv_mvec n M L w u HL) as [_ I]. intros r Hr. apply I; [|exact Hr]. intros k Hk. rewrite (L3 k Hk). apply rsum_ext. intros c Hc. rewrite HE by assumption. reflexivity. }
  assert (SZ : forall b k l, (b < Ns)%nat -> (k < 3)%nat -> (l < 3)%nat -> matof (oSa o) b k l = 0).
  { intros b k l Hb Hk Hl. pose proof (KSt b ltac:(lia)) as K. destruct (nth_error (oSa o) b) as [r|] eqn:E.
    - unfold matof. rewrite (nth_error_nth _ _ [] E). exact (HS0 b r k l K).
    - apply nth_error_None in E. destruct H9. lia. }
  assert (X1 : forall b l, (b < Ns)%nat -> (l < 3)%nat -> w (kstart Ns KU b + l)%nat = load (i_Fa i) b l).
  { intros b l Hb Hl. rewrite (GF KU b l Hb Hl). cbn [blk]. exact (load_kept Ns _ _ b l KF H1 Hb). }
  assert (X2 : forall b l, (b < Ns)%nat -> (l < 3)%nat -> w (kstart Ns KO b + l)%nat = load (i_Ta i) b l).
  { intros b l Hb Hl. rewrite (GF KO b l Hb Hl). cbn [blk]. exact (load_kept Ns _ _ b l KT H2 Hb). }
  assert (X3 : forall b l, (b < Ns)%nat -> (l < 5)%nat -> w (kstart Ns KS b + l)%nat = 0).
  { intros b l Hb Hl. rewrite (GF KS b l Hb Hl). cbn [blk]. apply rsum_zero. intros k Hk. apply rsum_zero. intros m Hm. rewrite (SZ b k m Hb Hk Hm). ring. }
  assert (X4 : forall d l, (d < Nd)%nat -> (l < 3)%nat -> w (11 * Ns + 3 * d + l)%nat = load (i_Fb i) d l).
  { intros d l Hd Hl. pose proof (GF KB (Ns + d)%nat l ltac:(cbn; lia) Hl) as G. cbn [kstart blk] in G. replace (Ns + d - Ns)%nat with d in G by lia.
    destruct (Nat.ltb_spec d Nd); [|lia]. rewrite G. exact (load_kept Nd _ _ d l KB' H3 Hd). }
  assert (X5 : forall d l, (d < Nd)%nat -> (l < 3)%nat -> w (11 * Ns + 3 * Nd + 3 * d + l)%nat = load (i_DFb i) d l).
  { intros d l Hd Hl. pose proof (GF KB (Ns + (Nd + d))%nat l ltac:(cbn; lia) Hl) as G. cbn [kstart blk] in G. replace (Ns + (Nd + d) - Ns)%nat with (Nd + d)%nat in G by lia.
    destruct (Nat.ltb_spec (Nd + d) Nd); [lia|]. replace (Nd + d - Nd)%nat with d in G by lia.
    replace (11 * Ns + 3 * Nd + 3 * d + l)%nat with (11 * Ns + 3 * (Nd + d) + l)%nat by lia. rewrite G. exact (load_kept Nd _ _ d l KD' H4 Hd). }
  assert (A1 : forall b, (b < Ns + 2 * Nd)%nat -> 0 < bead_sizes (posdata_of Ns Nd q) b) by exact Hsz.
  assert (A2 : forall b b', (b < Ns + 2 * Nd)%nat -> (b' < Ns + 2 * Nd)%nat -> b <> b' ->
    / 10 ^ 8 < norm (vsub (bead_positions (posdata_of Ns Nd q) b) (bead_positions (posdata_of Ns Nd q) b'))) by (rewrite beads_same; exact Hap).
  pose proof (towed_sphere bb (posdata_of Ns Nd q) mu w u _ _ _ _ Hmu A1 A2 LM X1 X2 X3 X4 X5) as Y1.
  pose proof (towed_turn bb (posdata_of Ns Nd q) mu w u _ _ _ _ Hmu A1 A2 LM X1 X2 X3 X4 X5) as Y2.
  pose proof (towed_stretch bb (posdata_of Ns Nd q) mu w u _ _ _ _ Hmu A1 A2 LM X1 X2 X3 X4 X5) as Y3.
  pose proof (towed_centre bb (posdata_of Ns Nd q) mu w u _ _ _ _ Hmu A1 A2 LM X1 X2 X3 X4 X5) as Y4.
  pose proof (towed_half bb (posdata_of Ns Nd q) mu w u _ _ _ _ Hmu A1 A2 LM X1 X2 X3 X4 X5) as Y5.
  rewrite beads_same, radii_same in Y1, Y2, Y3, Y4, Y5. cbn [num_spheres num_dumbbells posdata_of] in Y1, Y2, Y3, Y4, Y5.
  fold x a F T in Y1, Y2, Y3, Y4, Y5. fold v in Y1, Y4, Y5.
  split.
  - intros j Hj. split; [|split; [|split; [|split; [|split]]]].
    + intros l Hl. pose proof (GU KU j l Hj Hl) as G. cbn [blk] in G. rewrite <- G. exact (Y1 j l Hj Hl).
    + intros l Hl. pose proof (GU KO j l Hj Hl) as G. cbn [blk] in G. rewrite <- G. exact (Y2 j l Hj Hl).
    + apply st_unique.
      * apply (matof_st Ns); [exact H11|exact Hj].
      * apply towed_st. intros b Hb Ne. apply Hap; (assumption || lia).
      * intros m Hm. pose proof (GU KS j m Hj Hm) as G. cbn [blk] in G. rewrite <- G. exact (Y3 j m Hj Hm).
    + intros l. exact (load_kept Ns _ _ j l KF H1 Hj).
    + intros l. exact (load_kept Ns _ _ j l KT H2 Hj).
    + intros k l Hk Hl. apply SZ; assumption.
  - intros j Hj. split; [|split; [|split]].
    + intros l Hl. rewrite <- (Y4 j l Hj Hl). pose proof (GU KB (Ns + j)%nat l ltac:(cbn; lia) Hl) as G. cbn [kstart blk] in G. replace (Ns + j - Ns)%nat with j in G by lia.
      destruct (Nat.ltb_spec j Nd); [|lia]. symmetry. exact G.
    + intros l Hl. rewrite <- (Y5 j l Hj Hl). pose proof (GU KB (Ns + (Nd + j))%nat l ltac:(cbn; lia) Hl) as G. cbn [kstart blk] in G. replace (Ns + (Nd + j) - Ns)%nat with (Nd + j)%nat in G by lia.
      destruct (Nat.ltb_spec (Nd + j) Nd); [lia|]. replace (Nd + j - Nd)%nat with j in G by lia.
      replace (11 * Ns + 3 * Nd + 3 * j + l)%nat with (11 * Ns + 3 * (Nd + j) + l)%nat by lia. symmetry. exact G.
    + intros l. exact (load_kept Nd _ _ j l KB' H3 Hj).
    + intros l. exact (load_kept Nd _ _ j l KD' H4 Hj).
Qed.

(** ** Runs *)
Section Runs.
Variable inv : nat -> mat -> mat.
Variable inv3 : mat -> mat.
Variable solve : nat -> mat -> list R -> list R.
Variable sc : nat -> nat -> R -> nat -> R.
Variable table : list R.
Variable h : nat.
Variable stale : nat -> nat -> R.
Variables Ns Nd : nat.
Variables bb : bool.
Variable cf : R.
Variable g : settings.
Variable input : config -> R -> res (inputs * flow).
Variable p0 : config.
Notation N := (g_num_frames g).
Hypothesis Hinv : inverts_posdef inv.
Hypothesis Hsolve : solves_posdef solve.
Hypothesis HNs : (0 < Ns)%nat.
Hypothesis Hex : g_explosion g = false \/ Nd = 0%nat.
Hypothesis Hd : g_use_drag g = false.
Hypothesis Hstart : g_start g = 0%nat.
Hypothesis Hbox : no_box_g g.
Hypothesis S1 : (0 < g_save_pos g)%nat.
Hypothesis S2 : (0 < g_save_forces g)%nat.
Hypothesis S3 : (g_save_after g mod g_save_pos g = 0)%nat.
Hypothesis S4 : (g_save_after g mod g_save_forces g = 0)%nat.
Hypothesis HI : forall p t i f, input p t = Ok (i, f) -> well_posed Ns Nd fts i /\ 0 < f_mu f /\ unbounded f.
Hypothesis HS0 : forall p t i f, input p t = Ok (i, f) -> no_stresslet (i_Sa i).
Variables (s : list snapshot) (fs : list fsnapshot).
Hypothesis E : full_simulation inv inv3 solve sc table h stale Ns Nd fts false bb true cf g input p0 = Ok (Some (s, fs)).
Hypothesis HR : forall m p, (m < N)%nat -> reached inv inv3 solve sc table h stale Ns Nd fts false bb true cf g input p0 m p -> room Ns Nd p.
Hypothesis Hsch : g_scheme g = euler \/ g_scheme g = ab2.

Theorem towed_run : exists (pos : nat -> config) (inp : nat -> inputs) (fl : nat -> flow) (V C D : nat -> nat -> vec) (frc : nat -> fsnapshot),
  pos 0%nat = p0 /\
  (forall m, (m < N)%nat -> input (pos m) (INR m) = Ok (inp m, fl m) /\ towed_frame bb Ns Nd g pos inp fl m (V m) (C m) (D m)) /\
  (forall m l, (m < N)%nat -> (l < 3)%nat ->
     let first := match g_scheme g with euler => true | _ => Nat.eqb m 0 end in
     (forall j, (j < Ns)%nat -> c_spos (pos (S m)) j l = c_spos (pos m) j l
        + g_dt g * (if first then V m j l else 3 / 2 * V m j l - 1 / 2 * V (m - 1)%nat j l)) /\
     (forall j, (j < Nd)%nat -> c_dpos (pos (S m)) j l = c_dpos (pos m) j l + g_dt g * C m j l /\
        c_ddx (pos (S m)) j l = c_ddx (pos m) j l + g_dt g * D m j l)) /\
  (forall m, (m < N)%nat ->
     (forall j, (j < Ns)%nat -> (forall l, n_Fa (frc m) j l = load (i_Fa (inp m)) j l) /\ (forall k l, (k < 3)%nat -> (l < 3)%nat -> n_Sa (frc m) j k l = 0)) /\
     (forall j l, (j < Nd)%nat -> n_Fb (frc m) j l = load (i_Fb (inp m)) j l /\ n_DFb (frc m) j l = load (i_DFb (inp m)) j l)) /\
  s = map (fun m => snap Ns (pos m)) (due_frames (g_save_pos g) (g_save_after g) N)
      ++ (if save_due (g_save_pos g) (g_save_after g) (N - 1) then [snap Ns (pos N)] else []) /\
  fs = map frc (due_frames (g_save_forces g) (g_save_after g) N).
Proof.
  pose proof (roomy_posed inv inv3 solve sc table h stale Ns Nd fts bb cf g input p0 Hex Hd HI HR) as (Hq & Hw & Hf & Hg & _).
  destruct (whole_run inv inv3 solve sc table h stale Ns Nd fts false bb true cf g input p0 Hinv Hsolve HNs eq_refl Hstart Hsch Hq Hw Hf Hg
    s fs S1 S2 S3 S4 E) as (pos & fl & out & (P0 & PR) & P1 & P2 & P3).
  set (inp := fun m => match input (pos m) (INR m) with Ok (i, _) => i | Raise _ => default_inputs fts Ns Nd end).
  exists pos, inp, fl, (fun m => sphere_speed g (fl m) (out m) (pos m)), (fun m => centre_speed (fl m) (out m) (pos m)), (fun m => stretch_speed (fl m) (out m) (pos m)), (fun m => forces_of (out m)).
  assert (K : forall m, (m < N)%nat -> input (pos m) (INR m) = Ok (inp m, fl m) /\ exists k, latest_due 0 (g_invert_every g) m k /\
    let x := beads_of Ns Nd (pos k) in
    let a := radii_of Ns Nd (pos k) in
    let F := bead_force Ns Nd (load (i_Fa (inp m))) (load (i_Fb (inp m))) (load (i_DFb (inp m))) in
    let T := bead_torque Ns (load (i_Ta (inp m))) in
    let v := towed_velocity bb (f_mu (fl k)) Ns (Ns + 2 * Nd) x a F T in
    (forall j, (j < Ns)%nat ->
      (forall l, (l < 3)%nat -> rowof (oUa (out m)) j l = v j l) /\
      (forall l, (l < 3)%nat -> rowof (oOa (out m)) j l = towed_spin bb (f_mu (fl k)) Ns (Ns + 2 * Nd) x a F T j l) /\
      (forall k0 l, (k0 < 3)%nat -> (l < 3)%nat -> matof (oEa (out m)) j k0 l = towed_strain bb (f_mu (fl k)) Ns (Ns + 2 * Nd) x a F T j k0 l) /\
      (forall l, rowof (oFa (out m)) j l = load (i_Fa (inp m)) j l) /\ (forall l, rowof (o_Ta (out m)) j l = load (i_Ta (inp m)) j l) /\
      (forall k l, (k < 3)%nat -> (l < 3)%nat -> matof (oSa (out m)) j k l = 0)) /\
    (forall j, (j < Nd)%nat ->
      (forall l, (l < 3)%nat -> rowof (oUb (out m)) j l = (v (Ns + j)%nat l + v (Ns + Nd + j)%nat l) / 2) /\
      (forall l, (l < 3)%nat -> rowof (oHDb (out m)) j l = (v (Ns + Nd + j)%nat l - v (Ns + j)%nat l) / 2) /\
      (forall l, rowof (oFb (out m)) j l = load (i_Fb (inp m)) j l) /\ (forall l, rowof (oDFb (out m)) j l = load (i_DFb (inp m)) j l))).
  { intros m Hm. destruct (P1 m Hm) as [(i & L & N0 & A1 & A2 & A3 & A4) _].
    assert (EI : inp m = i) by (unfold inp; rewrite A1; reflexivity). rewrite EI. split; [exact A1|].
    unfold near_field in A3. subst N0. unfold far_resistance in A2. rewrite Hd in A2. destruct A2 as (k & i' & f' & M & LD & E' & FM & IV).
    assert (Hk : (k <= m)%nat) by apply LD. exists k. split; [exact LD|].
    assert (EF : f' = fl k). { destruct (P1 k ltac:(lia)) as [(i2 & L2 & N2 & B1 & _) _]. rewrite E' in B1. injection B1 as _ B1. exact B1. }
    destruct (HI _ _ i' f' E') as (_ & Mu & U). rewrite (proj1 FM U) in IV. rewrite EF in *.
    destruct (HR k (pos k) ltac:(lia) (PR k ltac:(lia))) as (R1 & R2 & _). rewrite beads_same in R2. rewrite radii_same in R1.
    apply (towed_answers bb Ns Nd (pos k) (f_mu (fl k)) i L (fun a b => L a b + mzero a b) (out m) Mu); try assumption.
    - intros. unfold mzero. ring.
    - exact (HS0 _ _ i (fl m) A1). }
  split; [exact P0|]. split; [|split; [|split; [|split; [exact P2|exact P3]]]].
  - intros m Hm. destruct (K m Hm) as (EI & k & LD & KK & KD). split; [exact EI|]. exists k. split; [exact LD|]. intros x a F T v ES background. split.
    + intros j l Hj Hl. destruct (KK j Hj) as (K1 & _ & K3 & _).
      unfold sphere_speed. destruct (g_fully_2d g && Nat.eqb l 1)%bool; [reflexivity|]. rewrite (K1 l Hl). f_equal.
      unfold background, linear_flow, mvec, vadd. f_equal. apply rsum_ext. intros b Hb. rewrite (K3 l b Hl Hb). reflexivity.
    + intros j l Hj Hl first second. destruct (KK 0%nat HNs) as (_ & _ & K3 & _). destruct (KD j Hj) as (D1 & D2 & _).
      assert (BF : forall y, bead_flow (fl m) (out m) y l = background 0%nat y l).
      { intros y. unfold bead_flow, background, linear_flow, mvec, vadd. f_equal. apply rsum_ext. intros b Hb. rewrite (K3 l b Hl Hb). reflexivity. }
      assert (B1 : beads_of Ns Nd (pos m) (Ns + j) = bead_minus (c_dpos (pos m) j) (c_ddx (pos m) j)).
      { unfold beads_of. destruct (Nat.ltb_spec (Ns + j) Ns); [lia|]. destruct (Nat.ltb_spec (Ns + j) (Ns + Nd)); [|lia]. replace (Ns + j - Ns)%nat with j by lia. reflexivity. }
      assert (B2 : beads_of Ns Nd (pos m) (Ns + Nd + j) = bead_plus (c_dpos (pos m) j) (c_ddx (pos m) j)).
      { unfold beads_of. destruct (Nat.ltb_spec (Ns + Nd + j) Ns); [lia|]. destruct (Nat.ltb_spec (Ns + Nd + j) (Ns + Nd)); [lia|]. replace (Ns + Nd + j - Ns - Nd)%nat with j by lia. reflexivity. }
      unfold first, second. rewrite B1, B2. unfold centre_speed, stretch_speed. rewrite !BF, (D1 l Hl), (D2 l Hl). fold x a F T. fold v. split; field.
  - intros m l Hm Hl first. destruct (P1 m Hm) as [_ (_ & _ & M1 & M2)]. cbv zeta in M1. split.
    + intros j Hj. destruct (M1 j Hj) as (y & LX & X & _). rewrite (landed_at inv3 g Hbox _ _ _ LX l Hl). exact (X l Hl).
    + intros j Hj. destruct (M2 j Hj) as ((y & LX & X) & Y). rewrite (landed_at inv3 g Hbox _ _ _ LX l Hl). split; [exact (X l Hl)|exact (Y l Hl)].
  - intros m Hm. destruct (K m Hm) as (_ & k & _ & KK & KD). split.
    + intros j Hj. destruct (KK j Hj) as (_ & _ & _ & K4 & _ & K6). split; [exact K4|exact K6].
    + intros j l Hj. destruct (KD j Hj) as (_ & _ & D3 & D4). split; [exact (D3 l)|exact (D4 l)].
Qed.
End Runs.
