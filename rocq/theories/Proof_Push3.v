(** Runs in form fts in which forces and torques are prescribed. *)
From Coq Require Import Reals List Arith ZArith Bool Lia Lra.
From Verif Require Import Base Py Model_Pack Model_Mob Model_Layout Model_Minf Model_Grand Model_Close Model_R2B Model_GrandP Model_Step
  Model_Output Model_Frame Model_Inputs Model_Sim
  Spec_Pack Spec_Convert Spec_Output Spec_Layout Spec_Minf Spec_Rotate Spec_Step Spec_Frame Spec_Posdef Spec_Run Spec_Run4
  Spec_Turn Spec_Turn4 Spec_Renumber Spec_Work Spec_Two Spec_Push
  Proof_Minf3 Proof_Posdef Proof_Rotate3 Proof_Frame Proof_Run Proof_Run2 Proof_Output3 Proof_Runs2 Proof_Turn2 Proof_Turn3 Proof_Turn5 Proof_Work Proof_Work2 Proof_Work3 Proof_Two4 Proof_Two6
  Proof_Push1 Proof_Push2.
Import ListNotations.
Local Open Scope R_scope.

(** The strain is symmetric and traceless. *)
Lemma strained_st mu x1 x2 a1 a2 F T : / 10 ^ 8 < norm (vsub x1 x2) -> st (strained mu x1 x2 a1 a2 F T).
Proof.
  intros Hx. pose proof (e_1 x1 x2 Hx) as E1. split.
  - intros k l Hk Hl. unfold strained, delta. rewrite (Nat.eqb_sym k l). unfold Rdiv. ring.
  - unfold strained, delta, cross, dot3. cbn [Nat.eqb v3]. set (e := heading x1 x2) in *. set (s := used_separation x1 x2 a1 a2).
    set (d1 := / (8 * PI * mu * s ^ 2)). set (d2 := / (16 * PI * mu * s ^ 3)). unfold Rdiv. fold d1 d2. set (d3 := / s ^ 2).
    transitivity ((3 * d1 * (F 0%nat * e 0%nat + F 1%nat * e 1%nat + F 2%nat * e 2%nat) - 30 * d1 * d3 * (a1 ^ 2 * / 10 + a2 ^ 2 * / 6) * (F 0%nat * e 0%nat + F 1%nat * e 1%nat + F 2%nat * e 2%nat))
      * (1 - (e 0%nat * e 0%nat + e 1%nat * e 1%nat + e 2%nat * e 2%nat))); [ring|rewrite E1; ring].
Qed.
Lemma pushed_st mu n x a F T i : (forall j, (j < n)%nat -> i <> j -> / 10 ^ 8 < norm (vsub (x i) (x j))) -> st (pushed_strain mu n x a F T i).
Proof.
  intros Hx. split.
  - intros k l Hk Hl. apply rsum_ext. intros j Hj. destruct (Nat.eqb_spec i j) as [_|Ne]; [reflexivity|]. apply (strained_st mu _ _ (a i) (a j) (F j) (T j) (Hx j Hj Ne)); assumption.
  - unfold pushed_strain. rewrite <- !rsum_plus. apply rsum_zero. intros j Hj. destruct (Nat.eqb_spec i j) as [_|Ne]; [ring|]. apply (strained_st mu _ _ (a i) (a j) (F j) (T j) (Hx j Hj Ne)).
Qed.
Lemma st_unique A B : st A -> st B -> (forall m, (m < 5)%nat -> condense_idx A m = condense_idx B m) -> forall k l, (k < 3)%nat -> (l < 3)%nat -> A k l = B k l.
Proof. intros HA HB E k l Hk Hl. rewrite <- (tensor_condense A k l HA Hk Hl), <- (tensor_condense B k l HB Hk Hl). apply tensor_ext. exact E. Qed.
Lemma pushed_same mu n x x' a a' F T : (forall j, (j < n)%nat -> x j = x' j /\ a j = a' j) ->
  forall i, (i < n)%nat -> (forall l, pushed_velocity mu n x a F T i l = pushed_velocity mu n x' a' F T i l) /\
    (forall l, pushed_spin mu n x a F T i l = pushed_spin mu n x' a' F T i l) /\ (forall k l, pushed_strain mu n x a F T i k l = pushed_strain mu n x' a' F T i k l).
Proof.
  intros H i Hi. destruct (H i Hi) as [E1 E2]. unfold pushed_velocity, pushed_spin, pushed_strain. rewrite E2.
  repeat split; intros; try apply (f_equal (Rplus _)); apply rsum_ext; intros j Hj; destruct (H j Hj) as [E3 E4]; rewrite E1, ?E2, E3, E4; reflexivity.
Qed.

Lemma load_kept Ns l out j c : keeps 0 Ns l out -> shaped Ns 3 out -> (j < Ns)%nat -> rowof out j c = load l j c.
Proof.
  intros K [L _] Hj. unfold load, rowof. rewrite (K j ltac:(lia)). destruct (nth_error out j) as [r|] eqn:E; [rewrite (nth_error_nth out j [] E); reflexivity|].
  apply nth_error_None in E. lia.
Qed.
Theorem pushed_answers bb Ns q mu i L R0 o :
  0 < mu -> (forall b, (b < Ns)%nat -> 0 < c_ssizes q b) ->
  (forall b b', (b < Ns)%nat -> (b' < Ns)%nat -> b <> b' -> / 10 ^ 8 < norm (vsub (c_spos q b) (c_spos q b'))) ->
  is_inv (11 * Ns + 6 * 0) (generate_Minfinity bb (posdata_of Ns 0 q) mu) L ->
  (forall a b, (a < 11 * Ns + 6 * 0)%nat -> (b < 11 * Ns + 6 * 0)%nat -> R0 a b = L a b) ->
  answers Ns 0 fts i R0 o -> no_stresslet (i_Sa i) ->
  let F := load (i_Fa i) in let T := load (i_Ta i) in
  forall j, (j < Ns)%nat ->
    (forall l, (l < 3)%nat -> rowof (oUa o) j l = pushed_velocity mu Ns (c_spos q) (c_ssizes q) F T j l) /\
    (forall l, (l < 3)%nat -> rowof (oOa o) j l = pushed_spin mu Ns (c_spos q) (c_ssizes q) F T j l) /\
    (forall k l, (k < 3)%nat -> (l < 3)%nat -> matof (oEa o) j k l = pushed_strain mu Ns (c_spos q) (c_ssizes q) F T j k l) /\
    (forall l, rowof (oFa o) j l = F j l) /\ (forall l, rowof (o_Ta o) j l = T j l) /\ (forall k l, (k < 3)%nat -> (l < 3)%nat -> matof (oSa o) j k l = 0).
Proof.
  intros Hmu Hsz Hap HL HE HA HS0 F T j Hj.
  destruct HA as ((L1 & L2 & L3) & (H1 & H2 & H3 & H4 & H5 & H6 & H7 & H8 & H9 & H10 & H11) & KT & KF & KSt & _ & _).
  set (u := lvec (grand (oUa o) (oOa o) (oEa o) (oUb o) (oHDb o))) in *.
  set (w := lvec (grand (oFa o) (o_Ta o) (oSa o) (oFb o) (oDFb o))) in *.
  set (n := (11 * Ns + 6 * 0)%nat) in *. assert (En : n = (11 * Ns)%nat) by (unfold n; lia).
  set (M := generate_Minfinity bb (posdata_of Ns 0 q) mu) in *.
  assert (GU : forall k b c, kvalid Ns 0 k b -> (c < ksize k)%nat -> u (kstart Ns k b + c)%nat = blk (oUa o) (oOa o) (oEa o) (oUb o) (oHDb o) Ns 0 k b c).
  { intros k b c Hk Hc. apply grand_at; try assumption. apply H10. }
  assert (GF : forall k b c, kvalid Ns 0 k b -> (c < ksize k)%nat -> w (kstart Ns k b + c)%nat = blk (oFa o) (o_Ta o) (oSa o) (oFb o) (oDFb o) Ns 0 k b c).
  { intros k b c Hk Hc. apply grand_at; try assumption. apply H9. }
  assert (LM : linrel n M w u).
  { pose proof (is_inv_mvec n M L w u HL) as [_ I]. intros r Hr. apply I; [|exact Hr]. intros k Hk. rewrite (L3 k Hk). apply rsum_ext. intros c Hc. rewrite HE by assumption. reflexivity. }
  rewrite En in LM.
  assert (SZ : forall b k l, (b < Ns)%nat -> (k < 3)%nat -> (l < 3)%nat -> matof (oSa o) b k l = 0).
  { intros b k l Hb Hk Hl. pose proof (KSt b ltac:(lia)) as K. destruct (nth_error (oSa o) b) as [r|] eqn:E.
    - unfold matof. rewrite (nth_error_nth _ _ [] E). exact (HS0 b r k l K).
    - apply nth_error_None in E. destruct H9. lia. }
  assert (EP : forall b, (b < Ns)%nat -> bead_positions (posdata_of Ns 0 q) b = c_spos q b /\ bead_sizes (posdata_of Ns 0 q) b = c_ssizes q b).
  { intros b Hb. unfold bead_positions, bead_sizes, posdata_of. cbn [num_spheres num_dumbbells sphere_sizes sphere_positions]. destruct (Nat.ltb_spec b Ns); [split; reflexivity|lia]. }
  pose proof (pushed_same mu Ns (bead_positions (posdata_of Ns 0 q)) (c_spos q) (bead_sizes (posdata_of Ns 0 q)) (c_ssizes q) F T EP j Hj) as (P1 & P2 & P3).
  assert (A1 : forall b, (b < num_spheres (posdata_of Ns 0 q))%nat -> 0 < bead_sizes (posdata_of Ns 0 q) b).
  { intros b Hb. rewrite (proj2 (EP b Hb)). apply Hsz. exact Hb. }
  assert (A2 : forall b b', (b < num_spheres (posdata_of Ns 0 q))%nat -> (b' < num_spheres (posdata_of Ns 0 q))%nat -> b <> b' ->
    / 10 ^ 8 < norm (vsub (bead_positions (posdata_of Ns 0 q) b) (bead_positions (posdata_of Ns 0 q) b'))).
  { intros b b' Hb Hb' Ne. rewrite (proj1 (EP b Hb)), (proj1 (EP b' Hb')). apply Hap; assumption. }
  assert (X1 : forall b l, (b < num_spheres (posdata_of Ns 0 q))%nat -> (l < 3)%nat -> w (kstart Ns KU b + l)%nat = F b l).
  { intros b l Hb Hl. rewrite (GF KU b l Hb Hl). cbn [blk]. exact (load_kept Ns _ _ b l KF H1 Hb). }
  assert (X2 : forall b l, (b < num_spheres (posdata_of Ns 0 q))%nat -> (l < 3)%nat -> w (kstart Ns KO b + l)%nat = T b l).
  { intros b l Hb Hl. rewrite (GF KO b l Hb Hl). cbn [blk]. exact (load_kept Ns _ _ b l KT H2 Hb). }
  assert (X3 : forall b l, (b < num_spheres (posdata_of Ns 0 q))%nat -> (l < 5)%nat -> w (kstart Ns KS b + l)%nat = 0).
  { intros b l Hb Hl. rewrite (GF KS b l Hb Hl). cbn [blk]. apply rsum_zero. intros k Hk. apply rsum_zero. intros m Hm. rewrite (SZ b k m Hb Hk Hm). ring. }
  split; [|split; [|split; [|split; [|split]]]].
  - intros l Hl. rewrite <- P1. pose proof (GU KU j l Hj Hl) as G. cbn [blk] in G. rewrite <- G.
    exact (velocity_of bb (posdata_of Ns 0 q) mu w u F T Hmu eq_refl A1 A2 LM X1 X2 X3 j l Hj Hl).
  - intros l Hl. rewrite <- P2. pose proof (GU KO j l Hj Hl) as G. cbn [blk] in G. rewrite <- G.
    exact (spin_of bb (posdata_of Ns 0 q) mu w u F T Hmu eq_refl A1 A2 LM X1 X2 X3 j l Hj Hl).
  - apply st_unique.
    + apply (matof_st Ns); [exact H11|exact Hj].
    + apply pushed_st. intros b Hb Ne. apply Hap; assumption.
    + intros m Hm. rewrite <- (Proof_Minf.condense_ext _ _ m (fun k l _ _ => P3 k l)). pose proof (GU KS j m Hj Hm) as G. cbn [blk] in G. rewrite <- G.
      exact (strain_of bb (posdata_of Ns 0 q) mu w u F T Hmu eq_refl A1 A2 LM X1 X2 X3 j m Hj Hm).
  - intros l. exact (load_kept Ns _ _ j l KF H1 Hj).
  - intros l. exact (load_kept Ns _ _ j l KT H2 Hj).
  - intros k l Hk Hl. apply SZ; assumption.
Qed.

(** ** Runs *)
Section Runs.
Variable inv : nat -> mat -> mat.
Variable inv3 : mat -> mat.
Variable solve : nat -> mat -> list R -> list R.
Variable sc : nat -> nat -> R -> nat -> R.
Variable table : list R.
Variable h : nat.
Variable stale : nat -> nat -> R.
Variable Ns : nat.
Variables bb : bool.
Variable cf : R.
Variable g : settings.
Variable input : config -> R -> res (inputs * flow).
Variable p0 : config.
Notation N := (g_num_frames g).
Hypothesis Hinv : inverts_posdef inv.
Hypothesis Hsolve : solves_posdef solve.
Hypothesis HNs : (0 < Ns)%nat.
Hypothesis Hd : g_use_drag g = false.
Hypothesis Hstart : g_start g = 0%nat.
Hypothesis Hbox : no_box_g g.
Hypothesis S1 : (0 < g_save_pos g)%nat.
Hypothesis S2 : (0 < g_save_forces g)%nat.
Hypothesis S3 : (g_save_after g mod g_save_pos g = 0)%nat.
Hypothesis S4 : (g_save_after g mod g_save_forces g = 0)%nat.
Hypothesis HI : forall p t i f, input p t = Ok (i, f) -> well_posed Ns 0 fts i /\ 0 < f_mu f /\ unbounded f.
Hypothesis HS0 : forall p t i f, input p t = Ok (i, f) -> no_stresslet (i_Sa i).
Variables (s : list snapshot) (fs : list fsnapshot).
Hypothesis E : full_simulation inv inv3 solve sc table h stale Ns 0 fts false bb true cf g input p0 = Ok (Some (s, fs)).
Hypothesis HR : forall m p, (m < N)%nat -> reached inv inv3 solve sc table h stale Ns 0 fts false bb true cf g input p0 m p -> room Ns 0 p.
Hypothesis Hsch : g_scheme g = euler \/ g_scheme g = ab2.

Theorem pushed_run : exists (pos : nat -> config) (inp : nat -> inputs) (fl : nat -> flow) (V W : nat -> nat -> vec) (frc : nat -> fsnapshot),
  pos 0%nat = p0 /\
  (forall m, (m < N)%nat -> input (pos m) (INR m) = Ok (inp m, fl m) /\ pushed_frame Ns g pos inp fl m (V m) (W m)) /\
  (forall m j, (m < N)%nat -> (j < Ns)%nat ->
     let first := match g_scheme g with euler => true | _ => Nat.eqb m 0 end in
     (forall l, (l < 3)%nat -> c_spos (pos (S m)) j l = c_spos (pos m) j l
        + g_dt g * (if first then V m j l else 3 / 2 * V m j l - 1 / 2 * V (m - 1)%nat j l))) /\
  (forall m j, (m < N)%nat -> (j < Ns)%nat ->
     (forall l, n_Fa (frc m) j l = load (i_Fa (inp m)) j l) /\ (forall k l, (k < 3)%nat -> (l < 3)%nat -> n_Sa (frc m) j k l = 0)) /\
  s = map (fun m => snap Ns (pos m)) (due_frames (g_save_pos g) (g_save_after g) N)
      ++ (if save_due (g_save_pos g) (g_save_after g) (N - 1) then [snap Ns (pos N)] else []) /\
  fs = map frc (due_frames (g_save_forces g) (g_save_after g) N).
Proof.
  pose proof (roomy_posed inv inv3 solve sc table h stale Ns 0 fts bb cf g input p0 (or_intror eq_refl) Hd HI HR) as (Hq & Hw & Hf & Hg & _).
  destruct (whole_run inv inv3 solve sc table h stale Ns 0 fts false bb true cf g input p0 Hinv Hsolve HNs eq_refl Hstart Hsch Hq Hw Hf Hg
    s fs S1 S2 S3 S4 E) as (pos & fl & out & (P0 & PR) & P1 & P2 & P3).
  set (inp := fun m => match input (pos m) (INR m) with Ok (i, _) => i | Raise _ => default_inputs fts Ns 0 end).
  exists pos, inp, fl, (fun m => sphere_speed g (fl m) (out m) (pos m)), (fun m => sphere_spin (fl m) (out m)), (fun m => forces_of (out m)).
  assert (K : forall m, (m < N)%nat -> input (pos m) (INR m) = Ok (inp m, fl m) /\ exists k, latest_due 0 (g_invert_every g) m k /\
    forall j, (j < Ns)%nat ->
    (forall l, (l < 3)%nat -> rowof (oUa (out m)) j l = pushed_velocity (f_mu (fl k)) Ns (c_spos (pos k)) (c_ssizes (pos k)) (load (i_Fa (inp m))) (load (i_Ta (inp m))) j l) /\
    (forall l, (l < 3)%nat -> rowof (oOa (out m)) j l = pushed_spin (f_mu (fl k)) Ns (c_spos (pos k)) (c_ssizes (pos k)) (load (i_Fa (inp m))) (load (i_Ta (inp m))) j l) /\
    (forall k0 l, (k0 < 3)%nat -> (l < 3)%nat -> matof (oEa (out m)) j k0 l = pushed_strain (f_mu (fl k)) Ns (c_spos (pos k)) (c_ssizes (pos k)) (load (i_Fa (inp m))) (load (i_Ta (inp m))) j k0 l) /\
    (forall l, rowof (oFa (out m)) j l = load (i_Fa (inp m)) j l) /\ (forall l, rowof (o_Ta (out m)) j l = load (i_Ta (inp m)) j l) /\ (forall k l, (k < 3)%nat -> (l < 3)%nat -> matof (oSa (out m)) j k l = 0)).
  { intros m Hm. destruct (P1 m Hm) as [(i & L & N0 & A1 & A2 & A3 & A4) _].
    assert (EI : inp m = i) by (unfold inp; rewrite A1; reflexivity). rewrite EI. split; [exact A1|].
    unfold near_field in A3. subst N0. unfold far_resistance in A2. rewrite Hd in A2. destruct A2 as (k & i' & f' & M & LD & E' & FM & IV).
    assert (Hk : (k <= m)%nat) by apply LD. exists k. split; [exact LD|].
    assert (EF : f' = fl k). { destruct (P1 k ltac:(lia)) as [(i2 & L2 & N2 & B1 & _) _]. rewrite E' in B1. injection B1 as _ B1. exact B1. }
    destruct (HI _ _ i' f' E') as (_ & Mu & U). rewrite (proj1 FM U) in IV. rewrite EF in *.
    destruct (HR k (pos k) ltac:(lia) (PR k ltac:(lia))) as (R1 & R2 & _). replace (Ns + 2 * 0)%nat with Ns in R1, R2 by lia.
    assert (EP : forall b, (b < Ns)%nat -> bead_positions (posdata_of Ns 0 (pos k)) b = c_spos (pos k) b /\ bead_sizes (posdata_of Ns 0 (pos k)) b = c_ssizes (pos k) b).
    { intros b Hb. unfold bead_positions, bead_sizes, posdata_of. cbn [num_spheres num_dumbbells sphere_sizes sphere_positions]. destruct (Nat.ltb_spec b Ns); [split; reflexivity|lia]. }
    apply (pushed_answers bb Ns (pos k) (f_mu (fl k)) i L (fun a b => L a b + mzero a b) (out m) Mu); try assumption.
    - intros b Hb. rewrite <- (proj2 (EP b Hb)). apply R1. exact Hb.
    - intros b b' Hb Hb' Ne. rewrite <- (proj1 (EP b Hb)), <- (proj1 (EP b' Hb')). apply R2; assumption.
    - intros. unfold mzero. ring.
    - exact (HS0 _ _ i (fl m) A1). }
  split; [exact P0|]. split; [|split; [|split; [|split; [exact P2|exact P3]]]].
  - intros m Hm. destruct (K m Hm) as (EI & k & LD & KK). split; [exact EI|]. exists k. split; [exact LD|]. intros mu x a F T j l Hj Hl.
    destruct (KK j Hj) as (K1 & K2 & K3 & _). split.
    + unfold sphere_speed. destruct (g_fully_2d g && Nat.eqb l 1)%bool; [reflexivity|]. rewrite (K1 l Hl). f_equal.
      unfold linear_flow, mvec, vadd. f_equal. apply rsum_ext. intros b Hb. rewrite (K3 l b Hl Hb). reflexivity.
    + unfold sphere_spin. rewrite (K2 l Hl). reflexivity.
  - intros m j Hm Hj first l Hl. destruct (P1 m Hm) as [_ (_ & _ & M1 & _)]. cbv zeta in M1. destruct (M1 j Hj) as (y & LX & X & _).
    rewrite (landed_at inv3 g Hbox _ _ _ LX l Hl). exact (X l Hl).
  - intros m j Hm Hj. destruct (K m Hm) as (_ & k & _ & KK). destruct (KK j Hj) as (_ & _ & _ & K4 & _ & K6). split; [exact K4|exact K6].
Qed.
End Runs.
