(** One sphere in a linear flow. *)
From Coq Require Import Reals List Arith ZArith Bool Lia Lra.
From Verif Require Import Base Py Model_Pack Model_Mob Model_Layout Model_Minf Model_Grand Model_Close Model_R2B Model_GrandP Model_Step
  Model_Output Model_Frame Model_Inputs Model_Sim
  Spec_Pack Spec_Convert Spec_Output Spec_Layout Spec_Minf Spec_Rotate Spec_Step Spec_Frame Spec_Posdef Spec_Run Spec_Run4
  Spec_Turn Spec_Turn4 Spec_Renumber Spec_Work Spec_Two Spec_Push Spec_Alone
  Proof_Minf3 Proof_Minf4 Proof_Posdef Proof_Posdef2 Proof_R2B4 Proof_Rotate3 Proof_Frame Proof_Run Proof_Run2 Proof_Output3 Proof_Runs2 Proof_Turn2 Proof_Turn3 Proof_Turn5 Proof_Work Proof_Work2 Proof_Work3 Proof_Two4 Proof_Two6
  Proof_Push1 Proof_Push2 Proof_Push3.
From Verif Require Proof_Rotate5.
Import ListNotations.
Local Open Scope R_scope.

Lemma lone_bead p : bead_sizes (posdata_of 1 0 p) 0%nat = c_ssizes p 0%nat.
Proof. reflexivity. Qed.
Lemma lone_room p : 0 < c_ssizes p 0%nat -> room 1 0 p.
Proof.
  intros H. split; [|split].
  - intros b Hb. cbn in Hb. assert (b = 0%nat) by lia. subst b. exact H.
  - intros b b' Hb Hb' Ne. cbn in Hb, Hb'. lia.
  - intros b Hb. cbn in Hb. assert (b = 0%nat) by lia. subst b. cbn. lra.
Qed.
Lemma lone_near sc table bb p cf mu G r t : 0 < cf -> 0 < c_ssizes p 0%nat -> generate_R2Bexact_free sc table bb (posdata_of 1 0 p) cf mu = Some G ->
  (r < 11 * 1 + 6 * 0)%nat -> (t < 11 * 1 + 6 * 0)%nat -> G r t = 0.
Proof.
  intros Hcf Ha E. apply (gen_free_none sc table bb (posdata_of 1 0 p) cf mu G r t Hcf); [|exact E|].
  - intros b Hb. cbn in Hb. assert (b = 0%nat) by lia. subst b. exact Ha.
  - intros b b' Hb Hb' Ne. cbn in Hb, Hb'. lia.
Qed.

(** The rows of the mobility matrix of one sphere. *)
Lemma lone_row bb q mu w u k i : k <> KB -> (i < ksize k)%nat -> linrel 11 (generate_Minfinity bb (posdata_of 1 0 q) mu) w u ->
  u (kstart 1 k 0 + i)%nat = rsum 3 (fun l => self_value k KU (c_ssizes q 0%nat) mu i l * w l)
    + rsum 3 (fun l => self_value k KO (c_ssizes q 0%nat) mu i l * w (3 + l)%nat) + rsum 5 (fun l => self_value k KS (c_ssizes q 0%nat) mu i l * w (6 + l)%nat).
Proof.
  intros Nk Hi HM. assert (R : (kstart 1 k 0 + i < 11)%nat) by (destruct k; try congruence; cbn [kstart ksize] in *; lia).
  rewrite (HM _ R). set (M := generate_Minfinity bb (posdata_of 1 0 q) mu).
  assert (S : forall k2 j, k2 <> KB -> (j < ksize k2)%nat -> M (kstart 1 k 0 + i)%nat (kstart 1 k2 0 + j)%nat = self_value k k2 (c_ssizes q 0%nat) mu i j).
  { intros k2 j N2 Hj. exact (self_at bb (posdata_of 1 0 q) mu k k2 0 i j Nk N2 (Nat.lt_0_succ 0) Hi Hj). }
  rewrite (rsum_ext 3 (fun l => self_value k KU _ _ _ _ * _) (fun l => M (kstart 1 k 0 + i)%nat (kstart 1 KU 0 + l)%nat * w l)) by (intros l Hl; rewrite S by (try discriminate; exact Hl); reflexivity).
  rewrite (rsum_ext 3 (fun l => self_value k KO _ _ _ _ * _) (fun l => M (kstart 1 k 0 + i)%nat (kstart 1 KO 0 + l)%nat * w (3 + l)%nat)) by (intros l Hl; rewrite S by (try discriminate; exact Hl); reflexivity).
  rewrite (rsum_ext 5 (fun l => self_value k KS _ _ _ _ * _) (fun l => M (kstart 1 k 0 + i)%nat (kstart 1 KS 0 + l)%nat * w (6 + l)%nat)) by (intros l Hl; rewrite S by (try discriminate; exact Hl); reflexivity).
  unfold rsum. cbn [kstart Nat.mul Nat.add]. ring.
Qed.

Lemma strain_kept l out j a b : keeps 0 1 l out -> length out = 1%nat -> j = 0%nat -> matof out j a b = strain_given l j a b.
Proof.
  intros K L ->. unfold strain_given, matof. rewrite (K 0%nat ltac:(lia)). destruct (nth_error out 0) as [r|] eqn:E; [rewrite (nth_error_nth out 0 [] E); reflexivity|].
  apply nth_error_None in E. lia.
Qed.
Theorem lone_answers bb q mu i L R0 o :
  0 < mu -> 0 < c_ssizes q 0%nat ->
  is_inv (11 * 1 + 6 * 0) (generate_Minfinity bb (posdata_of 1 0 q) mu) L ->
  (forall a b, (a < 11 * 1 + 6 * 0)%nat -> (b < 11 * 1 + 6 * 0)%nat -> R0 a b = L a b) ->
  answers 1 0 fte i R0 o -> symmetric_traceless (strain_given (i_Ea i) 0) ->
  let F := load (i_Fa i) 0 in let T := load (i_Ta i) 0 in let E := strain_given (i_Ea i) 0 in let a := c_ssizes q 0%nat in
  (forall l, (l < 3)%nat -> rowof (oUa o) 0 l = F l / (6 * PI * mu * a)) /\
  (forall l, (l < 3)%nat -> rowof (oOa o) 0 l = T l / (8 * PI * mu * a ^ 3)) /\
  (forall k l, matof (oEa o) 0 k l = E k l) /\ (forall l, rowof (oFa o) 0 l = F l) /\
  (forall k l, (k < 3)%nat -> (l < 3)%nat -> matof (oSa o) 0 k l = 20 / 3 * PI * mu * a ^ 3 * E k l).
Proof.
  intros Hmu Ha HL HE HA HS F T E a.
  destruct HA as ((L1 & L2 & L3) & (H1 & H2 & H3 & H4 & H5 & H6 & H7 & H8 & H9 & H10 & H11) & KT & KF & KE & _ & _).
  set (u := lvec (grand (oUa o) (oOa o) (oEa o) (oUb o) (oHDb o))) in *.
  set (w := lvec (grand (oFa o) (o_Ta o) (oSa o) (oFb o) (oDFb o))) in *.
  set (n := (11 * 1 + 6 * 0)%nat) in *.
  set (M := generate_Minfinity bb (posdata_of 1 0 q) mu) in *.
  assert (GU : forall k b c, kvalid 1 0 k b -> (c < ksize k)%nat -> u (kstart 1 k b + c)%nat = blk (oUa o) (oOa o) (oEa o) (oUb o) (oHDb o) 1 0 k b c).
  { intros k b c Hk Hc. apply grand_at; try assumption. apply H10. }
  assert (GF : forall k b c, kvalid 1 0 k b -> (c < ksize k)%nat -> w (kstart 1 k b + c)%nat = blk (oFa o) (o_Ta o) (oSa o) (oFb o) (oDFb o) 1 0 k b c).
  { intros k b c Hk Hc. apply grand_at; try assumption. apply H9. }
  assert (LM : linrel 11 M w u).
  { pose proof (is_inv_mvec n M L w u HL) as [_ I]. intros r Hr. apply I; [|exact Hr]. intros k Hk. rewrite (L3 k Hk). apply rsum_ext. intros c Hc. rewrite HE by assumption. reflexivity. }
  assert (V0 : forall k, k <> KB -> kvalid 1 0 k 0) by (intros k Nk; destruct k; cbn; congruence || lia).
  assert (KEv : forall k l, matof (oEa o) 0 k l = E k l) by (intros k l; exact (strain_kept _ _ 0 k l KE (proj1 H10) eq_refl)).
  assert (KFv : forall l, rowof (oFa o) 0 l = F l) by (intros l; exact (load_kept 1 _ _ 0 l KF H1 (Nat.lt_0_succ 0))).
  assert (KTv : forall l, rowof (o_Ta o) 0 l = T l) by (intros l; exact (load_kept 1 _ _ 0 l KT H2 (Nat.lt_0_succ 0))).
  pose proof PI_RGT_0 as HPI. assert (A3 : 0 < a ^ 3) by (apply pow_lt; exact Ha).
  assert (Z : forall k k2 b j, k <> KB -> k2 <> KB -> k <> k2 -> self_value k k2 a mu b j = 0) by (intros k k2 b j N1 N2 N3; destruct k, k2; congruence || reflexivity).
  split; [|split; [|split; [exact KEv|split; [exact KFv|]]]].
  - intros l Hl. pose proof (GU KU 0%nat l (V0 KU ltac:(discriminate)) Hl) as G. cbn [blk] in G. rewrite <- G.
    rewrite (lone_row bb q mu w u KU l ltac:(discriminate) Hl LM).
    rewrite (rsum_zero 3 (fun j => self_value KU KO _ _ _ _ * _)) by (intros j Hj; rewrite Z by discriminate; ring).
    rewrite (rsum_zero 5 (fun j => self_value KU KS _ _ _ _ * _)) by (intros j Hj; rewrite Z by discriminate; ring).
    rewrite (rsum_ext 3 _ (fun j => delta l j * (F j / (6 * PI * mu * a)))).
    2:{ intros j Hj. pose proof (GF KU 0%nat j (V0 KU ltac:(discriminate)) Hj) as Q. cbn [blk kstart Nat.mul Nat.add] in Q. rewrite Q, KFv. cbn [self_value]. fold a. unfold Rdiv. ring. }
    rewrite (rsum_delta_l 3 l (fun j => F j / (6 * PI * mu * a)) Hl). ring.
  - intros l Hl. pose proof (GU KO 0%nat l (V0 KO ltac:(discriminate)) Hl) as G. cbn [blk] in G. rewrite <- G.
    rewrite (lone_row bb q mu w u KO l ltac:(discriminate) Hl LM).
    rewrite (rsum_zero 3 (fun j => self_value KO KU _ _ _ _ * _)) by (intros j Hj; rewrite Z by discriminate; ring).
    rewrite (rsum_zero 5 (fun j => self_value KO KS _ _ _ _ * _)) by (intros j Hj; rewrite Z by discriminate; ring).
    rewrite (rsum_ext 3 _ (fun j => delta l j * (T j / (8 * PI * mu * a ^ 3)))).
    2:{ intros j Hj. pose proof (GF KO 0%nat j (V0 KO ltac:(discriminate)) Hj) as Q. cbn [blk kstart Nat.mul Nat.add] in Q. cbn [Nat.add]. rewrite Q, KTv. cbn [self_value]. fold a. unfold Rdiv. ring. }
    rewrite (rsum_delta_l 3 l (fun j => T j / (8 * PI * mu * a ^ 3)) Hl). ring.
  - apply (st_unique (matof (oSa o) 0) (fun k l => 20 / 3 * PI * mu * a ^ 3 * E k l)).
    + apply (matof_st 1); [exact H11|lia].
    + destruct HS as [S1 S2]. split; [intros k l Hk Hl; fold E in S1; rewrite (S1 k l Hk Hl); reflexivity|]. fold E in S2.
      transitivity (20 / 3 * PI * mu * a ^ 3 * (E 0%nat 0%nat + E 1%nat 1%nat + E 2%nat 2%nat)); [ring|rewrite S2; ring].
    + intros m Hm. pose proof (GF KS 0%nat m (V0 KS ltac:(discriminate)) Hm) as G. cbn [blk kstart Nat.mul Nat.add] in G.
      pose proof (GU KS 0%nat m (V0 KS ltac:(discriminate)) Hm) as G2. cbn [blk] in G2.
      rewrite (lone_row bb q mu w u KS m ltac:(discriminate) Hm LM) in G2.
      rewrite (rsum_zero 3 (fun j => self_value KS KU _ _ _ _ * _)) in G2 by (intros j Hj; rewrite Z by discriminate; ring).
      rewrite (rsum_zero 3 (fun j => self_value KS KO _ _ _ _ * _)) in G2 by (intros j Hj; rewrite Z by discriminate; ring).
      rewrite (rsum_ext 5 _ (fun j => delta m j * (w (6 + j)%nat / (20 / 3 * PI * mu * a ^ 3)))) in G2.
      2:{ intros j Hj. cbn [self_value]. fold a. unfold Rdiv. ring. }
      rewrite (rsum_delta_l 5 m (fun j => w (6 + j)%nat / (20 / 3 * PI * mu * a ^ 3)) Hm) in G2.
      cbn [Nat.add] in G2. rewrite G in G2.
      rewrite (Proof_Minf.condense_ext _ _ m (fun k l _ _ => KEv k l)) in G2.
      transitivity (20 / 3 * PI * mu * a ^ 3 * condense_idx E m).
      * rewrite <- G2. field. split; [|split]; apply Rgt_not_eq; assumption.
      * unfold condense_idx. rewrite <- rsum_scal_l. apply rsum_ext. intros k Hk. rewrite <- rsum_scal_l. apply rsum_ext. intros l Hl. ring.
Qed.

Section Runs.
Variable inv : nat -> mat -> mat.
Variable inv3 : mat -> mat.
Variable solve : nat -> mat -> list R -> list R.
Variable sc : nat -> nat -> R -> nat -> R.
Variable table : list R.
Variable h : nat.
Variable stale : nat -> nat -> R.
Variables bb mo : bool.
Variable cf : R.
Variable g : settings.
Variable input : config -> R -> res (inputs * flow).
Variable p0 : config.
Notation N := (g_num_frames g).
Hypothesis Hcf : 0 < cf.
Hypothesis Hinv : inverts_posdef inv.
Hypothesis Hsolve : solves_posdef solve.
Hypothesis Hd : g_use_drag g = false.
Hypothesis Hstart : g_start g = 0%nat.
Hypothesis Hbox : no_box_g g.
Hypothesis S1 : (0 < g_save_pos g)%nat.
Hypothesis S2 : (0 < g_save_forces g)%nat.
Hypothesis S3 : (g_save_after g mod g_save_pos g = 0)%nat.
Hypothesis S4 : (g_save_after g mod g_save_forces g = 0)%nat.
Hypothesis HI : forall p t i f, input p t = Ok (i, f) -> well_posed 1 0 fte i /\ symmetric_traceless (strain_given (i_Ea i) 0) /\ 0 < f_mu f /\ unbounded f.
Hypothesis Ha : 0 < c_ssizes p0 0%nat.
Variables (s : list snapshot) (fs : list fsnapshot).
Hypothesis E : full_simulation inv inv3 solve sc table h stale 1 0 fte false bb mo cf g input p0 = Ok (Some (s, fs)).
Hypothesis Hsch : g_scheme g = euler \/ g_scheme g = ab2.
Notation reach := (reached inv inv3 solve sc table h stale 1 0 fte false bb mo cf g input p0).

Lemma lone_quiet m st : run_frames inv3 1 0 (far_inverse inv h stale 1 0 bb g input) (solve_rest inv inv3 solve sc table h stale 1 0 fte false bb mo cf g input) g (fresh p0) (seq 0 m) = Ok st -> s_error st = false.
Proof. intros Est. exact (no_flag inv3 1 0 _ _ g (fresh p0) (or_intror eq_refl) eq_refl _ st Est). Qed.
Lemma lone_size m p : (m <= N)%nat -> reach m p -> c_ssizes p = c_ssizes p0.
Proof.
  intros Hm (st & Es & <-).
  exact (proj1 (sizes_kept inv inv3 solve sc table h stale 1 0 fte false bb mo cf g input p0 (Nat.lt_0_succ 0) Hstart Hsch (fun k sk _ Ek => lone_quiet k sk Ek) m st Hm Es)).
Qed.
Lemma lone_near_zero p f N0 : c_ssizes p = c_ssizes p0 -> unbounded f -> near_field inv3 sc table 1 0 bb mo cf p f N0 ->
  forall a b, (a < 11 * 1 + 6 * 0)%nat -> (b < 11 * 1 + 6 * 0)%nat -> N0 a b = 0.
Proof.
  intros Hp U B a b Hra Hrb. unfold near_field in B. destruct mo; [subst N0; reflexivity|].
  apply (lone_near sc table bb p cf (f_mu f) N0 a b Hcf); [rewrite Hp; exact Ha|exact (proj1 B U)|exact Hra|exact Hrb].
Qed.

Theorem lone_run : exists (pos : nat -> config) (inp : nat -> inputs) (fl : nat -> flow) (V W : nat -> vec) (frc : nat -> fsnapshot),
  pos 0%nat = p0 /\
  (forall m, (m < N)%nat -> input (pos m) (INR m) = Ok (inp m, fl m) /\
     exists k, latest_due 0 (g_invert_every g) m k /\ lone_frame g (f_mu (fl k)) (c_ssizes p0 0%nat) (inp m) (fl m) (c_spos (pos m) 0%nat) (V m) (W m) (frc m)) /\
  (forall m, (m < N)%nat ->
     let first := match g_scheme g with euler => true | _ => Nat.eqb m 0 end in
     let v := fun l => if first then V m l else 3 / 2 * V m l - 1 / 2 * V (m - 1)%nat l in
     let w := fun l => if first then W m l else 3 / 2 * W m l - 1 / 2 * W (m - 1)%nat l in
     let arm := fun p k => vsub (c_srot p 0%nat k) (c_spos p 0%nat) in
     (forall l, (l < 3)%nat -> c_spos (pos (S m)) 0%nat l = c_spos (pos m) 0%nat l + g_dt g * v l) /\
     forall k, inverts inv3 -> (exists l, (l < 3)%nat /\ arm (pos m) k l <> 0) ->
       forall l, (l < 3)%nat -> arm (pos (S m)) k l = rodrigues w (norm w * g_dt g) (arm (pos m) k) l) /\
  s = map (fun m => snap 1 (pos m)) (due_frames (g_save_pos g) (g_save_after g) N)
      ++ (if save_due (g_save_pos g) (g_save_after g) (N - 1) then [snap 1 (pos N)] else []) /\
  fs = map frc (due_frames (g_save_forces g) (g_save_after g) N).
Proof.
  assert (PD : forall m p mu, (m <= N)%nat -> reach m p -> 0 < mu -> pos_def (11 * 1 + 6 * 0) (generate_Minfinity bb (posdata_of 1 0 p) mu)).
  { intros m p mu Hm R Hmu. apply room_posdef; [|exact Hmu]. apply lone_room. rewrite (lone_size m p Hm R). exact Ha. }
  destruct (whole_run inv inv3 solve sc table h stale 1 0 fte false bb mo cf g input p0 Hinv Hsolve (Nat.lt_0_succ 0) eq_refl Hstart Hsch) with (s := s) (fs := fs)
    as (pos & fl & out & (P0 & PR) & P1 & P2 & P3); try assumption.
  { intros m st _ Est. exact (lone_quiet m st Est). }
  { intros m p i f _ _ Ei. apply (HI p _ i f Ei). }
  { intros m p i f M Hm _ R Ei FM. destruct (HI p _ i f Ei) as (_ & _ & Mu & U). rewrite (proj1 FM U). exact (PD m p (f_mu f) ltac:(lia) R Mu). }
  { intros m pos i f L N0 Hm R Ei A B. destruct (HI _ _ i f Ei) as (_ & _ & _ & U0).
    pose proof (lone_near_zero (pos m) f N0 (lone_size m (pos m) ltac:(lia) (R m (Nat.le_refl m))) U0 B) as Z.
    apply (pos_def_ext (11 * 1 + 6 * 0) L); [intros a b Hra Hrb; rewrite (Z a b Hra Hrb); ring|].
    unfold far_resistance in A. rewrite Hd in A. destruct A as (k & i' & f' & M & LD & E' & FM & IV).
    destruct (HI _ _ i' f' E') as (_ & _ & Mu & U). rewrite (proj1 FM U) in IV. assert (Hk : (k <= m)%nat) by apply LD.
    exact (pos_def_inv (11 * 1 + 6 * 0) _ L (PD k (pos k) (f_mu f') ltac:(lia) (R k Hk) Mu) IV). }
  set (inp := fun m => match input (pos m) (INR m) with Ok (i, _) => i | Raise _ => default_inputs fte 1 0 end).
  exists pos, inp, fl, (fun m => sphere_speed g (fl m) (out m) (pos m) 0%nat), (fun m => sphere_spin (fl m) (out m) 0%nat), (fun m => forces_of (out m)).
  split; [exact P0|]. split; [|split; [|split; [exact P2|exact P3]]].
  - intros m Hm. destruct (P1 m Hm) as [(i & L & N0 & A1 & A2 & A3 & A4) _].
    assert (EI : inp m = i) by (unfold inp; rewrite A1; reflexivity). rewrite EI. split; [exact A1|].
    unfold far_resistance in A2. rewrite Hd in A2. destruct A2 as (k & i' & f' & M & LD & E' & FM & IV).
    assert (Hk : (k <= m)%nat) by apply LD. exists k. split; [exact LD|].
    assert (EF : f' = fl k). { destruct (P1 k ltac:(lia)) as [(i2 & L2 & N2 & B1 & _) _]. rewrite E' in B1. injection B1 as _ B1. exact B1. }
    destruct (HI _ _ i' f' E') as (_ & _ & Mu & U). rewrite (proj1 FM U) in IV. rewrite EF in *.
    destruct (HI _ _ i (fl m) A1) as (_ & ST & _ & U0).
    pose proof (lone_near_zero (pos m) (fl m) N0 (lone_size m (pos m) ltac:(lia) (PR m ltac:(lia))) U0 A3) as Z.
    pose proof (lone_size k (pos k) ltac:(lia) (PR k ltac:(lia))) as SZ.
    destruct (lone_answers bb (pos k) (f_mu (fl k)) i L (fun a b => L a b + N0 a b) (out m) Mu) as (B1 & B2 & B3 & B4 & B5); try assumption.
    + rewrite SZ. exact Ha.
    + intros a b Hra Hrb. rewrite (Z a b Hra Hrb). ring.
    + rewrite SZ in B1, B2, B5. split.
      * intros l Hl. split; [|split].
        -- unfold sphere_speed. destruct (g_fully_2d g && Nat.eqb l 1)%bool; [reflexivity|]. rewrite (B1 l Hl). f_equal.
           unfold linear_flow, mvec, vadd. f_equal. apply rsum_ext. intros b Hb. rewrite B3. reflexivity.
        -- unfold sphere_spin. rewrite (B2 l Hl). reflexivity.
        -- exact (B4 l).
      * exact B5.
  - intros m Hm first v w arm. destruct (P1 m Hm) as [_ (_ & _ & M1 & _)]. cbv zeta in M1. destruct (M1 0%nat (Nat.lt_0_succ 0)) as (y & LX & X & XR).
    assert (EY : forall l, (l < 3)%nat -> c_spos (pos (S m)) 0%nat l = y l) by (intros l Hl; exact (landed_at inv3 g Hbox _ _ _ LX l Hl)).
    split.
    + intros l Hl. rewrite (EY l Hl). exact (X l Hl).
    + intros k I3 Hne l Hl. unfold arm. unfold vsub at 1. rewrite (EY l Hl). exact (XR k I3 Hne l Hl).
Qed.
End Runs.
