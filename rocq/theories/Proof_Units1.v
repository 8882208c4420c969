(** Matrices and answers in other units. *)
From Coq Require Import Reals List Arith Bool Lia Lra FunctionalExtensionality.
From Verif Require Import Base Py Model_Pack Model_Mob Model_Layout Model_Minf Model_Grand Model_Close Model_R2B Model_GrandP Model_Step
  Model_Output Model_Frame Model_Inputs Model_Sim
  Spec_Pack Spec_Layout Spec_Minf Spec_Convert Spec_Output Spec_Rotate Spec_Posdef Spec_Run Spec_Rescale Spec_Turn Spec_Units
  Proof_Pack Proof_Output Proof_Layout Proof_Posdef Proof_Minf Proof_Minf3 Proof_Minf4 Proof_R2B4 Proof_Rotate1 Proof_Rotate2 Proof_Rotate3 Proof_Rotate4 Proof_Rotate5 Proof_Rotate8
  Proof_Rescale1 Proof_Rescale2 Proof_Turn1 Proof_Turn2 Prop_Rescale Prop_Minf.
Import ListNotations.
Local Open Scope R_scope.

Section Units.
Variables lam ups kap : R.
Variable org : vec.
Hypothesis Hl : 0 < lam.
Hypothesis Hu : 0 < ups.
Hypothesis Hk : 0 < kap.
Variables Ns Nd : nat.
Notation n := (11 * Ns + 6 * Nd)%nat.
Notation w := (weight lam Ns).

(** Resistance matrices. *)
Definition resist_scaled (A A' : mat) : Prop := forall r c, (r < n)%nat -> (c < n)%nat -> A' r c = kap * (lam * w r * w c * A r c).

Lemma resist_add A A' B B' : resist_scaled A A' -> resist_scaled B B' -> resist_scaled (fun a b => A a b + B a b) (fun a b => A' a b + B' a b).
Proof. intros HA HB r c Hr Hc. rewrite (HA r c Hr Hc), (HB r c Hr Hc). ring. Qed.

(** Same action, same entries. *)
Lemma same_entries M M' : same_action Ns Nd M M' -> forall r c, (r < n)%nat -> (c < n)%nat -> M' r c = M r c.
Proof.
  intros H r c Hr Hc. specialize (H (fun t => delta t c) r Hr). unfold mvec in H.
  rewrite (rsum_delta_r n c (fun t => M' r t)) in H by exact Hc. rewrite (rsum_delta_r n c (fun t => M r t)) in H by exact Hc. exact H.
Qed.

(** The configuration that [config_scaled] describes, as a function. *)
Definition moved (x : vec) : vec := fun l => lam * x l + org l.
Definition blown (p : config) : config :=
  mkConfig (fun j => lam * c_ssizes p j) (fun j => moved (c_spos p j)) (fun j k => moved (c_srot p j k))
    (fun j => lam * c_dsizes p j) (fun j => moved (c_dpos p j)) (fun j => vscal lam (c_ddx p j)).
Lemma blown_posdata p : posdata_of Ns Nd (blown p) = translate org (rescaled lam (posdata_of Ns Nd p)).
Proof. reflexivity. Qed.
Lemma blown_one p p' : config_scaled lam org Ns Nd p p' -> config_turned one Ns Nd (blown p) p'.
Proof.
  intros (A & B & C & D & E). split; [exact A|]. split; [exact B|]. split; [|split].
  - intros j Hj l Hl0. rewrite one_rot by exact Hl0. apply C; assumption.
  - intros j k Hj Hk0 l Hl0. rewrite one_rot by exact Hl0. apply D; assumption.
  - intros d Hd. split; intros l Hl0; rewrite one_rot by exact Hl0; apply (E d Hd); exact Hl0.
Qed.

Section Config.
Variables p p' : config.
Hypothesis HC : config_scaled lam org Ns Nd p p'.
Notation P := (posdata_of Ns Nd p).
Notation P' := (posdata_of Ns Nd p').
Notation PB := (posdata_of Ns Nd (blown p)).

Lemma drag_units mu : resist_scaled (drag_Minfinity_inverse P mu) (drag_Minfinity_inverse P' (kap * mu)).
Proof.
  intros r c Hr Hc. rewrite (same_entries (drag_Minfinity_inverse PB (kap * mu))) by
    (try assumption; apply one_same, (drag_turned one one_orthogonal Ns Nd (blown p) p' (blown_one p p' HC))).
  replace (drag_Minfinity_inverse PB (kap * mu) r c) with (kap * drag_Minfinity_inverse (rescaled lam P) mu r c).
  - rewrite (blocks_resistance lam Ns Nd _ _ (drag_scaled lam P mu) r c Hr Hc). reflexivity.
  - rewrite blown_posdata. destruct (block_cover Ns Nd r Hr) as (k1 & p1 & i & V1 & Hi & ->).
    destruct (block_cover Ns Nd c Hc) as (k2 & p2 & j & V2 & Hj & ->).
    pose proof (drag_ent (rescaled lam P) mu k1 p1 k2 p2 i j V1 V2 Hi Hj) as E1.
    pose proof (drag_ent (translate org (rescaled lam P)) (kap * mu) k1 p1 k2 p2 i j V1 V2 Hi Hj) as E2.
    unfold ent in E1, E2. cbn [rescaled translate num_spheres posdata_of] in E1, E2.
    rewrite E1, E2. destruct (Nat.eqb _ _); [|ring].
    unfold drag_of. cbn [translate sphere_sizes dumbbell_sizes num_spheres num_dumbbells rescaled posdata_of]. destruct k1; ring.
Qed.

Hypothesis HA : apart_both lam Ns Nd p.
Notation nb := (Ns + 2 * Nd)%nat.

Lemma distinct_blown : distinct_beads nb (bead_positions PB) (bead_sizes PB).
Proof.
  destruct HA as (A & _ & X). rewrite blown_posdata.
  assert (EX : bead_positions (translate org (rescaled lam P)) = (fun b => vadd (vscal lam (bead_positions P b)) org)).
  { apply functional_extensionality. intros b. rewrite bead_positions_translate. rewrite (positions_fun lam). reflexivity. }
  rewrite EX. split.
  - intros b Hb. change (bead_sizes (translate org (rescaled lam P)) b) with (bead_sizes (rescaled lam P) b). rewrite (sizes_fun lam).
    specialize (A b Hb). nra.
  - intros a b Ha Hb Nq. replace (vsub (vadd (vscal lam (bead_positions P a)) org) (vadd (vscal lam (bead_positions P b)) org))
      with (vsub (vscal lam (bead_positions P a)) (vscal lam (bead_positions P b))).
    + apply e8_tiny. apply X; assumption.
    + apply functional_extensionality. intros l. unfold vsub, vadd. ring.
Qed.

Lemma far_units bb mu I I' : mu <> 0 ->
  is_inv n (generate_Minfinity bb P mu) I -> is_inv n (generate_Minfinity bb P' (kap * mu)) I' -> resist_scaled I I'.
Proof.
  intros Hmu HI HI'.
  assert (E : mobility_rescaled lam Ns n (generate_Minfinity bb P (kap * mu)) (generate_Minfinity bb P' (kap * mu))).
  { intros r c Hr Hc. rewrite (same_entries (generate_Minfinity bb PB (kap * mu))) by
      (try assumption; apply one_same, (far_turned one one_orthogonal Ns Nd (blown p) p' (blown_one p p' HC) distinct_blown)).
    rewrite blown_posdata, gen_translate. destruct HA as (A & X & X').
    refine (C66_far_field lam bb P (kap * mu) Hl _ A X _ r c Hr Hc); [nra|]. rewrite (positions_fun lam). exact X'. }
  assert (J : is_inv n (generate_Minfinity bb P (kap * mu)) (fun r c => kap * I r c)).
  { assert (G : forall r c, (r < n)%nat -> (c < n)%nat -> generate_Minfinity bb P (kap * mu) r c = / kap * generate_Minfinity bb P mu r c)
      by (intros r c Hr Hc; apply (gen_mu bb P mu kap r c Hr Hc)).
    intros i j Hi Hj. destruct (HI i j Hi Hj) as [B1 B2]. split.
    - rewrite <- B1. unfold mmul. apply rsum_ext. intros k Hk0. rewrite G by assumption. field. lra.
    - rewrite <- B2. unfold mmul. apply rsum_ext. intros k Hk0. rewrite G by assumption. field. lra. }
  intros r c Hr Hc. rewrite (inv_scaled lam Hl Ns n _ _ _ _ E J HI' r c Hr Hc). ring.
Qed.

Lemma near_units sc table bb cf mu G G' : 0 < cf ->
  generate_R2Bexact_free sc table bb P cf mu = Some G -> generate_R2Bexact_free sc table bb P' cf (kap * mu) = Some G' -> resist_scaled G G'.
Proof.
  intros Hcf HG HG'. pose proof HA as (A & X & _).
  assert (V : forall q, generate_R2Bexact_free sc table bb q cf (kap * mu) =
     match generate_R2Bexact_free sc table bb q cf mu with Some G => Some (mscal kap G) | None => None end)
    by (intros q; apply r2b_viscosity).
  pose proof (C66_near_field lam sc table bb P cf mu Hl Hcf A X) as K. cbv zeta in K. rewrite HG in K.
  destruct (generate_R2Bexact_free sc table bb (rescaled lam P) cf mu) as [G1|] eqn:E1; [|contradiction].
  assert (EB : generate_R2Bexact_free sc table bb PB cf (kap * mu) = Some (mscal kap G1)) by (rewrite blown_posdata, r2b_translate, V, E1; reflexivity).
  intros r c Hr Hc.
  rewrite (same_entries (mscal kap G1)) by
    (try assumption; apply one_same, (near_turned one one_orthogonal Ns Nd (blown p) p' (blown_one p p' HC) distinct_blown sc table bb cf (kap * mu) _ _ Hcf EB HG')).
  unfold mscal. rewrite (K r c Hr Hc). reflexivity.
Qed.
End Config.

(** ** Answers *)
Notation kw := (kw lam).
Notation phi := (force_unit lam ups kap).
Definition st_ (k : kind) (s : R) (g g' : nat -> R) : Prop := forall c, (c < ksize k)%nat -> g' c = s * g c.
Lemma cond_scal s A A' : mat_times s A A' -> st_ KS s (condense_idx A) (condense_idx A').
Proof.
  intros H c Hc. unfold condense_idx. rewrite <- rsum_scal_l. apply rsum_ext. intros a Ha. rewrite <- rsum_scal_l. apply rsum_ext. intros b Hb.
  rewrite (H a b Ha Hb). ring.
Qed.
Lemma scal_cond s A A' : st A -> st A' -> st_ KS s (condense_idx A) (condense_idx A') -> mat_times s A A'.
Proof.
  intros S S' H a b Ha Hb. rewrite <- (tensor_condense A' a b S' Ha Hb), <- (tensor_condense A a b S Ha Hb).
  rewrite (tensor_ext _ (fun m => s * condense_idx A m)) by exact H. unfold tensor_of, get2, uncondense1. idx3 Ha; idx3 Hb; cbn [nth]; unfold Rdiv; ring.
Qed.

Notation oFa := Model_Output.o_Fa.
Notation oSa := Model_Output.o_Sa.
Notation oFb := Model_Output.o_Fb.
Notation oDFb := Model_Output.o_DFb.
Notation oUa := Model_Output.o_Ua.
Notation oOa := Model_Output.o_Oa.
Notation oEa := Model_Output.o_Ea.
Notation oUb := Model_Output.o_Ub.
Notation oHDUb := Model_Output.o_HalfDUb.

Definition outputs_scaled (o o' : outputs) : Prop :=
  (forall j, (j < Ns)%nat -> vec_times phi (rowof (oFa o) j) (rowof (oFa o') j) /\ vec_times (phi * lam) (rowof (o_Ta o) j) (rowof (o_Ta o') j) /\
     mat_times (phi * lam) (matof (oSa o) j) (matof (oSa o') j) /\
     vec_times ups (rowof (oUa o) j) (rowof (oUa o') j) /\ vec_times (ups / lam) (rowof (oOa o) j) (rowof (oOa o') j) /\
     mat_times (ups / lam) (matof (oEa o) j) (matof (oEa o') j)) /\
  (forall d, (d < Nd)%nat -> vec_times phi (rowof (oFb o) d) (rowof (oFb o') d) /\ vec_times phi (rowof (oDFb o) d) (rowof (oDFb o') d) /\
     vec_times ups (rowof (oUb o) d) (rowof (oUb o') d) /\ vec_times ups (rowof (oHDUb o) d) (rowof (oHDUb o') d)).

Section Two.
Variables fm : form.
Variables i i' : inputs.
Variables R0 R0' : mat.
Variables o o' : outputs.
Hypothesis HI : inputs_scaled lam ups kap i i'.
Hypothesis HA : answers Ns Nd fm i R0 o.
Hypothesis HA' : answers Ns Nd fm i' R0' o'.

Ltac shapes :=
  pose proof (proj1 (proj2 HA)) as SH; pose proof (proj1 (proj2 HA')) as SH'; unfold of_shape in SH, SH';
  destruct SH as (s1 & s2 & s3 & s4 & s5 & s6 & s7 & s8 & (s9 & s10) & (s11 & s12) & s13);
  destruct SH' as (z1 & z2 & z3 & z4 & z5 & z6 & z7 & z8 & (z9 & z10) & (z11 & z12) & z13).

Lemma tensors_sts j : (j < Ns)%nat -> st (matof (oSa o) j) /\ st (matof (oSa o') j) /\ st (matof (oEa o) j) /\ st (matof (oEa o') j).
Proof.
  intros Hj. shapes. destruct HI as (_ & _ & _ & _ & _ & _ & _ & _ & _ & G1 & G2 & G3 & G4).
  destruct HA as (_ & _ & _ & K). destruct HA' as (_ & _ & _ & K').
  destruct fm; try contradiction; destruct K as (_ & K & _); destruct K' as (_ & K' & _);
    (split; [|split; [|split]]; try (apply (matof_st Ns); assumption)).
  - apply sym_st, G1. apply (kept_in _ 0 Ns); [exact K|lia|lia].
  - apply sym_st, G2. apply (kept_in _ 0 Ns); [exact K'|lia|lia].
  - apply sym_st, G3. apply (kept_in _ 0 Ns); [exact K|lia|lia].
  - apply sym_st, G4. apply (kept_in _ 0 Ns); [exact K'|lia|lia].
  - apply sym_st, G3. apply (kept_in _ 0 Ns); [exact K|lia|lia].
  - apply sym_st, G4. apply (kept_in _ 0 Ns); [exact K'|lia|lia].
  - apply sym_st, G3. apply (kept_in _ 0 Ns); [exact K|lia|lia].
  - apply sym_st, G4. apply (kept_in _ 0 Ns); [exact K'|lia|lia].
Qed.

(** In each block velocities or forces are prescribed. *)
Lemma prescribed_s k p : kvalid Ns Nd k p ->
  st_ k (ups / kw k) (vel Ns Nd o k p) (vel Ns Nd o' k p) \/ st_ k (phi * kw k) (frc Ns Nd o k p) (frc Ns Nd o' k p).
Proof.
  intros V. shapes. destruct HI as (IF & IT & IS & IB & ID & IU & IE & IUb & IH & G1 & G2 & G3 & G4).
  assert (LFa : length (oFa o) = Ns) by apply s1. assert (LFa' : length (oFa o') = Ns) by apply z1.
  assert (LTa : length (o_Ta o) = Ns) by apply s2. assert (LTa' : length (o_Ta o') = Ns) by apply z2.
  assert (LFb : length (oFb o) = Nd) by apply s3. assert (LFb' : length (oFb o') = Nd) by apply z3.
  assert (LD : length (oDFb o) = Nd) by apply s4. assert (LD' : length (oDFb o') = Nd) by apply z4.
  assert (LUa : length (oUa o) = Ns) by apply s5. assert (LUa' : length (oUa o') = Ns) by apply z5.
  assert (LUb : length (oUb o) = Nd) by apply s7. assert (LUb' : length (oUb o') = Nd) by apply z7.
  assert (LH : length (oHDUb o) = Nd) by apply s8. assert (LH' : length (oHDUb o') = Nd) by apply z8.
  destruct HA as (_ & _ & KT & K). destruct HA' as (_ & _ & KT' & K').
  assert (U1 : ups / 1 = ups) by field. assert (F1 : phi * 1 = phi) by ring.
  unfold vel, frc, blk. destruct k; cbn [kvalid Proof_Rescale1.kw] in *; rewrite ?U1, ?F1.
  - (* spheres, linear *)
    assert (HF : keeps 0 Ns (i_Fa i) (oFa o) -> keeps 0 Ns (i_Fa i') (oFa o') -> st_ KU phi (rowof (oFa o) p) (rowof (oFa o') p)).
    { intros A B. exact (kept_turned _ _ _ _ _ _ _ _ _ [] p IF A B ltac:(lia) ltac:(lia) ltac:(lia) ltac:(lia)). }
    assert (HS : (exists nfix, rest_missing Ns nfix (i_Ua i) /\ keeps 0 nfix (i_Ua i) (oUa o) /\ keeps nfix Ns (i_Fa i) (oFa o)) ->
       (exists nfix, rest_missing Ns nfix (i_Ua i') /\ keeps 0 nfix (i_Ua i') (oUa o') /\ keeps nfix Ns (i_Fa i') (oFa o')) ->
       st_ KU ups (rowof (oUa o) p) (rowof (oUa o') p) \/ st_ KU phi (rowof (oFa o) p) (rowof (oFa o') p)).
    { intros (k & A1 & A2 & A3) (k' & B1 & B2 & B3).
      pose proof (same_switch _ _ _ _ _ _ _ _ IU A1 B1 A2 B2 LUa LUa' p V) as SW.
      destruct (Nat.lt_ge_cases p k) as [C|C]; [left|right].
      - exact (kept_turned _ _ _ _ _ _ _ _ _ [] p IU A2 B2 ltac:(lia) ltac:(lia) ltac:(lia) ltac:(lia)).
      - exact (kept_turned _ _ _ _ _ _ _ _ _ [] p IF A3 B3 ltac:(lia) ltac:(lia) ltac:(lia) ltac:(lia)). }
    destruct fm; try contradiction; destruct K as (K & _); destruct K' as (K' & _); auto.
  - (* spheres, angular *)
    right. exact (kept_turned _ _ _ _ _ _ _ _ _ [] p IT KT KT' ltac:(lia) ltac:(lia) ltac:(lia) ltac:(lia)).
  - (* tensors *)
    destruct fm; try contradiction; destruct K as (_ & K & _); destruct K' as (_ & K' & _); [right|left|left|left]; apply cond_scal;
      [exact (kept_turned _ _ _ _ _ _ _ _ _ [] p IS K K' ltac:(lia) ltac:(lia) ltac:(lia) ltac:(lia))
      |exact (kept_turned _ _ _ _ _ _ _ _ _ [] p IE K K' ltac:(lia) ltac:(lia) ltac:(lia) ltac:(lia))..].
  - (* dumbbells *)
    assert (HF : keeps 0 Nd (i_Fb i) (oFb o) /\ keeps 0 Nd (i_DFb i) (oDFb o) -> keeps 0 Nd (i_Fb i') (oFb o') /\ keeps 0 Nd (i_DFb i') (oDFb o') ->
      st_ KB phi (if Nat.ltb (p - Ns) Nd then rowof (oFb o) (p - Ns) else rowof (oDFb o) (p - Ns - Nd))
            (if Nat.ltb (p - Ns) Nd then rowof (oFb o') (p - Ns) else rowof (oDFb o') (p - Ns - Nd))).
    { intros [A1 A2] [B1 B2]. destruct (Nat.ltb_spec (p - Ns) Nd).
      - exact (kept_turned _ _ _ _ _ _ _ _ _ [] (p - Ns) IB A1 B1 ltac:(lia) ltac:(lia) ltac:(lia) ltac:(lia)).
      - exact (kept_turned _ _ _ _ _ _ _ _ _ [] (p - Ns - Nd) ID A2 B2 ltac:(lia) ltac:(lia) ltac:(lia) ltac:(lia)). }
    destruct fm; try contradiction; destruct K as (_ & _ & K); destruct K' as (_ & _ & K'); try (right; apply HF; assumption).
    destruct K as (k & A1 & A2 & A3 & A4 & A5). destruct K' as (k' & B1 & B2 & B3 & B4 & B5).
    destruct (Nat.ltb_spec (p - Ns) Nd) as [C|C].
    + pose proof (same_switch _ _ _ _ _ _ _ _ IUb A1 B1 A2 B2 LUb LUb' (p - Ns) C) as SW.
      destruct (Nat.lt_ge_cases (p - Ns) k) as [E|E]; [left|right].
      * exact (kept_turned _ _ _ _ _ _ _ _ _ [] (p - Ns) IUb A2 B2 ltac:(lia) ltac:(lia) ltac:(lia) ltac:(lia)).
      * exact (kept_turned _ _ _ _ _ _ _ _ _ [] (p - Ns) IB A3 B3 ltac:(lia) ltac:(lia) ltac:(lia) ltac:(lia)).
    + pose proof (same_switch _ _ _ _ _ _ _ _ IUb A1 B1 A2 B2 LUb LUb' (p - Ns - Nd) ltac:(lia)) as SW.
      destruct (Nat.lt_ge_cases (p - Ns - Nd) k) as [E|E]; [left|right].
      * exact (kept_turned _ _ _ _ _ _ _ _ _ [] (p - Ns - Nd) IH A4 B4 ltac:(lia) ltac:(lia) ltac:(lia) ltac:(lia)).
      * exact (kept_turned _ _ _ _ _ _ _ _ _ [] (p - Ns - Nd) ID A5 B5 ltac:(lia) ltac:(lia) ltac:(lia) ltac:(lia)).
Qed.

Hypothesis HC : resist_scaled R0 R0'.
Hypothesis HP : pos_def n R0'.

Lemma blocks_s k p : kvalid Ns Nd k p ->
  st_ k (ups / kw k) (vel Ns Nd o k p) (vel Ns Nd o' k p) /\ st_ k (phi * kw k) (frc Ns Nd o k p) (frc Ns Nd o' k p).
Proof.
  shapes. destruct HA as ((_ & _ & L) & _). destruct HA' as ((_ & _ & L') & _).
  set (u := lvec (grand (oUa o) (oOa o) (oEa o) (oUb o) (oHDUb o))) in *.
  set (f := lvec (grand (oFa o) (o_Ta o) (oSa o) (oFb o) (oDFb o))) in *.
  set (u' := lvec (grand (oUa o') (oOa o') (oEa o') (oUb o') (oHDUb o'))) in *.
  set (f' := lvec (grand (oFa o') (o_Ta o') (oSa o') (oFb o') (oDFb o'))) in *.
  assert (Au : forall k p c, kvalid Ns Nd k p -> (c < ksize k)%nat -> u (kstart Ns k p + c)%nat = vel Ns Nd o k p c)
    by (intros; apply grand_at; assumption).
  assert (Af : forall k p c, kvalid Ns Nd k p -> (c < ksize k)%nat -> f (kstart Ns k p + c)%nat = frc Ns Nd o k p c)
    by (intros; apply grand_at; assumption).
  assert (Au' : forall k p c, kvalid Ns Nd k p -> (c < ksize k)%nat -> u' (kstart Ns k p + c)%nat = vel Ns Nd o' k p c)
    by (intros; apply grand_at; assumption).
  assert (Af' : forall k p c, kvalid Ns Nd k p -> (c < ksize k)%nat -> f' (kstart Ns k p + c)%nat = frc Ns Nd o' k p c)
    by (intros; apply grand_at; assumption).
  clearbody u f u' f'.
  assert (WP : forall r, 0 < w r) by (intros; apply weight_pos; exact Hl).
  assert (LT : linrel n R0' (fun r => ups / w r * u r) (fun r => phi * w r * f r)).
  { intros r Hr. rewrite (L r Hr). unfold mvec. rewrite <- rsum_scal_l. apply rsum_ext. intros s Hs. rewrite (HC r s Hr Hs). unfold force_unit. field.
    apply Rgt_not_eq, WP. }
  assert (E : forall r, (r < n)%nat -> ups / w r * u r = u' r /\ phi * w r * f r = f' r).
  { apply (unique_or n R0' (fun r => ups / w r * u r) (fun r => phi * w r * f r)); try assumption.
    intros r Hr. destruct (block_cover Ns Nd r Hr) as (k0 & p0 & c & V & Hc & ->).
    rewrite (weight_at lam Ns Nd), Au, Af, Au', Af' by assumption.
    destruct (prescribed_s k0 p0 V) as [A|A]; [left|right]; symmetry; apply A; exact Hc. }
  intros V. split; intros c Hc.
  - rewrite <- Au', <- Au by assumption. rewrite <- (weight_at lam Ns Nd k p c V Hc). symmetry. apply E. apply block_range; assumption.
  - rewrite <- Af', <- Af by assumption. rewrite <- (weight_at lam Ns Nd k p c V Hc). symmetry. apply E. apply block_range; assumption.
Qed.

Lemma answers_scaled : outputs_scaled o o'.
Proof.
  assert (U1 : ups / 1 = ups) by field. assert (F1 : phi * 1 = phi) by ring.
  split.
  - intros j Hj. destruct (tensors_sts j Hj) as (T1 & T2 & T3 & T4).
    destruct (blocks_s KU j Hj) as [A1 A2]. destruct (blocks_s KO j Hj) as [B1 B2]. destruct (blocks_s KS j Hj) as [C1 C2].
    cbn [vel frc blk Proof_Rescale1.kw] in *. rewrite U1 in A1. rewrite F1 in A2.
    split; [exact A2|]. split; [exact B2|]. split; [exact (scal_cond _ _ _ T1 T2 C2)|]. split; [exact A1|]. split; [exact B1|]. exact (scal_cond _ _ _ T3 T4 C1).
  - intros d Hd.
    destruct (blocks_s KB (Ns + d) ltac:(cbn [kvalid]; lia)) as [A1 A2].
    destruct (blocks_s KB (Ns + Nd + d) ltac:(cbn [kvalid]; lia)) as [B1 B2].
    unfold vel, frc, blk in *. cbn [Proof_Rescale1.kw] in *. rewrite U1 in A1, B1. rewrite F1 in A2, B2.
    replace (Ns + d - Ns)%nat with d in * by lia. replace (Ns + Nd + d - Ns)%nat with (Nd + d)%nat in * by lia.
    replace (Nd + d - Nd)%nat with d in * by lia.
    destruct (Nat.ltb_spec d Nd); [|lia]. destruct (Nat.ltb_spec (Nd + d) Nd); [lia|]. repeat split; assumption.
Qed.
End Two.

(** Strain of the background flow as given. *)
Definition strainless (o : outputs) : Prop := forall j a b, (j < Ns)%nat -> (a < 3)%nat -> (b < 3)%nat -> matof (oEa o) j a b = 0.
Lemma answers_strainless fm i R0 o : no_strain fm i -> answers Ns Nd fm i R0 o -> strainless o.
Proof.
  intros [NF NS] HA j a b Hj Ha Hb. pose proof (proj1 (proj2 HA)) as SH. unfold of_shape in SH.
  destruct SH as (_ & _ & _ & _ & _ & _ & _ & _ & _ & (LE & _) & _). destruct HA as (_ & _ & _ & K).
  assert (KE : keeps 0 Ns (i_Ea i) (oEa o)) by (destruct fm; try contradiction; try congruence; apply K).
  apply (NS (nth j (oEa o) [])); [|assumption..]. apply (kept_in _ 0 Ns); [exact KE|lia|lia].
Qed.
End Units.
