(** Two equal spheres pulled alike keep their separation. *)
From Coq Require Import Reals List Arith ZArith Bool Lia Lra FunctionalExtensionality.
From Verif Require Import Base Py Model_Pack Model_Mob Model_Layout Model_Minf Model_Grand Model_Close Model_R2B Model_GrandP Model_Step
  Model_Output Model_Frame Model_Inputs Model_Sim
  Spec_Pack Spec_Convert Spec_Output Spec_Layout Spec_Minf Spec_Rotate Spec_Close Spec_R2B Spec_Step Spec_Frame Spec_Posdef Spec_Run Spec_Run4
  Spec_Turn Spec_Turn4 Spec_Renumber Spec_Work Spec_Pair
  Proof_Pack Proof_Output Proof_Layout Proof_Posdef Proof_Minf Proof_Minf3 Proof_R2B4 Proof_Rotate1 Proof_Rotate2 Proof_Rotate3 Proof_Rotate4 Proof_Rotate5 Proof_Rotate8
  Proof_Frame Proof_Run2 Proof_Run4 Proof_Turn1 Proof_Turn2 Proof_Turn3 Proof_Renumber1 Proof_Renumber2 Proof_Renumber4 Proof_Work Proof_Work2.
Import ListNotations.
Local Open Scope R_scope.

(** ** Renumbered, turned and multiplied answers *)
Section Flip.
Variable Q : mat.
Hypothesis HQ : orthogonal Q.
Variables s t : nat -> nat.
Variables Ns Nd : nat.
Hypothesis Hs : permutes Ns s.
Hypothesis Ht : permutes Nd t.
Notation n := (11 * Ns + 6 * Nd)%nat.
Notation br := (bead_relabel s t Ns Nd).
Notation bt := (bt Q).
Notation frc := (frc Ns Nd).
Notation vel := (vel Ns Nd).
Notation comp := (comp s t Ns Nd).
Variable e : R.
Variables fm : form.
Variables i i' : inputs.
Variables R0 R0' : mat.
Variables o o' : outputs.
Hypothesis HA : answers Ns Nd fm i R0 o.
Hypothesis HA' : answers Ns Nd fm i' R0' o'.
Hypothesis HC : follows Q s t Ns Nd R0 R0'.
Hypothesis HP : pos_def n R0'.
Hypothesis Hpre : forall k p, kvalid Ns Nd k p ->
  bt k (fun c => e * vel o k (br p) c) (vel o' k p) \/ bt k (fun c => e * frc o k (br p) c) (frc o' k p).

Lemma blocks_flipped k p : kvalid Ns Nd k p -> bt k (fun c => e * vel o k (br p) c) (vel o' k p) /\ bt k (fun c => e * frc o k (br p) c) (frc o' k p).
Proof.
  pose proof (proj1 (proj2 HA)) as SH. pose proof (proj1 (proj2 HA')) as SH'. unfold of_shape in SH, SH'.
  destruct SH as (s1 & s2 & s3 & s4 & s5 & s6 & s7 & s8 & (s9 & s10) & (s11 & s12) & s13).
  destruct SH' as (z1 & z2 & z3 & z4 & z5 & z6 & z7 & z8 & (z9 & z10) & (z11 & z12) & z13).
  destruct HA as ((_ & _ & L) & _). destruct HA' as ((_ & _ & L') & _).
  set (u := lvec (grand (oUa o) (oOa o) (oEa o) (oUb o) (oHDb o))) in *.
  set (f := lvec (grand (oFa o) (o_Ta o) (oSa o) (oFb o) (oDFb o))) in *.
  set (u' := lvec (grand (oUa o') (oOa o') (oEa o') (oUb o') (oHDb o'))) in *.
  set (f' := lvec (grand (oFa o') (o_Ta o') (oSa o') (oFb o') (oDFb o'))) in *.
  set (uc := fun r => e * u (comp r)). set (fc := fun r => e * f (comp r)).
  assert (Au : forall k p c, kvalid Ns Nd k p -> (c < ksize k)%nat -> uc (kstart Ns k p + c)%nat = e * vel o k (br p) c).
  { intros k0 p0 c V Hc. unfold uc. rewrite (comp_block s t Ns Nd) by assumption. f_equal. apply grand_at; try assumption. apply (br_ok s t Ns Nd Hs Ht). exact V. }
  assert (Af : forall k p c, kvalid Ns Nd k p -> (c < ksize k)%nat -> fc (kstart Ns k p + c)%nat = e * frc o k (br p) c).
  { intros k0 p0 c V Hc. unfold fc. rewrite (comp_block s t Ns Nd) by assumption. f_equal. apply grand_at; try assumption. apply (br_ok s t Ns Nd Hs Ht). exact V. }
  assert (Au' : forall k p c, kvalid Ns Nd k p -> (c < ksize k)%nat -> u' (kstart Ns k p + c)%nat = vel o' k p c)
    by (intros; apply grand_at; assumption).
  assert (Af' : forall k p c, kvalid Ns Nd k p -> (c < ksize k)%nat -> f' (kstart Ns k p + c)%nat = frc o' k p c)
    by (intros; apply grand_at; assumption).
  assert (Lc : linrel n (permuted s t Ns Nd R0) uc fc).
  { intros r Hr. unfold fc. pose proof (comp_permutes s t Ns Nd Hs Ht) as HPc.
    transitivity (e * mvec n R0 u (comp r)); [f_equal; apply L; apply (proj1 HPc); exact Hr|].
    unfold mvec, permuted, uc. rewrite <- (rsum_perm n comp (fun c => R0 (comp r) c * u c) HPc). rewrite <- rsum_scal_l. apply rsum_ext. intros; ring. }
  clearbody uc fc u' f'. clear L u f.
  assert (Tu : forall k p c, kvalid Ns Nd k p -> (c < ksize k)%nat ->
     turn_vec Q Ns uc (kstart Ns k p + c)%nat = rsum (ksize k) (fun a => tmat Q k c a * (e * vel o k (br p) a))).
  { intros k0 p0 c V Hc. rewrite (turn_at Q Ns Nd) by assumption. apply rsum_ext. intros a Ha. rewrite Au by assumption. reflexivity. }
  assert (Tf : forall k p c, kvalid Ns Nd k p -> (c < ksize k)%nat ->
     turn_vec Q Ns fc (kstart Ns k p + c)%nat = rsum (ksize k) (fun a => tmat Q k c a * (e * frc o k (br p) a))).
  { intros k0 p0 c V Hc. rewrite (turn_at Q Ns Nd) by assumption. apply rsum_ext. intros a Ha. rewrite Af by assumption. reflexivity. }
  assert (LT : linrel n R0' (turn_vec Q Ns uc) (turn_vec Q Ns fc)).
  { intros r Hr. transitivity (turn_vec Q Ns (mvec n (permuted s t Ns Nd R0) uc) r).
    - apply (turn_ext Q Ns Nd); [|exact Hr]. intros x Hx. apply Lc. exact Hx.
    - symmetry. apply HC. exact Hr. }
  assert (E : forall r, (r < n)%nat -> turn_vec Q Ns uc r = u' r /\ turn_vec Q Ns fc r = f' r).
  { apply (unique_or n R0'); try assumption. intros r Hr. destruct (block_cover Ns Nd r Hr) as (k0 & p0 & c & V & Hc & ->).
    rewrite Tu, Tf, Au', Af' by assumption. destruct (Hpre k0 p0 V) as [A|A]; [left|right]; symmetry; apply A; exact Hc. }
  intros V. split; intros c Hc; [rewrite <- Au', <- Tu by assumption|rewrite <- Af', <- Tf by assumption]; symmetry; apply E;
    apply block_range; assumption.
Qed.
End Flip.

(** ** Two spheres *)
Definition flip2 (j : nat) : nat := match j with 0 => 1 | 1 => 0 | _ => j end%nat.
Lemma flip2_permutes : permutes 2 flip2.
Proof.
  split.
  - intros j Hj. destruct j as [|[|j]]; cbn; lia.
  - intros a b Ha Hb. destruct a as [|[|a]], b as [|[|b]]; cbn; lia.
Qed.
Lemma none_permutes : permutes 0 (fun d => d).
Proof. split; intros; lia. Qed.
Notation folw := (follows inversion flip2 (fun d => d) 2 0).

(** The sizes and the separation of the spheres. *)
Section Pair.
Variables sizes dsizes : nat -> R.
Hypothesis Hsz : sizes 0%nat = sizes 1%nat.
Variable sep : vec.
Definition paired (p : config) : Prop :=
  c_ssizes p = sizes /\ c_dsizes p = dsizes /\ forall l, (l < 3)%nat -> c_spos p 1%nat l - c_spos p 0%nat l = sep l.

(** [p'] moved onto the reflection of [p]. *)
Definition onto (p p' : config) : config :=
  mkConfig (c_ssizes p') (fun j => vadd (c_spos p' j) (fun l => - c_spos p 1%nat l - c_spos p' 0%nat l))
    (fun j k => vopp (c_srot p (flip2 j) k)) (c_dsizes p')
    (fun d => vadd (c_dpos p' d) (fun l => - c_spos p 1%nat l - c_spos p' 0%nat l)) (c_ddx p').
Lemma onto_posdata p p' : posdata_of 2 0 (onto p p') = translate (fun l => - c_spos p 1%nat l - c_spos p' 0%nat l) (posdata_of 2 0 p').
Proof. reflexivity. Qed.
Lemma onto_renumbered p p' : paired p -> paired p' -> config_renumbered inversion flip2 (fun d => d) 2 0 p (onto p p').
Proof.
  intros (A1 & A2 & A3) (B1 & B2 & B3). split; [|split; [|split]]; cbn [onto c_ssizes c_spos c_srot c_dsizes c_dpos c_ddx].
  - intros j. rewrite A1, B1. destruct j as [|[|j]]; cbn [flip2]; congruence.
  - intros d. rewrite A2, B2. reflexivity.
  - intros j Hj. split.
    + intros l Hl. rewrite inversion_rot by exact Hl. unfold vadd. specialize (A3 l Hl). specialize (B3 l Hl).
      destruct j as [|[|j]]; cbn [flip2]; [| |lia]; lra.
    + intros k Hk l Hl. rewrite inversion_rot by exact Hl. reflexivity.
  - intros d Hd. lia.
Qed.

Notation distinct c := (distinct_beads 2 (bead_positions (posdata_of 2 0 c)) (bead_sizes (posdata_of 2 0 c))).
Lemma far_paired p p' bb mu : paired p -> paired p' -> distinct p ->
  folw (generate_Minfinity bb (posdata_of 2 0 p) mu) (generate_Minfinity bb (posdata_of 2 0 p') mu).
Proof.
  intros H H' HD.
  pose proof (far_renumbered inversion inversion_orthogonal flip2 (fun d => d) 2 0 flip2_permutes none_permutes p (onto p p') (onto_renumbered p p' H H') HD bb mu) as K.
  rewrite onto_posdata, gen_translate in K. exact K.
Qed.
Lemma drag_paired p p' mu : paired p -> paired p' ->
  folw (drag_Minfinity_inverse (posdata_of 2 0 p) mu) (drag_Minfinity_inverse (posdata_of 2 0 p') mu).
Proof.
  intros H H'.
  exact (drag_renumbered inversion inversion_orthogonal flip2 (fun d => d) 2 0 flip2_permutes none_permutes p (onto p p') (onto_renumbered p p' H H') mu).
Qed.
Lemma reciprocal_equal sc table cf p : paired p -> distinct p -> reciprocal_pairs sc table cf 2 0 p.
Proof.
  intros (A1 & _) HD. split; [exact (proj1 HD)|]. intros u v Hu Hv _ _.
  assert (E : bead_sizes (posdata_of 2 0 p) u = bead_sizes (posdata_of 2 0 p) v).
  { unfold bead_sizes, posdata_of. cbn [num_spheres num_dumbbells sphere_sizes]. rewrite A1.
    destruct u as [|[|u]], v as [|[|v]]; try lia; cbn; congruence. }
  rewrite E. split; intros; reflexivity.
Qed.
Lemma near_paired p p' sc table bb cf mu G G' : 0 < cf -> paired p -> paired p' -> distinct p ->
  generate_R2Bexact_free sc table bb (posdata_of 2 0 p) cf mu = Some G ->
  generate_R2Bexact_free sc table bb (posdata_of 2 0 p') cf mu = Some G' -> folw G G'.
Proof.
  intros Hcf H H' HD E E'.
  refine (near_renumbered inversion inversion_orthogonal flip2 (fun d => d) 2 0 flip2_permutes none_permutes p (onto p p') (onto_renumbered p p' H H') HD
    sc table bb cf mu G G' Hcf (reciprocal_equal sc table cf p H HD) E _).
  rewrite onto_posdata, r2b_translate. exact E'.
Qed.
End Pair.

(** ** Speeds *)
Section Speeds.
Variable fm : form.
Variables i i' : inputs.
Variables f f' : flow.
Variable F : list R.
Variables R0 R0' : mat.
Variables o o' : outputs.
Definition alike (i : inputs) (f : flow) : Prop :=
  forced_only i f /\ i_Fa i = [Some F; Some F] /\ (fm = fte \/ fm = ufte /\ i_Ua i = [None; None]).
Hypothesis HI : alike i f.
Hypothesis HI' : alike i' f'.
Hypothesis HA : answers 2 0 fm i R0 o.
Hypothesis HA' : answers 2 0 fm i' R0' o'.
Hypothesis HC : folw R0 R0'.
Hypothesis HP : pos_def 22 R0'.

Lemma alike_fm i0 f0 : alike i0 f0 -> fm <> fts.
Proof. intros (_ & _ & [Y|[Y _]]) C; rewrite C in Y; discriminate. Qed.
Lemma alike_forces i0 f0 R1 o0 j : alike i0 f0 -> answers 2 0 fm i0 R1 o0 -> (j < 2)%nat -> nth j (oFa o0) [] = F.
Proof.
  intros (_ & IF & IM) (_ & ((L1 & _) & _ & _ & _ & (L5 & _) & _) & _ & M) Hj.
  assert (K : keeps 0 2 (i_Fa i0) (oFa o0)).
  { destruct IM as [F0|[F0 IU]]; rewrite F0 in M; [tauto|]. destruct M as ((nfix & M1 & M2 & M3) & _).
    destruct nfix as [|nfix]; [exact M3|]. exfalso. pose proof (M2 0%nat ltac:(lia)) as C. rewrite IU in C.
    destruct (oUa o0) as [|x l]; [cbn in L5; lia|]. discriminate C. }
  pose proof (kept_in (i_Fa i0) 0 2 (oFa o0) [] j K ltac:(lia) ltac:(lia)) as H. rewrite IF in H.
  destruct H as [H|[H|[]]]; injection H as H; congruence.
Qed.
Lemma condense_zero A c : (forall a b, (a < 3)%nat -> (b < 3)%nat -> A a b = 0) -> (c < 5)%nat -> condense_idx A c = 0.
Proof.
  intros H Hc. transitivity (condense_idx (fun _ _ => 0) c).
  - apply condense_ext. intros a b Ha Hb. apply H; assumption.
  - unfold condense_idx, contraction, rsum. apply Rplus_eq_reg_l with 0. destruct c as [|[|[|[|[|c]]]]]; try lia; ring.
Qed.
Lemma condense_neg A c : (c < 5)%nat -> condense_idx (fun a b => - A a b) c = - condense_idx A c.
Proof. intros Hc. unfold condense_idx, contraction, rsum. destruct c as [|[|[|[|[|c]]]]]; try lia; ring. Qed.

Lemma pair_blocks k p : kvalid 2 0 k p ->
  bt inversion k (fun c => - (1) * vel 2 0 o k (bead_relabel flip2 (fun d => d) 2 0 p) c) (vel 2 0 o' k p) /\
  bt inversion k (fun c => - (1) * frc 2 0 o k (bead_relabel flip2 (fun d => d) 2 0 p) c) (frc 2 0 o' k p).
Proof.
  apply (blocks_flipped inversion flip2 (fun d => d) 2 0 flip2_permutes none_permutes (- (1)) fm i i' R0 R0' o o' HA HA' HC HP).
  clear k p. intros k p V.
  pose proof (quiet_answers 2 0 fm i f R0 o (alike_fm i f HI) (proj1 HI) HA) as Q.
  pose proof (quiet_answers 2 0 fm i' f' R0' o' (alike_fm i f HI) (proj1 HI') HA') as Q'.
  pose proof (proj1 (proj2 HA)) as SH. pose proof (proj1 (proj2 HA')) as SH'.
  assert (B : forall q, (q < 2)%nat -> bead_relabel flip2 (fun d => d) 2 0 q = flip2 q /\ (flip2 q < 2)%nat).
  { intros q Hq. unfold bead_relabel. destruct (Nat.ltb_spec q 2); [|lia]. split; [reflexivity|apply flip2_permutes; exact Hq]. }
  destruct k; cbn [kvalid] in V; [right|right|left|lia]; destruct (B p V) as [-> Hq]; cbn [vel frc blk]; unfold vel, frc, blk.
  - apply bt_vec. intros l Hl. rewrite inversion_rot by exact Hl. unfold rowof.
    rewrite (alike_forces i f R0 o _ HI HA Hq), (alike_forces i' f' R0' o' _ HI' HA' V). ring.
  - apply bt_pseudo. intros l Hl. rewrite inversion_det, inversion_rot by exact Hl. unfold rowof.
    destruct SH as (_ & (LT & _) & _). destruct SH' as (_ & (LT' & _) & _).
    rewrite (proj1 Q (nth (flip2 p) (o_Ta o) [])) by (apply nth_In; lia). rewrite (proj1 Q' (nth p (o_Ta o') [])) by (apply nth_In; lia).
    unfold zeros3. idx3 Hl; cbn; ring.
  - intros c Hc. cbn [ksize] in Hc. rewrite condense_zero; [|intros a b Ha Hb; apply (quiet_matof 2 0 fm); assumption|exact Hc].
    symmetry. apply rsum_zero. intros a Ha. rewrite condense_zero; [ring|intros x y Hx Hy; apply (quiet_matof 2 0 fm); assumption|exact Ha].
Qed.

Lemma pair_speeds j : (j < 2)%nat ->
  (forall l, (l < 3)%nat -> rowof (oUa o') j l = rowof (oUa o) (flip2 j) l /\ rowof (oOa o') j l = - rowof (oOa o) (flip2 j) l) /\
  (forall a b, (a < 3)%nat -> (b < 3)%nat -> matof (oSa o') j a b = - matof (oSa o) (flip2 j) a b).
Proof.
  intros Hj. pose proof (proj1 flip2_permutes j Hj) as Hq.
  assert (B : bead_relabel flip2 (fun d => d) 2 0 j = flip2 j) by (unfold bead_relabel; destruct (Nat.ltb_spec j 2); [reflexivity|lia]).
  destruct (pair_blocks KU j Hj) as [A1 _]. destruct (pair_blocks KO j Hj) as [A2 _]. destruct (pair_blocks KS j Hj) as [_ A3].
  rewrite B in A1, A2, A3. unfold vel, frc, blk in A1, A2, A3. apply vec_bt in A1. apply pseudo_bt in A2. split.
  - intros l Hl. rewrite (A1 l Hl), (A2 l Hl), inversion_det, !inversion_rot by exact Hl. split; ring.
  - assert (S : shaped_st 2 (oSa o) /\ shaped_st 2 (oSa o')).
    { pose proof (alike_fm i f HI) as Hf. pose proof (proj1 (proj2 HA)) as SH. pose proof (proj1 (proj2 HA')) as SH'. unfold of_shape in SH, SH'.
      destruct SH as (_ & _ & _ & _ & _ & _ & _ & _ & _ & _ & SH). destruct SH' as (_ & _ & _ & _ & _ & _ & _ & _ & _ & _ & SH').
      destruct fm; try contradiction; split; assumption. }
    intros a b Ha Hb.
    assert (T : mat_turned inversion (fun a b => - matof (oSa o) (flip2 j) a b) (matof (oSa o') j)).
    { apply mat_bt; [exact inversion_orthogonal| |apply (matof_st 2); [apply S|exact Hj]|].
      - destruct (matof_st 2 _ _ (proj1 S) Hq) as [Y Z]. split; [intros x y Hx Hy; rewrite (Y x y Hx Hy); reflexivity|].
        transitivity (- (0)); [rewrite <- Z; ring|ring].
      - intros c Hc. rewrite (A3 c Hc). apply rsum_ext. intros x Hx. rewrite condense_neg by exact Hx. ring. }
    rewrite (T a b Ha Hb). symmetry. exact (inversion_mat (fun x y => - matof (oSa o) (flip2 j) x y) a b Ha Hb).
Qed.
End Speeds.
