(** Renumbered and turned inputs have renumbered and turned answers. *)
From Coq Require Import Reals List Arith Bool Lia Lra.
From Verif Require Import Base Py Model_Pack Model_Mob Model_Layout Model_Minf Model_Output
  Spec_Pack Spec_Convert Spec_Output Spec_Layout Spec_Minf Spec_Rotate Spec_Posdef Spec_Run Spec_Turn Spec_Renumber
  Proof_Pack Proof_Output Proof_Layout Proof_Posdef Proof_Minf Proof_R2B4 Proof_Rotate1 Proof_Rotate2 Proof_Rotate3 Proof_Rotate4 Proof_Rotate5 Proof_Rotate8
  Proof_Turn2 Proof_Renumber1.
Import ListNotations.
Local Open Scope R_scope.

Section Renumber.
Variable Q : mat.
Hypothesis HQ : orthogonal Q.
Variables s t : nat -> nat.
Variables Ns Nd : nat.
Hypothesis Hs : permutes Ns s.
Hypothesis Ht : permutes Nd t.
Notation n := (11 * Ns + 6 * Nd)%nat.
Notation br := (bead_relabel s t Ns Nd).
Notation bt := (bt Q).

(** Prescribed values of renumbered inputs. *)
Lemma kept_renumbered {A} (rel : A -> A -> Prop) N r l l' lo hi lo' hi' out out' (d : A) j :
  lists_renumbered rel N r l l' -> (j < N)%nat -> keeps lo hi l out -> keeps lo' hi' l' out' -> (lo <= r j < hi)%nat -> (lo' <= j < hi')%nat ->
  (r j < length out)%nat -> (j < length out')%nat -> rel (nth (r j) out d) (nth j out' d).
Proof.
  intros H HN K K' Hj Hj' L L'. specialize (H j HN). rewrite (K (r j) Hj), (K' j Hj') in H.
  rewrite (nth_error_nth' out d L), (nth_error_nth' out' d L') in H. exact H.
Qed.
Lemma switch_renumbered rel r (l l' : list (option (list R))) k k' N out out' :
  lists_renumbered rel N r l l' -> (forall j, (j < N)%nat -> (r j < N)%nat) ->
  rest_missing N k l -> rest_missing N k' l' -> keeps 0 k l out -> keeps 0 k' l' out' ->
  length out = N -> length out' = N -> forall j, (j < N)%nat -> (r j < k <-> j < k')%nat.
Proof.
  intros H HR R R' K K' L L' j Hj. specialize (H j Hj). specialize (HR j Hj).
  assert (Z : (r j < length out)%nat) by lia. assert (Z' : (j < length out')%nat) by lia.
  destruct (Nat.lt_ge_cases (r j) k) as [A|A]; destruct (Nat.lt_ge_cases j k') as [B|B]; try (split; intros; lia); exfalso.
  - rewrite (K (r j) ltac:(lia)), (R' j ltac:(lia)) in H. rewrite (nth_error_nth' out [] Z) in H. exact H.
  - rewrite (R (r j) ltac:(lia)), (K' j ltac:(lia)) in H. rewrite (nth_error_nth' out' [] Z') in H. exact H.
Qed.

Notation oFa := Model_Output.o_Fa.
Notation oSa := Model_Output.o_Sa.
Notation oFb := Model_Output.o_Fb.
Notation oDFb := Model_Output.o_DFb.
Notation oUa := Model_Output.o_Ua.
Notation oOa := Model_Output.o_Oa.
Notation oEa := Model_Output.o_Ea.
Notation oUb := Model_Output.o_Ub.
Notation oHDUb := Model_Output.o_HalfDUb.
Notation frc := (frc Ns Nd).
Notation vel := (vel Ns Nd).

Definition outputs_renumbered (o o' : outputs) : Prop :=
  (forall j, (j < Ns)%nat -> vec_turned Q (rowof (oFa o) (s j)) (rowof (oFa o') j) /\ pseudo_turned Q (rowof (o_Ta o) (s j)) (rowof (o_Ta o') j) /\
     mat_turned Q (matof (oSa o) (s j)) (matof (oSa o') j) /\
     vec_turned Q (rowof (oUa o) (s j)) (rowof (oUa o') j) /\ pseudo_turned Q (rowof (oOa o) (s j)) (rowof (oOa o') j) /\
     mat_turned Q (matof (oEa o) (s j)) (matof (oEa o') j)) /\
  (forall d, (d < Nd)%nat -> vec_turned Q (rowof (oFb o) (t d)) (rowof (oFb o') d) /\ vec_turned Q (rowof (oDFb o) (t d)) (rowof (oDFb o') d) /\
     vec_turned Q (rowof (oUb o) (t d)) (rowof (oUb o') d) /\ vec_turned Q (rowof (oHDUb o) (t d)) (rowof (oHDUb o') d)).

Section Two.
Variables fm : form.
Variables i i' : inputs.
Variables R0 R0' : mat.
Variables o o' : outputs.
Hypothesis HI : inputs_renumbered Q s t Ns Nd i i'.
Hypothesis HA : answers Ns Nd fm i R0 o.
Hypothesis HA' : answers Ns Nd fm i' R0' o'.

Ltac shapes :=
  pose proof (proj1 (proj2 HA)) as SH; pose proof (proj1 (proj2 HA')) as SH'; unfold of_shape in SH, SH';
  destruct SH as (s1 & s2 & s3 & s4 & s5 & s6 & s7 & s8 & (s9 & s10) & (s11 & s12) & s13);
  destruct SH' as (z1 & z2 & z3 & z4 & z5 & z6 & z7 & z8 & (z9 & z10) & (z11 & z12) & z13).

Lemma renum_st j : (j < Ns)%nat -> st (matof (oSa o) (s j)) /\ st (matof (oSa o') j) /\ st (matof (oEa o) (s j)) /\ st (matof (oEa o') j).
Proof.
  intros Hj. pose proof (proj1 Hs j Hj) as Hsj. shapes. destruct HI as (_ & _ & _ & _ & _ & _ & _ & _ & _ & G1 & G2 & G3 & G4).
  destruct HA as (_ & _ & _ & K). destruct HA' as (_ & _ & _ & K').
  destruct fm; try contradiction; destruct K as (_ & K & _); destruct K' as (_ & K' & _);
    (split; [|split; [|split]]); try (apply (matof_st Ns); assumption).
  - apply sym_st, G1. apply (kept_in _ 0 Ns); [exact K|lia|lia].
  - apply sym_st, G2. apply (kept_in _ 0 Ns); [exact K'|lia|lia].
  - apply sym_st, G3. apply (kept_in _ 0 Ns); [exact K|lia|lia].
  - apply sym_st, G4. apply (kept_in _ 0 Ns); [exact K'|lia|lia].
  - apply sym_st, G3. apply (kept_in _ 0 Ns); [exact K|lia|lia].
  - apply sym_st, G4. apply (kept_in _ 0 Ns); [exact K'|lia|lia].
  - apply sym_st, G3. apply (kept_in _ 0 Ns); [exact K|lia|lia].
  - apply sym_st, G4. apply (kept_in _ 0 Ns); [exact K'|lia|lia].
Qed.

(** Numbers of the blocks. *)
Lemma br_sphere p : (p < Ns)%nat -> br p = s p.
Proof. intros H. unfold bead_relabel. destruct (Nat.ltb_spec p Ns); [reflexivity|lia]. Qed.
Lemma br_bead1 p : (Ns <= p < Ns + Nd)%nat -> br p = (Ns + t (p - Ns))%nat.
Proof. intros H. unfold bead_relabel. destruct (Nat.ltb_spec p Ns); [lia|]. destruct (Nat.ltb_spec p (Ns + Nd)); [reflexivity|lia]. Qed.
Lemma br_bead2 p : (Ns + Nd <= p)%nat -> br p = (Ns + Nd + t (p - Ns - Nd))%nat.
Proof. intros H. unfold bead_relabel. destruct (Nat.ltb_spec p Ns); [lia|]. destruct (Nat.ltb_spec p (Ns + Nd)); [lia|reflexivity]. Qed.

(** In each block velocities or forces are prescribed. *)
Lemma renum_prescribed k p : kvalid Ns Nd k p -> bt k (vel o k (br p)) (vel o' k p) \/ bt k (frc o k (br p)) (frc o' k p).
Proof.
  intros V. shapes. destruct HI as (IF & IT & IS & IB & ID & IU & IE & IUb & IH & G1 & G2 & G3 & G4).
  assert (LFa : length (oFa o) = Ns) by apply s1. assert (LFa' : length (oFa o') = Ns) by apply z1.
  assert (LTa : length (o_Ta o) = Ns) by apply s2. assert (LTa' : length (o_Ta o') = Ns) by apply z2.
  assert (LFb : length (oFb o) = Nd) by apply s3. assert (LFb' : length (oFb o') = Nd) by apply z3.
  assert (LD : length (oDFb o) = Nd) by apply s4. assert (LD' : length (oDFb o') = Nd) by apply z4.
  assert (LUa : length (oUa o) = Ns) by apply s5. assert (LUa' : length (oUa o') = Ns) by apply z5.
  assert (LUb : length (oUb o) = Nd) by apply s7. assert (LUb' : length (oUb o') = Nd) by apply z7.
  assert (LH : length (oHDUb o) = Nd) by apply s8. assert (LH' : length (oHDUb o') = Nd) by apply z8.
  destruct HA as (_ & _ & KT & K). destruct HA' as (_ & _ & KT' & K').
  pose proof (proj1 Hs) as S1. pose proof (proj1 Ht) as T1.
  unfold Proof_Turn2.vel, Proof_Turn2.frc, blk. destruct k; cbn [kvalid] in V.
  - (* spheres, linear *)
    rewrite (br_sphere p V). pose proof (S1 p V) as Vs.
    assert (HF : keeps 0 Ns (i_Fa i) (oFa o) -> keeps 0 Ns (i_Fa i') (oFa o') -> bt KU (rowof (oFa o) (s p)) (rowof (oFa o') p)).
    { intros A B. apply bt_vec. apply (kept_renumbered _ _ _ _ _ _ _ _ _ _ _ [] p IF V A B); lia. }
    assert (HS : (exists nfix, rest_missing Ns nfix (i_Ua i) /\ keeps 0 nfix (i_Ua i) (oUa o) /\ keeps nfix Ns (i_Fa i) (oFa o)) ->
       (exists nfix, rest_missing Ns nfix (i_Ua i') /\ keeps 0 nfix (i_Ua i') (oUa o') /\ keeps nfix Ns (i_Fa i') (oFa o')) ->
       bt KU (rowof (oUa o) (s p)) (rowof (oUa o') p) \/ bt KU (rowof (oFa o) (s p)) (rowof (oFa o') p)).
    { intros (k & A1 & A2 & A3) (k' & B1 & B2 & B3).
      pose proof (switch_renumbered _ _ _ _ _ _ _ _ _ IU S1 A1 B1 A2 B2 LUa LUa' p V) as SW.
      destruct (Nat.lt_ge_cases (s p) k) as [C|C]; [left|right]; apply bt_vec.
      - apply (kept_renumbered _ _ _ _ _ _ _ _ _ _ _ [] p IU V A2 B2); lia.
      - apply (kept_renumbered _ _ _ _ _ _ _ _ _ _ _ [] p IF V A3 B3); lia. }
    destruct fm; try contradiction; destruct K as (K & _); destruct K' as (K' & _); auto.
  - (* spheres, angular *)
    rewrite (br_sphere p V). pose proof (S1 p V) as Vs.
    right. apply bt_pseudo. apply (kept_renumbered _ _ _ _ _ _ _ _ _ _ _ [] p IT V KT KT'); lia.
  - (* tensors *)
    rewrite (br_sphere p V). pose proof (S1 p V) as Vs.
    destruct (renum_st p V) as (T1' & T2 & T3 & T4).
    destruct fm; try contradiction; destruct K as (_ & K & _); destruct K' as (_ & K' & _); [right|left|left|left]; apply bt_mat; try assumption;
      [apply (kept_renumbered _ _ _ _ _ _ _ _ _ _ _ [] p IS V K K'); lia|apply (kept_renumbered _ _ _ _ _ _ _ _ _ _ _ [] p IE V K K'); lia..].
  - (* dumbbells *)
    destruct (Nat.lt_ge_cases p (Ns + Nd)) as [C|C].
    + rewrite br_bead1 by lia. replace (Ns + t (p - Ns) - Ns)%nat with (t (p - Ns)) by lia.
      set (q := (p - Ns)%nat) in *. assert (Vq : (q < Nd)%nat) by (unfold q; lia). pose proof (T1 q Vq) as Vs.
      destruct (Nat.ltb_spec (t q) Nd); [|lia]. destruct (Nat.ltb_spec q Nd); [|lia].
      assert (HF : keeps 0 Nd (i_Fb i) (oFb o) -> keeps 0 Nd (i_Fb i') (oFb o') -> bt KB (rowof (oFb o) (t q)) (rowof (oFb o') q)).
      { intros A1 B1. apply bt_vecB. apply (kept_renumbered _ _ _ _ _ _ _ _ _ _ _ [] q IB Vq A1 B1); lia. }
      destruct fm; try contradiction; destruct K as (_ & _ & K); destruct K' as (_ & _ & K'); try (right; apply HF; tauto).
      destruct K as (k & A1 & A2 & A3 & A4 & A5). destruct K' as (k' & B1 & B2 & B3 & B4 & B5).
      pose proof (switch_renumbered _ _ _ _ _ _ _ _ _ IUb T1 A1 B1 A2 B2 LUb LUb' q Vq) as SW.
      destruct (Nat.lt_ge_cases (t q) k) as [E|E]; [left|right]; apply bt_vecB.
      * apply (kept_renumbered _ _ _ _ _ _ _ _ _ _ _ [] q IUb Vq A2 B2); lia.
      * apply (kept_renumbered _ _ _ _ _ _ _ _ _ _ _ [] q IB Vq A3 B3); lia.
    + rewrite br_bead2 by lia. replace (Ns + Nd + t (p - Ns - Nd) - Ns)%nat with (Nd + t (p - Ns - Nd))%nat by lia.
      replace (Nd + t (p - Ns - Nd) - Nd)%nat with (t (p - Ns - Nd)) by lia.
      destruct (Nat.ltb_spec (p - Ns) Nd); [lia|].
      set (q := (p - Ns - Nd)%nat) in *. assert (Vq : (q < Nd)%nat) by (unfold q; lia). pose proof (T1 q Vq) as Vs.
      destruct (Nat.ltb_spec (Nd + t q) Nd); [lia|].
      assert (HF : keeps 0 Nd (i_DFb i) (oDFb o) -> keeps 0 Nd (i_DFb i') (oDFb o') -> bt KB (rowof (oDFb o) (t q)) (rowof (oDFb o') q)).
      { intros A1 B1. apply bt_vecB. apply (kept_renumbered _ _ _ _ _ _ _ _ _ _ _ [] q ID Vq A1 B1); lia. }
      destruct fm; try contradiction; destruct K as (_ & _ & K); destruct K' as (_ & _ & K'); try (right; apply HF; tauto).
      destruct K as (k & A1 & A2 & A3 & A4 & A5). destruct K' as (k' & B1 & B2 & B3 & B4 & B5).
      pose proof (switch_renumbered _ _ _ _ _ _ _ _ _ IUb T1 A1 B1 A2 B2 LUb LUb' q Vq) as SW.
      destruct (Nat.lt_ge_cases (t q) k) as [E|E]; [left|right]; apply bt_vecB.
      * apply (kept_renumbered _ _ _ _ _ _ _ _ _ _ _ [] q IH Vq A4 B4); lia.
      * apply (kept_renumbered _ _ _ _ _ _ _ _ _ _ _ [] q ID Vq A5 B5); lia.
Qed.

Hypothesis HC : follows Q s t Ns Nd R0 R0'.
Hypothesis HP : pos_def n R0'.
Notation comp := (comp s t Ns Nd).

Lemma blocks_renumbered k p : kvalid Ns Nd k p -> bt k (vel o k (br p)) (vel o' k p) /\ bt k (frc o k (br p)) (frc o' k p).
Proof.
  shapes. destruct HA as ((_ & _ & L) & _). destruct HA' as ((_ & _ & L') & _).
  set (u := lvec (grand (oUa o) (oOa o) (oEa o) (oUb o) (oHDUb o))) in *.
  set (f := lvec (grand (oFa o) (o_Ta o) (oSa o) (oFb o) (oDFb o))) in *.
  set (u' := lvec (grand (oUa o') (oOa o') (oEa o') (oUb o') (oHDUb o'))) in *.
  set (f' := lvec (grand (oFa o') (o_Ta o') (oSa o') (oFb o') (oDFb o'))) in *.
  set (uc := fun r => u (comp r)). set (fc := fun r => f (comp r)).
  assert (Au : forall k p c, kvalid Ns Nd k p -> (c < ksize k)%nat -> uc (kstart Ns k p + c)%nat = vel o k (br p) c).
  { intros k0 p0 c V Hc. unfold uc. rewrite (comp_block s t Ns Nd) by assumption. apply grand_at; try assumption. apply (br_ok s t Ns Nd Hs Ht). exact V. }
  assert (Af : forall k p c, kvalid Ns Nd k p -> (c < ksize k)%nat -> fc (kstart Ns k p + c)%nat = frc o k (br p) c).
  { intros k0 p0 c V Hc. unfold fc. rewrite (comp_block s t Ns Nd) by assumption. apply grand_at; try assumption. apply (br_ok s t Ns Nd Hs Ht). exact V. }
  assert (Au' : forall k p c, kvalid Ns Nd k p -> (c < ksize k)%nat -> u' (kstart Ns k p + c)%nat = vel o' k p c)
    by (intros; apply grand_at; assumption).
  assert (Af' : forall k p c, kvalid Ns Nd k p -> (c < ksize k)%nat -> f' (kstart Ns k p + c)%nat = frc o' k p c)
    by (intros; apply grand_at; assumption).
  assert (Lc : linrel n (permuted s t Ns Nd R0) uc fc).
  { intros r Hr. unfold fc. pose proof (comp_permutes s t Ns Nd Hs Ht) as HPc.
    transitivity (mvec n R0 u (comp r)); [apply L; apply (proj1 HPc); exact Hr|].
    unfold mvec, permuted, uc. symmetry. apply (rsum_perm n comp (fun c => R0 (comp r) c * u c)). exact HPc. }
  clearbody uc fc u' f'. clear L u f.
  assert (Tu : forall k p c, kvalid Ns Nd k p -> (c < ksize k)%nat ->
     turn_vec Q Ns uc (kstart Ns k p + c)%nat = rsum (ksize k) (fun a => tmat Q k c a * vel o k (br p) a)).
  { intros k0 p0 c V Hc. rewrite (turn_at Q Ns Nd) by assumption. apply rsum_ext. intros a Ha. rewrite Au by assumption. reflexivity. }
  assert (Tf : forall k p c, kvalid Ns Nd k p -> (c < ksize k)%nat ->
     turn_vec Q Ns fc (kstart Ns k p + c)%nat = rsum (ksize k) (fun a => tmat Q k c a * frc o k (br p) a)).
  { intros k0 p0 c V Hc. rewrite (turn_at Q Ns Nd) by assumption. apply rsum_ext. intros a Ha. rewrite Af by assumption. reflexivity. }
  assert (LT : linrel n R0' (turn_vec Q Ns uc) (turn_vec Q Ns fc)).
  { intros r Hr. transitivity (turn_vec Q Ns (mvec n (permuted s t Ns Nd R0) uc) r).
    - apply (turn_ext Q Ns Nd); [|exact Hr]. intros x Hx. apply Lc. exact Hx.
    - symmetry. apply HC. exact Hr. }
  assert (E : forall r, (r < n)%nat -> turn_vec Q Ns uc r = u' r /\ turn_vec Q Ns fc r = f' r).
  { apply (unique_or n R0'); try assumption. intros r Hr. destruct (block_cover Ns Nd r Hr) as (k0 & p0 & c & V & Hc & ->).
    rewrite Tu, Tf, Au', Af' by assumption. destruct (renum_prescribed k0 p0 V) as [A|A]; [left|right]; symmetry; apply A; exact Hc. }
  intros V. split; intros c Hc; [rewrite <- Au', <- Tu by assumption|rewrite <- Af', <- Tf by assumption]; symmetry; apply E;
    apply block_range; assumption.
Qed.

Lemma answers_renumbered : outputs_renumbered o o'.
Proof.
  split.
  - intros j Hj. destruct (renum_st j Hj) as (T1 & T2 & T3 & T4).
    destruct (blocks_renumbered KU j Hj) as [A1 A2]. destruct (blocks_renumbered KO j Hj) as [B1 B2]. destruct (blocks_renumbered KS j Hj) as [C1 C2].
    cbn [Proof_Turn2.vel Proof_Turn2.frc blk] in *. rewrite br_sphere in * by exact Hj. auto 10 using vec_bt, pseudo_bt, mat_bt.
  - intros d Hd. pose proof (proj1 Ht d Hd) as Htd.
    destruct (blocks_renumbered KB (Ns + d) ltac:(cbn [kvalid]; lia)) as [A1 A2].
    destruct (blocks_renumbered KB (Ns + Nd + d) ltac:(cbn [kvalid]; lia)) as [B1 B2].
    rewrite br_bead1 in A1, A2 by lia. rewrite br_bead2 in B1, B2 by lia.
    unfold Proof_Turn2.vel, Proof_Turn2.frc, blk in *.
    replace (Ns + d - Ns)%nat with d in * by lia. replace (Ns + Nd + d - Ns)%nat with (Nd + d)%nat in * by lia.
    replace (Nd + d - Nd)%nat with d in * by lia.
    replace (Ns + t d - Ns)%nat with (t d) in * by lia. replace (Ns + Nd + t d - Ns)%nat with (Nd + t d)%nat in * by lia.
    replace (Nd + t d - Nd)%nat with (t d) in * by lia.
    destruct (Nat.ltb_spec d Nd); [|lia]. destruct (Nat.ltb_spec (Nd + d) Nd); [lia|].
    destruct (Nat.ltb_spec (t d) Nd); [|lia]. destruct (Nat.ltb_spec (Nd + t d) Nd); [lia|]. auto 10 using vec_btB.
Qed.
End Two.
End Renumber.
