(** Answers of one resistance problem combine linearly and are reciprocal. *)
From Coq Require Import Reals List Arith Bool Lia Lra FunctionalExtensionality.
From Verif Require Import Base Py Model_Pack Model_Mob Model_Layout Model_Minf Model_Output Model_Frame Model_Inputs Model_Sim
  Spec_Pack Spec_Layout Spec_Minf Spec_Convert Spec_Output Spec_Rotate Spec_Posdef Spec_Run Spec_Turn Spec_Linear
  Proof_Pack Proof_Output Proof_Layout Proof_Posdef Proof_Rotate1 Proof_Rotate2 Proof_Rotate3 Proof_Rotate4 Proof_Rotate5 Proof_Rotate8
  Proof_Turn1 Proof_Turn2 Proof_Work.
Import ListNotations.
Local Open Scope R_scope.

Lemma kept3 {A} (rel : A -> A -> A -> Prop) l1 l2 l a1 b1 a2 b2 a b o1 o2 o (d : A) j :
  lists_comb rel l1 l2 l -> keeps a1 b1 l1 o1 -> keeps a2 b2 l2 o2 -> keeps a b l o ->
  (a1 <= j < b1)%nat -> (a2 <= j < b2)%nat -> (a <= j < b)%nat -> (j < length o1)%nat -> (j < length o2)%nat -> (j < length o)%nat ->
  rel (nth j o1 d) (nth j o2 d) (nth j o d).
Proof.
  intros H K1 K2 K J1 J2 J L1 L2 L. specialize (H j). rewrite (K1 j J1), (K2 j J2), (K j J) in H.
  rewrite (nth_error_nth' o1 d L1), (nth_error_nth' o2 d L2), (nth_error_nth' o d L) in H. exact H.
Qed.
Lemma switch3 rel (l1 l2 l : list (option (list R))) k1 k2 k N o1 o2 o :
  lists_comb rel l1 l2 l -> rest_missing N k1 l1 -> rest_missing N k2 l2 -> rest_missing N k l ->
  keeps 0 k1 l1 o1 -> keeps 0 k2 l2 o2 -> keeps 0 k l o -> length o1 = N -> length o2 = N -> length o = N ->
  forall j, (j < N)%nat -> (j < k1 /\ j < k2 /\ j < k)%nat \/ (k1 <= j /\ k2 <= j /\ k <= j)%nat.
Proof.
  intros H R1 R2 R K1 K2 K L1 L2 L j Hj. specialize (H j).
  assert (Z1 : (j < length o1)%nat) by lia. assert (Z2 : (j < length o2)%nat) by lia. assert (Z : (j < length o)%nat) by lia.
  destruct (Nat.lt_ge_cases j k1) as [A|A]; [rewrite (K1 j ltac:(lia)), (nth_error_nth' o1 [] Z1) in H|rewrite (R1 j ltac:(lia)) in H];
  (destruct (Nat.lt_ge_cases j k2) as [B|B]; [rewrite (K2 j ltac:(lia)), (nth_error_nth' o2 [] Z2) in H|rewrite (R2 j ltac:(lia)) in H]);
  try contradiction;
  (destruct (Nat.lt_ge_cases j k) as [C|C]; [rewrite (K j ltac:(lia)), (nth_error_nth' o [] Z) in H|rewrite (R j ltac:(lia)) in H]);
  try contradiction; [left|right]; lia.
Qed.

Section Linear.
Variables al be : R.
Variables Ns Nd : nat.
Notation n := (11 * Ns + 6 * Nd)%nat.
Notation oFa := Model_Output.o_Fa.
Notation oSa := Model_Output.o_Sa.
Notation oFb := Model_Output.o_Fb.
Notation oDFb := Model_Output.o_DFb.
Notation oUa := Model_Output.o_Ua.
Notation oOa := Model_Output.o_Oa.
Notation oEa := Model_Output.o_Ea.
Notation oUb := Model_Output.o_Ub.
Notation oHDUb := Model_Output.o_HalfDUb.

Definition cb (k : kind) (u v w : nat -> R) : Prop := forall c, (c < ksize k)%nat -> w c = al * u c + be * v c.
Lemma cond_comb A B C : mat_comb al be A B C -> cb KS (condense_idx A) (condense_idx B) (condense_idx C).
Proof.
  intros H c Hc. unfold condense_idx. rewrite <- !rsum_scal_l, <- rsum_plus. apply rsum_ext. intros a Ha.
  rewrite <- !rsum_scal_l, <- rsum_plus. apply rsum_ext. intros b Hb. rewrite (H a b Ha Hb). ring.
Qed.
Lemma comb_cond A B C : st A -> st B -> st C -> cb KS (condense_idx A) (condense_idx B) (condense_idx C) -> mat_comb al be A B C.
Proof.
  intros SA SB SC H a b Ha Hb.
  rewrite <- (tensor_condense A a b SA Ha Hb), <- (tensor_condense B a b SB Ha Hb), <- (tensor_condense C a b SC Ha Hb).
  rewrite (tensor_ext _ (fun m => al * condense_idx A m + be * condense_idx B m)) by exact H.
  unfold tensor_of, get2, uncondense1. idx3 Ha; idx3 Hb; cbn [nth]; unfold Rdiv; ring.
Qed.

Lemma answer_tensors fm i R0 o j : given_st (i_Sa i) -> given_st (i_Ea i) -> answers Ns Nd fm i R0 o -> (j < Ns)%nat ->
  st (matof (oSa o) j) /\ st (matof (oEa o) j).
Proof.
  intros G1 G2 HA Hj. pose proof (proj1 (proj2 HA)) as SH. unfold of_shape in SH.
  destruct SH as (s1 & s2 & s3 & s4 & s5 & s6 & s7 & s8 & (s9 & s10) & (s11 & s12) & s13). destruct HA as (_ & _ & _ & K).
  destruct fm; try contradiction; destruct K as (_ & K & _); (split; try (apply (matof_st Ns); assumption));
    apply sym_st; [apply G1|apply G2..]; apply (kept_in _ 0 Ns); try exact K; lia.
Qed.

Section Three.
Variable fm : form.
Variables i1 i2 i : inputs.
Variable R0 : mat.
Variables o1 o2 o : outputs.
Hypothesis HI : inputs_comb al be i1 i2 i.
Hypothesis G1 : given_st (i_Sa i1) /\ given_st (i_Ea i1).
Hypothesis G2 : given_st (i_Sa i2) /\ given_st (i_Ea i2).
Hypothesis G : given_st (i_Sa i) /\ given_st (i_Ea i).
Hypothesis HA1 : answers Ns Nd fm i1 R0 o1.
Hypothesis HA2 : answers Ns Nd fm i2 R0 o2.
Hypothesis HA : answers Ns Nd fm i R0 o.
Hypothesis HP : pos_def n R0.

Lemma prescribed3 k p : kvalid Ns Nd k p ->
  cb k (vel Ns Nd o1 k p) (vel Ns Nd o2 k p) (vel Ns Nd o k p) \/ cb k (frc Ns Nd o1 k p) (frc Ns Nd o2 k p) (frc Ns Nd o k p).
Proof.
  intros V. destruct HI as (IF & IT & IS & IB & ID & IU & IE & IUb & IH).
  assert (LL : forall i o, answers Ns Nd fm i R0 o -> length (oFa o) = Ns /\ length (o_Ta o) = Ns /\ length (oFb o) = Nd /\ length (oDFb o) = Nd /\
     length (oUa o) = Ns /\ length (oUb o) = Nd /\ length (oHDUb o) = Nd /\ length (oSa o) = Ns /\ length (oEa o) = Ns).
  { intros i' o' H. pose proof (proj1 (proj2 H)) as SH. unfold of_shape in SH.
    destruct SH as (s1 & s2 & s3 & s4 & s5 & s6 & s7 & s8 & (s9 & s10) & (s11 & s12) & s13).
    split; [apply s1|]. split; [apply s2|]. split; [apply s3|]. split; [apply s4|]. split; [apply s5|]. split; [apply s7|]. split; [apply s8|]. split; assumption. }
  destruct (LL _ _ HA1) as (a1 & a2 & a3 & a4 & a5 & a6 & a7 & a8 & a9).
  destruct (LL _ _ HA2) as (b1 & b2 & b3 & b4 & b5 & b6 & b7 & b8 & b9).
  destruct (LL _ _ HA) as (c1 & c2 & c3 & c4 & c5 & c6 & c7 & c8 & c9). clear LL.
  destruct HA1 as (_ & _ & KT1 & K1). destruct HA2 as (_ & _ & KT2 & K2). destruct HA as (_ & _ & KT & K).
  unfold vel, frc, blk. destruct k; cbn [kvalid] in *.
  - assert (HF : keeps 0 Ns (i_Fa i1) (oFa o1) -> keeps 0 Ns (i_Fa i2) (oFa o2) -> keeps 0 Ns (i_Fa i) (oFa o) ->
       cb KU (rowof (oFa o1) p) (rowof (oFa o2) p) (rowof (oFa o) p)).
    { intros A B C. exact (kept3 _ _ _ _ _ _ _ _ _ _ _ _ _ [] p IF A B C ltac:(lia) ltac:(lia) ltac:(lia) ltac:(lia) ltac:(lia) ltac:(lia)). }
    assert (HS : (exists nfix, rest_missing Ns nfix (i_Ua i1) /\ keeps 0 nfix (i_Ua i1) (oUa o1) /\ keeps nfix Ns (i_Fa i1) (oFa o1)) ->
       (exists nfix, rest_missing Ns nfix (i_Ua i2) /\ keeps 0 nfix (i_Ua i2) (oUa o2) /\ keeps nfix Ns (i_Fa i2) (oFa o2)) ->
       (exists nfix, rest_missing Ns nfix (i_Ua i) /\ keeps 0 nfix (i_Ua i) (oUa o) /\ keeps nfix Ns (i_Fa i) (oFa o)) ->
       cb KU (rowof (oUa o1) p) (rowof (oUa o2) p) (rowof (oUa o) p) \/ cb KU (rowof (oFa o1) p) (rowof (oFa o2) p) (rowof (oFa o) p)).
    { intros (k1 & A1 & A2 & A3) (k2 & B1 & B2 & B3) (k & C1 & C2 & C3).
      destruct (switch3 _ _ _ _ _ _ _ _ _ _ _ IU A1 B1 C1 A2 B2 C2 a5 b5 c5 p V) as [SW|SW]; [left|right].
      - exact (kept3 _ _ _ _ _ _ _ _ _ _ _ _ _ [] p IU A2 B2 C2 ltac:(lia) ltac:(lia) ltac:(lia) ltac:(lia) ltac:(lia) ltac:(lia)).
      - exact (kept3 _ _ _ _ _ _ _ _ _ _ _ _ _ [] p IF A3 B3 C3 ltac:(lia) ltac:(lia) ltac:(lia) ltac:(lia) ltac:(lia) ltac:(lia)). }
    destruct fm; try contradiction; destruct K1 as (K1 & _); destruct K2 as (K2 & _); destruct K as (K & _); auto.
  - right. exact (kept3 _ _ _ _ _ _ _ _ _ _ _ _ _ [] p IT KT1 KT2 KT ltac:(lia) ltac:(lia) ltac:(lia) ltac:(lia) ltac:(lia) ltac:(lia)).
  - destruct fm; try contradiction; destruct K1 as (_ & K1 & _); destruct K2 as (_ & K2 & _); destruct K as (_ & K & _); [right|left|left|left]; apply cond_comb;
      [exact (kept3 _ _ _ _ _ _ _ _ _ _ _ _ _ [] p IS K1 K2 K ltac:(lia) ltac:(lia) ltac:(lia) ltac:(lia) ltac:(lia) ltac:(lia))
      |exact (kept3 _ _ _ _ _ _ _ _ _ _ _ _ _ [] p IE K1 K2 K ltac:(lia) ltac:(lia) ltac:(lia) ltac:(lia) ltac:(lia) ltac:(lia))..].
  - assert (HF : keeps 0 Nd (i_Fb i1) (oFb o1) /\ keeps 0 Nd (i_DFb i1) (oDFb o1) -> keeps 0 Nd (i_Fb i2) (oFb o2) /\ keeps 0 Nd (i_DFb i2) (oDFb o2) ->
      keeps 0 Nd (i_Fb i) (oFb o) /\ keeps 0 Nd (i_DFb i) (oDFb o) ->
      cb KB (if Nat.ltb (p - Ns) Nd then rowof (oFb o1) (p - Ns) else rowof (oDFb o1) (p - Ns - Nd))
            (if Nat.ltb (p - Ns) Nd then rowof (oFb o2) (p - Ns) else rowof (oDFb o2) (p - Ns - Nd))
            (if Nat.ltb (p - Ns) Nd then rowof (oFb o) (p - Ns) else rowof (oDFb o) (p - Ns - Nd))).
    { intros [A1 A2] [B1 B2] [C1 C2]. destruct (Nat.ltb_spec (p - Ns) Nd).
      - exact (kept3 _ _ _ _ _ _ _ _ _ _ _ _ _ [] (p - Ns)%nat IB A1 B1 C1 ltac:(lia) ltac:(lia) ltac:(lia) ltac:(lia) ltac:(lia) ltac:(lia)).
      - exact (kept3 _ _ _ _ _ _ _ _ _ _ _ _ _ [] (p - Ns - Nd)%nat ID A2 B2 C2 ltac:(lia) ltac:(lia) ltac:(lia) ltac:(lia) ltac:(lia) ltac:(lia)). }
    destruct fm; try contradiction; destruct K1 as (_ & _ & K1); destruct K2 as (_ & _ & K2); destruct K as (_ & _ & K); try (right; apply HF; assumption).
    destruct K1 as (k1 & A1 & A2 & A3 & A4 & A5). destruct K2 as (k2 & B1 & B2 & B3 & B4 & B5). destruct K as (k & C1 & C2 & C3 & C4 & C5).
    destruct (Nat.ltb_spec (p - Ns) Nd) as [C|C].
    + destruct (switch3 _ _ _ _ _ _ _ _ _ _ _ IUb A1 B1 C1 A2 B2 C2 a6 b6 c6 (p - Ns)%nat C) as [SW|SW]; [left|right].
      * exact (kept3 _ _ _ _ _ _ _ _ _ _ _ _ _ [] (p - Ns)%nat IUb A2 B2 C2 ltac:(lia) ltac:(lia) ltac:(lia) ltac:(lia) ltac:(lia) ltac:(lia)).
      * exact (kept3 _ _ _ _ _ _ _ _ _ _ _ _ _ [] (p - Ns)%nat IB A3 B3 C3 ltac:(lia) ltac:(lia) ltac:(lia) ltac:(lia) ltac:(lia) ltac:(lia)).
    + destruct (switch3 _ _ _ _ _ _ _ _ _ _ _ IUb A1 B1 C1 A2 B2 C2 a6 b6 c6 (p - Ns - Nd)%nat ltac:(lia)) as [SW|SW]; [left|right].
      * exact (kept3 _ _ _ _ _ _ _ _ _ _ _ _ _ [] (p - Ns - Nd)%nat IH A4 B4 C4 ltac:(lia) ltac:(lia) ltac:(lia) ltac:(lia) ltac:(lia) ltac:(lia)).
      * exact (kept3 _ _ _ _ _ _ _ _ _ _ _ _ _ [] (p - Ns - Nd)%nat ID A5 B5 C5 ltac:(lia) ltac:(lia) ltac:(lia) ltac:(lia) ltac:(lia) ltac:(lia)).
Qed.

Lemma grand_of i' o' : answers Ns Nd fm i' R0 o' ->
  exists u f, linrel n R0 u f /\
    (forall k p c, kvalid Ns Nd k p -> (c < ksize k)%nat -> u (kstart Ns k p + c)%nat = vel Ns Nd o' k p c /\ f (kstart Ns k p + c)%nat = frc Ns Nd o' k p c).
Proof.
  intros H. pose proof (proj1 (proj2 H)) as SH. unfold of_shape in SH.
  destruct SH as (s1 & s2 & s3 & s4 & s5 & s6 & s7 & s8 & (s9 & s10) & (s11 & s12) & s13). destruct H as ((_ & _ & L) & _).
  eexists. eexists. split; [exact L|]. intros k p c V Hc. split; apply grand_at; assumption.
Qed.

Lemma blocks3 k p : kvalid Ns Nd k p ->
  cb k (vel Ns Nd o1 k p) (vel Ns Nd o2 k p) (vel Ns Nd o k p) /\ cb k (frc Ns Nd o1 k p) (frc Ns Nd o2 k p) (frc Ns Nd o k p).
Proof.
  destruct (grand_of _ _ HA1) as (u1 & f1 & L1 & X1). destruct (grand_of _ _ HA2) as (u2 & f2 & L2 & X2). destruct (grand_of _ _ HA) as (u & f & L & X).
  assert (LT : linrel n R0 (fun r => al * u1 r + be * u2 r) (fun r => al * f1 r + be * f2 r)).
  { intros r Hr. rewrite (L1 r Hr), (L2 r Hr). unfold mvec. rewrite <- !rsum_scal_l, <- rsum_plus. apply rsum_ext. intros s Hs. ring. }
  assert (E : forall r, (r < n)%nat -> al * u1 r + be * u2 r = u r /\ al * f1 r + be * f2 r = f r).
  { apply (unique_or n R0); try assumption. intros r Hr. destruct (block_cover Ns Nd r Hr) as (k0 & p0 & c & V & Hc & ->).
    destruct (X1 k0 p0 c V Hc) as [-> ->]. destruct (X2 k0 p0 c V Hc) as [-> ->]. destruct (X k0 p0 c V Hc) as [-> ->].
    destruct (prescribed3 k0 p0 V) as [A|A]; [left|right]; symmetry; apply A; exact Hc. }
  intros V. split; intros c Hc; destruct (X1 k p c V Hc) as [A1 B1]; destruct (X2 k p c V Hc) as [A2 B2]; destruct (X k p c V Hc) as [A B];
    destruct (E (kstart Ns k p + c)%nat) as [E1 E2]; try (apply block_range; assumption).
  - rewrite A1, A2, A in E1. symmetry. exact E1.
  - rewrite B1, B2, B in E2. symmetry. exact E2.
Qed.

Lemma answers_comb : outputs_comb al be Ns Nd o1 o2 o.
Proof.
  split.
  - intros j Hj. destruct (answer_tensors _ _ _ _ j (proj1 G1) (proj2 G1) HA1 Hj) as [S1 E1].
    destruct (answer_tensors _ _ _ _ j (proj1 G2) (proj2 G2) HA2 Hj) as [S2 E2].
    destruct (answer_tensors _ _ _ _ j (proj1 G) (proj2 G) HA Hj) as [S3 E3].
    destruct (blocks3 KU j Hj) as [A1 A2]. destruct (blocks3 KO j Hj) as [B1 B2]. destruct (blocks3 KS j Hj) as [C1 C2].
    split; [exact A2|]. split; [exact B2|]. split; [exact (comb_cond _ _ _ S1 S2 S3 C2)|]. split; [exact A1|]. split; [exact B1|]. exact (comb_cond _ _ _ E1 E2 E3 C1).
  - intros d Hd.
    destruct (blocks3 KB (Ns + d)%nat ltac:(cbn [kvalid]; lia)) as [A1 A2].
    destruct (blocks3 KB (Ns + Nd + d)%nat ltac:(cbn [kvalid]; lia)) as [B1 B2].
    unfold vel, frc, blk in *.
    replace (Ns + d - Ns)%nat with d in * by lia. replace (Ns + Nd + d - Ns)%nat with (Nd + d)%nat in * by lia.
    replace (Nd + d - Nd)%nat with d in * by lia.
    destruct (Nat.ltb_spec d Nd); [|lia]. destruct (Nat.ltb_spec (Nd + d) Nd); [lia|]. repeat split; assumption.
Qed.
End Three.

(** ** Reciprocity *)
Lemma ddot_contraction s e : ddot s e = contraction (fun a b => nth b (nth a s []) 0) (fun a b => nth b (nth a e []) 0).
Proof.
  assert (E : forall f g : mat, contraction f g = f 0%nat 0%nat * g 0%nat 0%nat + f 0%nat 1%nat * g 0%nat 1%nat + f 0%nat 2%nat * g 0%nat 2%nat +
    (f 1%nat 0%nat * g 1%nat 0%nat + f 1%nat 1%nat * g 1%nat 1%nat + f 1%nat 2%nat * g 1%nat 2%nat) +
    (f 2%nat 0%nat * g 2%nat 0%nat + f 2%nat 1%nat * g 2%nat 1%nat + f 2%nat 2%nat * g 2%nat 2%nat)).
  { intros f g. unfold contraction. cbn [rsum]. ring. }
  rewrite E. reflexivity.
Qed.
Lemma sumddot_rsum : forall m s e, length s = m -> length e = m -> sumddot s e = rsum m (fun j => contraction (matof s j) (matof e j)).
Proof.
  induction m as [|m IH]; intros s e Hs He.
  - destruct s, e; try discriminate; reflexivity.
  - destruct s as [|a s], e as [|b e]; try discriminate. rewrite rsum_S_l. cbn [sumddot].
    rewrite (IH s e) by (cbn in Hs, He; lia). rewrite ddot_contraction. reflexivity.
Qed.

Lemma power_rsum fm fm' i i' R0 R0' o o' :
  given_st (i_Sa i) /\ given_st (i_Ea i) -> given_st (i_Sa i') /\ given_st (i_Ea i') ->
  answers Ns Nd fm i R0 o -> answers Ns Nd fm' i' R0' o' ->
  power_of_on Ns Nd o o' = rsum n (fun k => lvec (grand (oFa o) (o_Ta o) (oSa o) (oFb o) (oDFb o)) k * lvec (grand (oUa o') (oOa o') (oEa o') (oUb o') (oHDUb o')) k).
Proof.
  intros GG GG' HA HA'.
  assert (SS : shaped_st Ns (oSa o)).
  { pose proof (proj1 (proj2 HA)) as SH. unfold of_shape in SH. destruct SH as (s1 & s2 & s3 & s4 & s5 & s6 & s7 & s8 & (s9 & s10) & (s11 & s12) & s13).
    destruct HA as (_ & _ & _ & K). destruct fm; try contradiction; try exact s13. destruct K as (_ & K & _). split; [exact s9|].
    intros t Ht. destruct (In_nth _ _ [] Ht) as (j & Hj & <-). split; [apply s10, nth_In; exact Hj|]. apply (proj1 GG). apply (kept_in _ 0 Ns); [exact K|lia|exact Hj]. }
  assert (SE : shaped_st Ns (oEa o')).
  { pose proof (proj1 (proj2 HA')) as SH. unfold of_shape in SH. destruct SH as (s1 & s2 & s3 & s4 & s5 & s6 & s7 & s8 & (s9 & s10) & (s11 & s12) & s13).
    destruct HA' as (_ & _ & _ & K). destruct fm'; try contradiction; try exact s13; destruct K as (_ & K & _); (split; [exact s11|]);
      (intros t Ht; destruct (In_nth _ _ [] Ht) as (j & Hj & <-); split; [apply s12, nth_In; exact Hj|]; apply (proj2 GG'); apply (kept_in _ 0 Ns); [exact K|lia|exact Hj]). }
  destruct HA as ((L1 & _ & _) & (H1 & H2 & H3 & H4 & _) & _). destruct HA' as ((_ & L2 & _) & (_ & _ & _ & _ & H5 & H6 & H7 & H8 & _) & _).
  unfold lvec. rewrite <- L1 at 1. rewrite <- ldot_rsum by lia.
  rewrite !(grand_packed Ns) by assumption. rewrite (packed_power Ns Nd) by assumption.
  rewrite (rowdot_rsum Ns _ _ H1 H5), (rowdot_rsum Ns _ _ H2 H6), (rowdot_rsum Nd _ _ H3 H7), (rowdot_rsum Nd _ _ H4 H8).
  rewrite (sumddot_rsum Ns); [|apply SS|apply SE]. unfold power_of_on. rewrite !rsum_plus. ring.
Qed.

Lemma answers_reciprocal fm fm' i i' R0 o o' : msym n R0 ->
  given_st (i_Sa i) /\ given_st (i_Ea i) -> given_st (i_Sa i') /\ given_st (i_Ea i') ->
  answers Ns Nd fm i R0 o -> answers Ns Nd fm' i' R0 o' -> power_of_on Ns Nd o o' = power_of_on Ns Nd o' o.
Proof.
  intros S GG GG' HA HA'. rewrite (power_rsum _ _ _ _ _ _ _ _ GG GG' HA HA'), (power_rsum _ _ _ _ _ _ _ _ GG' GG HA' HA).
  destruct HA as ((_ & _ & L) & _). destruct HA' as ((_ & _ & L') & _).
  set (u := lvec (grand (oUa o) (oOa o) (oEa o) (oUb o) (oHDUb o))) in *.
  set (f := lvec (grand (oFa o) (o_Ta o) (oSa o) (oFb o) (oDFb o))) in *.
  set (u' := lvec (grand (oUa o') (oOa o') (oEa o') (oUb o') (oHDUb o'))) in *.
  set (f' := lvec (grand (oFa o') (o_Ta o') (oSa o') (oFb o') (oDFb o'))) in *. clearbody u f u' f'.
  rewrite (rsum_ext n (fun k => f k * u' k) (fun k => rsum n (fun l => R0 k l * u l * u' k))).
  2:{ intros k Hk. rewrite (L k Hk). unfold mvec. rewrite <- rsum_scal_r. apply rsum_ext. intros. ring. }
  rewrite (rsum_ext n (fun k => f' k * u k) (fun k => rsum n (fun l => R0 k l * u' l * u k))).
  2:{ intros k Hk. rewrite (L' k Hk). unfold mvec. rewrite <- rsum_scal_r. apply rsum_ext. intros. ring. }
  rewrite rsum_swap. apply rsum_ext. intros k Hk. apply rsum_ext. intros l Hl. rewrite (S l k Hl Hk). ring.
Qed.
End Linear.
