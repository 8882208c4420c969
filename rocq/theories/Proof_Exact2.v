(** Blocks of the near field of two spheres, from a table of their scalars. *)
From Coq Require Import Reals Arith List Bool Lra Lia FunctionalExtensionality.
From Verif Require Import Base Model_Mob Model_Pack Model_Minf Model_R2B Model_Close Model_Scalars Spec_Layout Spec_Minf Spec_Convert Spec_Posdef Spec_Scalars
  Spec_Rotate Spec_R2B Spec_Close Spec_Subtract Spec_Exact
  Proof_Minf Proof_Minf3 Proof_Rotate3 Proof_Axi1 Proof_Table2 Proof_Layout Proof_Lamb2 Proof_Interp Proof_R2B4 Proof_Two3 Proof_Subtract3 Proof_Subtract4 Proof_Exact1.
Import ListNotations.
Local Open Scope R_scope.

Lemma governs_at sc a X d p q : 0 < a -> (forall n, (n < 11)%nat -> sc n = scalar X n p q / (a ^ length_power n * table_scale n)) ->
  governs sc a X d d p q.
Proof.
  intros Ha H. pose proof PI_RGT_0 as Hpi. unfold governs, two_body.
  rewrite (H 0%nat), (H 1%nat), (H 2%nat), (H 3%nat), (H 4%nat), (H 5%nat), (H 6%nat), (H 7%nat), (H 8%nat), (H 9%nat), (H 10%nat) by lia.
  unfold table_scale, length_power. cbn [nth].
  repeat split; intros i j; unfold tA, tB, tC, trans; try (field; lra).
  - rewrite <- condense_scal. apply condense_ext2. intros k l. unfold tG, dev, trans. field. lra.
  - rewrite <- condense_scal. apply condense_ext2. intros k l. unfold tH. field. lra.
  - rewrite <- condense_scal. apply condense_ext2. intros k l. rewrite <- condense_scal. apply condense_ext2. intros m n.
    unfold tM, dev, trans. field. lra.
Qed.
Lemma governs_back sc a X d p q : 0 < a ->
  (forall n, (n < 11)%nat -> sc n = (if odd_family n then - 1 else 1) * scalar X n p q / (a ^ length_power n * table_scale n)) ->
  governs sc a X (vopp d) d p q.
Proof.
  intros Ha H. pose proof PI_RGT_0 as Hpi. unfold governs, two_body.
  rewrite (H 0%nat), (H 1%nat), (H 2%nat), (H 3%nat), (H 4%nat), (H 5%nat), (H 6%nat), (H 7%nat), (H 8%nat), (H 9%nat), (H 10%nat) by lia.
  unfold table_scale, length_power, odd_family. cbn [nth].
  repeat split; intros i j; unfold tA, tB, tC, trans, vopp; cbn [rsum]; try (field; lra).
  - rewrite <- condense_scal. apply condense_ext2. intros k l. unfold tG, dev, trans. field. lra.
  - rewrite <- condense_scal. apply condense_ext2. intros k l. unfold tH. cbn [rsum]. field. lra.
  - rewrite <- condense_scal. apply condense_ext2. intros k l. rewrite <- condense_scal. apply condense_ext2. intros m n.
    unfold tM, dev, trans. field. lra.
Qed.

Section Pair.
Variables (x X : R -> R -> R -> nat -> R) (lams srange : list R) (raw : nat -> nat -> nat -> nat -> R).
Hypothesis HX : two_sphere_scalars x X.
Hypothesis HT : tabulates X lams srange raw.
Hypothesis Hinc : increasing srange.
Hypothesis Hdis : distinguishable lams.

Lemma table_read n g a a' r : (n < 11)%nat -> (g < 2)%nat -> 0 < a -> 0 < a' -> a + a' < r -> In (2 * r / (a + a')) srange -> In (a' / a) lams ->
  XYZ raw srange n g (2 * r / (a + a')) (lam_ix lams (a' / a)) = scalar (X a a' r) n 0 g / (a ^ length_power n * table_scale n).
Proof.
  intros Hn Hg Ha Ha' Hap Is Il. destruct (lam_ix_at lams _ Hdis Il) as [L1 L2]. destruct (In_nth _ _ 0 Is) as (t & Ht & Et).
  rewrite <- Et at 1. rewrite XYZ_node by assumption. rewrite HT by assumption. cbv zeta. rewrite L2, Et.
  destruct HX as (_ & Sc & _).
  replace (scalar (X a a' r) n 0 g) with (scalar (X (a * 1) (a * (a' / a)) (a * ((1 + a' / a) / 2 * (2 * r / (a + a'))))) n 0 g).
  - rewrite Sc; try assumption; try lra; try lia; try (apply Rdiv_lt_0_compat; assumption).
    2: { replace ((1 + a' / a) / 2 * (2 * r / (a + a'))) with (r / a) by (field; lra). apply Rmult_lt_reg_r with a; [exact Ha|].
         replace ((1 + a' / a) * a) with (a + a') by (field; lra). replace (r / a * a) with r by (field; lra). exact Hap. }
    assert (a ^ length_power n <> 0) by (apply pow_nonzero; lra).
    assert (table_scale n <> 0).
    { pose proof PI_RGT_0. unfold table_scale. do 11 (destruct n as [|n]; [cbn [nth]; lra|]). lia. }
    field. auto.
  - f_equal. f_equal; field; lra.
Qed.

Variables (x0 x1 : vec) (a0 a1 cf mu : R) (bb : bool) (G : mat).
Let p := two_spheres x0 x1 a0 a1.
Let r := norm (vsub x1 x0).
Let d := vscal (/ r) (vsub x1 x0).
Hypothesis H0 : 0 < a0.
Hypothesis H1 : 0 < a1.
Hypothesis Hcf : 0 < cf.
Hypothesis Hclose : 2 * r / (a0 + a1) < 2 * cf.
Hypothesis Is : In (2 * r / (a0 + a1)) srange.
Hypothesis Il : In (a1 / a0) lams.
Hypothesis Il' : In (a0 / a1) lams.
Hypothesis Hap : a0 + a1 < r.
Let Hr : 0 < r := Rlt_trans _ _ _ (Rplus_lt_0_compat _ _ H0 H1) Hap.
Hypothesis HG : generate_R2Bexact_free (XYZ raw srange) lams bb p cf mu = Some G.

Lemma first_governs g : (g < 2)%nat ->
  governs (fun n => XYZ raw srange n g (2 * r / (a0 + a1)) (lam_ix lams (a1 / a0))) a0 (X a0 a1 r) d d 0 g.
Proof. intros Hg. apply governs_at; [exact H0|]. intros n Hn. apply table_read; assumption. Qed.
Lemma second_governs g : (g < 2)%nat ->
  governs (fun n => XYZ raw srange n g (2 * r / (a0 + a1)) (lam_ix lams (a0 / a1))) a1 (X a0 a1 r) (vopp d) d 1 (1 - g).
Proof.
  intros Hg. apply governs_back; [exact H1|]. intros n Hn. rewrite (Rplus_comm a0 a1). rewrite table_read; try assumption; [|rewrite Rplus_comm; exact Hap|rewrite Rplus_comm; exact Is].
  destruct HX as (_ & _ & Ex & _). rewrite (Ex a0 a1 r n 0%nat g) by (assumption || lia). reflexivity.
Qed.

Lemma d_unit : unit_vector d.
Proof.
  unfold unit_vector, d, vscal. pose proof (norm_sqr (vsub x1 x0)) as N. fold r in N.
  set (v := vsub x1 x0) in *. transitivity (/ r * / r * (v 0%nat * v 0%nat + v 1%nat * v 1%nat + v 2%nat * v 2%nat)); [ring|]. rewrite <- N. field. lra.
Qed.

Let sc0 (g n : nat) : R := XYZ raw srange n g (2 * r / (a0 + a1)) (lam_ix lams (a1 / a0)).
Let sc1 (g n : nat) : R := XYZ raw srange n g (2 * r / (a0 + a1)) (lam_ix lams (a0 / a1)).

Lemma sizes_pos b : (b < num_spheres p + 2 * num_dumbbells p)%nat -> 0 < bead_sizes p b.
Proof. intros Hb. destruct b as [|[|b]]; cbn in Hb; [exact H0|exact H1|lia]. Qed.
Lemma dist01 : scaled_distance (bead_positions p) (bead_sizes p) 0 1 = 2 * r / (a0 + a1).
Proof. reflexivity. Qed.
Lemma dist10 : scaled_distance (bead_positions p) (bead_sizes p) 1 0 = 2 * r / (a0 + a1).
Proof. rewrite scaled_sym'. reflexivity. Qed.
Lemma dir01 : direction (bead_positions p) 0 1 = d.
Proof. reflexivity. Qed.
Lemma dir10 : direction (bead_positions p) 1 0 = vopp d.
Proof. rewrite direction_flip. reflexivity. Qed.

Lemma lower_block k1 u k2 v i j : k1 <> KB -> k2 <> KB -> (u < 2)%nat -> (v < 2)%nat -> (i < ksize k1)%nat -> (j < ksize k2)%nat ->
  (mrank k2 <= mrank k1)%nat -> (mrank k1 <> mrank k2 \/ (u <= v)%nat) ->
  pair_block G k1 u k2 v i j = mu * match u with
    | 0%nat => two_body (sc0 v) k1 k2 d a0 i j
    | _ => two_body (sc1 (1 - v)) k1 k2 (vopp d) a1 i j
    end.
Proof.
  intros N1 N2 Hu Hv Hi Hj Hk Hor.
  pose proof (sphere_near _ _ _ _ _ _ _ k1 u k2 v i j Hcf sizes_pos HG N1 N2 Hu Hv Hi Hj Hor) as E.
  unfold ent in E. change (num_spheres p) with 2%nat in E. unfold pair_block. rewrite E. f_equal. clear E.
  change (2 + 2 * num_dumbbells p)%nat with 2%nat. unfold free_resistance.
  assert (K : (mrank k2 <=? mrank k1)%nat = true) by (apply Nat.leb_le; exact Hk).
  destruct u as [|[|u]]; [| |lia]; (destruct v as [|[|v]]; [| |lia]); cbn [Nat.eqb rsum negb andb Nat.sub]; rewrite ?dist01, ?dist10, ?dir01, ?dir10.
  - destruct (Rlt_dec _ _) as [_|Q]; [|exfalso; exact (Q Hclose)]. unfold self_block. rewrite K. rewrite Rplus_0_l, ?Rplus_0_l. reflexivity.
  - destruct (Rlt_dec _ _) as [_|Q]; [|exfalso; exact (Q Hclose)]. unfold cross_block. rewrite K.
    destruct k1, k2; try congruence; reflexivity.
  - destruct (Rlt_dec _ _) as [_|Q]; [|exfalso; exact (Q Hclose)]. unfold cross_block. rewrite K.
    destruct k1, k2; try congruence; reflexivity.
  - destruct (Rlt_dec _ _) as [_|Q]; [|exfalso; exact (Q Hclose)]. unfold self_block. rewrite K. rewrite Rplus_0_l, Rplus_0_r. reflexivity.
Qed.

Lemma G_sym : msym 22 G.
Proof. exact (gen_r2b_sym _ _ _ _ _ _ _ _ _ HG). Qed.

Hypothesis Hmu : 0 < mu.
Definition per_mu (A : mat) : mat := fun i j => A i j / mu.
Lemma per_mu_sym : msym 22 (per_mu G).
Proof. intros i j Hi Hj. unfold per_mu. rewrite (G_sym i j Hi Hj). reflexivity. Qed.

Lemma delta_sym i j : delta i j = delta j i.
Proof. unfold delta. rewrite Nat.eqb_sym. reflexivity. Qed.

Theorem near_tensors : pair_tensors (X a0 a1 r) d (per_mu G).
Proof.
  intros u v Hu Hv.
  assert (Rec : forall n, In n [0; 1; 3; 4; 8; 9; 10]%nat -> scalar (X a0 a1 r) n 1 0 = scalar (X a0 a1 r) n 0 1).
  { intros n Hn. destruct HX as (_ & _ & _ & Re & _). apply Re; try assumption; lia. }
  assert (B : forall k1 k2 i j, k1 <> KB -> k2 <> KB -> (i < ksize k1)%nat -> (j < ksize k2)%nat ->
    (mrank k2 <= mrank k1)%nat -> (mrank k1 <> mrank k2 \/ (u <= v)%nat) ->
    pair_block (per_mu G) k1 u k2 v i j = match u with
    | 0%nat => two_body (sc0 v) k1 k2 d a0 i j
    | _ => two_body (sc1 (1 - v)) k1 k2 (vopp d) a1 i j
    end).
  { intros k1 k2 i j N1 N2 Hi Hj Hk Hor. pose proof (lower_block k1 u k2 v i j N1 N2 Hu Hv Hi Hj Hk Hor) as E.
    unfold pair_block, per_mu in *. rewrite E. field. lra. }
  assert (GV : forall k1 k2 i j, k1 <> KB -> k2 <> KB -> (i < ksize k1)%nat -> (j < ksize k2)%nat ->
    (mrank k2 <= mrank k1)%nat -> (mrank k1 <> mrank k2 \/ (u <= v)%nat) ->
    exists sc a dd, pair_block (per_mu G) k1 u k2 v i j = two_body sc k1 k2 dd a i j /\ governs sc a (X a0 a1 r) dd d u v).
  { intros k1 k2 i j N1 N2 Hi Hj Hk Hor. destruct u as [|[|u]]; [| |lia].
    - exists (sc0 v), a0, d. split; [exact (B k1 k2 i j N1 N2 Hi Hj Hk Hor)|apply first_governs; exact Hv].
    - exists (sc1 (1 - v)), a1, (vopp d). split; [exact (B k1 k2 i j N1 N2 Hi Hj Hk Hor)|].
      replace v with (1 - (1 - v))%nat at 2 by lia. apply second_governs; lia. }
  assert (W : forall k i j, k <> KB -> (i < ksize k)%nat -> (j < ksize k)%nat -> ~ (u <= v)%nat ->
    exists sc a dd, pair_block (per_mu G) k u k v i j = two_body sc k k dd a j i /\ governs sc a (X a0 a1 r) dd d v u).
  { intros k i j N Hi Hj L. assert (u = 1%nat) by lia. assert (v = 0%nat) by lia. subst u v.
    exists (sc0 1), a0, d. split; [|apply first_governs; lia].
    rewrite (blk_sym (per_mu G) per_mu_sym k 1 0 k) by (assumption || lia).
    pose proof (lower_block k 0 k 1 j i N N ltac:(lia) ltac:(lia) Hj Hi ltac:(lia) ltac:(right; lia)) as E.
    unfold pair_block, per_mu in *. rewrite E. field. lra. }
  split; [|split; [|split; [|split; [|split]]]].
  - intros i j Hi Hj. destruct (le_lt_dec u v) as [L|L].
    + destruct (GV KU KU i j) as (sc & a & dd & -> & (Q & _)); try discriminate; try assumption; try (cbn; lia). apply Q.
    + destruct (W KU i j) as (sc & a & dd & -> & (Q & _)); try discriminate; try assumption; try (cbn; lia). rewrite Q.
      assert (u = 1%nat) by lia. assert (v = 0%nat) by lia. subst u v. unfold tA. rewrite !Rec by (cbn; lia). rewrite (delta_sym j i). ring.
  - intros i j Hi Hj. destruct (GV KO KU i j) as (sc & a & dd & -> & (_ & Q & _)); try discriminate; try assumption; try (cbn; lia). apply Q.
  - intros i j Hi Hj. destruct (le_lt_dec u v) as [L|L].
    + destruct (GV KO KO i j) as (sc & a & dd & -> & (_ & _ & Q & _)); try discriminate; try assumption; try (cbn; lia). apply Q.
    + destruct (W KO i j) as (sc & a & dd & -> & (_ & _ & Q & _)); try discriminate; try assumption; try (cbn; lia). rewrite Q.
      assert (u = 1%nat) by lia. assert (v = 0%nat) by lia. subst u v. unfold tC. rewrite !Rec by (cbn; lia). rewrite (delta_sym j i). ring.
  - intros i j Hi Hj. destruct (GV KS KU i j) as (sc & a & dd & -> & (_ & _ & _ & Q & _)); try discriminate; try assumption; try (cbn; lia). apply Q.
  - intros i j Hi Hj. destruct (GV KS KO i j) as (sc & a & dd & -> & (_ & _ & _ & _ & Q & _)); try discriminate; try assumption; try (cbn; lia). apply Q.
  - intros m n Hm Hn. destruct (le_lt_dec u v) as [L|L].
    + destruct (GV KS KS m n) as (sc & a & dd & -> & (_ & _ & _ & _ & _ & Q)); try discriminate; try assumption; try (cbn; lia). apply Q.
    + destruct (W KS m n) as (sc & a & dd & -> & (_ & _ & _ & _ & _ & Q)); try discriminate; try assumption; try (cbn; lia). rewrite Q.
      assert (u = 1%nat) by lia. assert (v = 0%nat) by lia. subst u v.
      assert (E : forall i j k l, tM (X a0 a1 r) d 0 1 i j k l = tM (X a0 a1 r) d 1 0 k l i j).
      { intros i j k l. rewrite (tM_flip _ _ 1 0). unfold tM. rewrite !Rec by (cbn; lia). reflexivity. }
      unfold condense_idx. cbn [rsum]. rewrite !E. ring.
Qed.

Theorem near_law u f : linrel 22 G u f ->
  resistance_law (X a0 a1 r) d (vecs KU u) (vecs KO u) (vecs KU (fun t => f t / mu)) (vecs KO (fun t => f t / mu)) (tens u) (tens (fun t => f t / mu)).
Proof.
  intros L. apply (blocks_law _ d (per_mu G) d_unit near_tensors per_mu_sym). intros i Hi. rewrite (L i Hi). unfold per_mu.
  unfold Rdiv at 1. rewrite Rmult_comm, <- rsum_scal_l. apply rsum_ext. intros t Ht. field. lra.
Qed.
Theorem near_pos_def : pos_def 22 G.
Proof.
  assert (P : pos_def 22 (per_mu G)).
  { apply (blocks_pos_def _ d (per_mu G) d_unit near_tensors per_mu_sym). intros U O F T E S HE HM HL.
    destruct HX as (_ & _ & _ & _ & Di). exact (Di a0 a1 r d U O F T E S H0 H1 Hap d_unit HE HM HL). }
  intros u f L N. assert (Q : 0 < rsum 22 (fun i => u i * (f i / mu))).
  { apply P; [|exact N]. intros i Hi. rewrite (L i Hi). unfold per_mu.
    unfold Rdiv at 1. rewrite Rmult_comm, <- rsum_scal_l. apply rsum_ext. intros t Ht. field. lra. }
  replace (rsum 22 (fun i => u i * f i)) with (mu * rsum 22 (fun i => u i * (f i / mu))); [apply Rmult_lt_0_compat; assumption|].
  rewrite <- rsum_scal_l. apply rsum_ext. intros t Ht. field. lra.
Qed.
End Pair.
