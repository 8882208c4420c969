(** Near field of the subtracted table. *)
From Coq Require Import Reals Arith Bool List Lia Lra FunctionalExtensionality.
From Verif Require Import Base Model_Pack Model_Mob Model_Layout Model_Minf Model_Grand Model_L Model_Close Model_R2B Model_Subtract
  Spec_Layout Spec_Minf Spec_R2B Spec_Close Spec_Subtract
  Proof_Layout Proof_Minf Proof_Minf2 Proof_Minf3 Proof_Minf4 Proof_R2B Proof_R2B2 Proof_R2B3 Proof_R2B4 Proof_Close Proof_Interp
  Proof_GrandP Proof_Subtract1 Proof_Subtract2 Proof_Subtract3.
Import ListNotations.
Local Open Scope R_scope.

Lemma scaled_sym' x a p q : scaled_distance x a p q = scaled_distance x a q p.
Proof. unfold scaled_distance. rewrite norm_flip, (Rplus_comm (a p)). reflexivity. Qed.
Lemma direction_flip x p q : direction x q p = vopp (direction x p q).
Proof. unfold direction. rewrite norm_flip. apply functional_extensionality. intros t. unfold vscal, vopp, vsub. ring. Qed.

Lemma sphere_near sc table bb p cf mu G k1 u k2 v i j : 0 < cf -> (forall b, (b < num_spheres p + 2 * num_dumbbells p)%nat -> 0 < bead_sizes p b) ->
  generate_R2Bexact_free sc table bb p cf mu = Some G ->
  k1 <> KB -> k2 <> KB -> (u < num_spheres p)%nat -> (v < num_spheres p)%nat -> (i < ksize k1)%nat -> (j < ksize k2)%nat ->
  (mrank k1 <> mrank k2 \/ (u <= v)%nat) ->
  ent (num_spheres p) G k1 u k2 v i j =
  mu * free_resistance sc (lam_ix table) bb (bead_positions p) (bead_sizes p) (num_spheres p + 2 * num_dumbbells p) cf k1 u k2 v i j.
Proof.
  intros Hcf Ha HG N1 N2 Hu Hv Hi Hj Hor. set (Ns := num_spheres p) in *. set (Nd := num_dumbbells p) in *.
  assert (V1 : kvalid Ns Nd k1 u) by (destruct k1; cbn; lia || congruence).
  assert (V2 : kvalid Ns Nd k2 v) by (destruct k2; cbn; lia || congruence).
  destruct (gen_r2b_some _ _ _ _ _ _ _ _ _ HG) as (M & HM & _ & E). fold Ns Nd in HM, E.
  unfold ent. rewrite E by (apply block_range; assumption). f_equal.
  change (ent Ns (r2b_transform Ns Nd M) k1 u k2 v i j = free_resistance sc (lam_ix table) bb (bead_positions p) (bead_sizes p) (Ns + 2 * Nd) cf k1 u k2 v i j).
  rewrite r2b_transform_ent by assumption.
  assert (W : forall k b f, k <> KB -> wsum Ns Nd 1 k b f = f b) by (intros k b f Hk; unfold wsum; destruct k; reflexivity || congruence).
  rewrite !W by assumption. unfold ent.
  refine (free_loop_entry sc table bb (bead_positions p) (bead_sizes p) Ns Nd cf k1 u k2 v i j Hcf Ha V1 V2 Hi Hj _ M HM).
  destruct Hor as [H|H]; auto.
Qed.

Section Near.
Variables (inv : nat -> mat -> mat) (bb : bool) (lams srange : list R) (raw : nat -> nat -> nat -> nat -> R)
  (p : posdata) (cf mu : R) (J : nat -> nat -> mat).
Let Ns := num_spheres p.
Let nb := (num_spheres p + 2 * num_dumbbells p)%nat.
Let x := bead_positions p.
Let a := bead_sizes p.
Hypothesis Hinc : increasing srange. Hypothesis Hdis : distinguishable lams.
Hypothesis Hmu : mu <> 0. Hypothesis Hcf : 0 < cf. Hypothesis Ha : forall b, (b < nb)%nat -> 0 < a b.
Hypothesis Hnorm : forall lam s, In lam lams -> In s srange ->
  is_inv 22 (generate_Minfinity bb (pair_posdata lam s) 1) (inv 22%nat (generate_Minfinity bb (pair_posdata lam s) 1)).
Hypothesis Hclose : forall u v, (u < nb)%nat -> (v < nb)%nat -> u <> v -> scaled_distance x a u v < 2 * cf ->
  In (scaled_distance x a u v) srange /\ In (a v / a u) lams /\
  / 10 ^ 8 < norm (vsub (x v) (x u)) /\ / 10 ^ 8 < norm (vsub (x v) (x u)) / a u /\ pair_resistances bb x a mu J u v.

Lemma pair_value u v g k1 k2 i j : (u < nb)%nat -> (v < nb)%nat -> u <> v -> scaled_distance x a u v < 2 * cf -> (g < 2)%nat ->
  k1 <> KB -> k2 <> KB -> (mrank k2 <= mrank k1)%nat -> (i < ksize k1)%nat -> (j < ksize k2)%nat ->
  mu * two_body (fun n => XYZ raw srange n g (scaled_distance x a u v) (lam_ix lams (a v / a u))) k1 k2 (direction x u v) (a u) i j
  - mu * two_body (fun n => XYZ (subtract_R2Binfinity inv bb lams srange raw) srange n g (scaled_distance x a u v) (lam_ix lams (a v / a u))) k1 k2 (direction x u v) (a u) i j
  = pair_block (J u v) k1 0 k2 g i j.
Proof.
  intros Hu Hv Ne Hd Hg N1 N2 Hk Hi Hj. destruct (Hclose u v Hu Hv Ne Hd) as (Is & Il & E8 & E8' & HJ).
  rewrite <- Rmult_minus_distr_l, <- two_body_minus by exact Hk.
  replace (fun n => _ - _) with (fun n => extract (inv 22%nat (generate_Minfinity bb (pair_posdata (a v / a u) (scaled_distance x a u v)) 1)) n g).
  - symmetry. pose proof (pair_general bb (x u) (x v) (a u) (a v) mu (Ha u Hu) (Ha v Hv) Hmu E8 E8') as K.
    unfold scaled_distance, direction. apply K; try assumption. apply Hnorm; assumption.
  - apply functional_extensionality. intros n. rewrite sub_node by assumption. ring.
Qed.

Variables (G Gd : mat).
Hypothesis HG : generate_R2Bexact_free (XYZ raw srange) lams bb p cf mu = Some G.
Hypothesis HGd : generate_R2Bexact_free (XYZ (subtract_R2Binfinity inv bb lams srange raw) srange) lams bb p cf mu = Some Gd.

Lemma near_upper k1 u k2 v i j : k1 <> KB -> k2 <> KB -> (u < Ns)%nat -> (v < Ns)%nat -> (i < ksize k1)%nat -> (j < ksize k2)%nat ->
  (mrank k1 <> mrank k2 \/ (u <= v)%nat) ->
  ent Ns G k1 u k2 v i j - ent Ns Gd k1 u k2 v i j = pairwise_far_field J x a nb cf k1 u k2 v i j.
Proof.
  intros N1 N2 Hu Hv Hi Hj Hor.
  unfold Ns. rewrite (sphere_near _ _ _ _ _ _ _ _ _ _ _ _ _ Hcf Ha HG N1 N2 Hu Hv Hi Hj Hor).
  rewrite (sphere_near _ _ _ _ _ _ _ _ _ _ _ _ _ Hcf Ha HGd N1 N2 Hu Hv Hi Hj Hor).
  assert (LN : (Ns <= nb)%nat) by (unfold Ns, nb; lia).
  fold nb x a. unfold free_resistance, pairwise_far_field. destruct (Nat.eqb_spec u v) as [<-|Ne].
  - rewrite <- !rsum_scal_l, <- rsum_minus. apply rsum_ext. intros w Hw.
    destruct (Nat.eqb_spec w u) as [->|Nw]; cbn [negb andb]; [ring|].
    destruct (Rlt_dec _ _) as [Hd|_]; [|ring]. unfold self_block.
    assert (Hub : (u < nb)%nat) by lia.
    destruct (Nat.leb_spec (mrank k2) (mrank k1)) as [L|L].
    + apply pair_value; try assumption; try lia; try congruence.
    + rewrite (pair_sym bb (x u) (x w) (a u) (a w) mu) by (try assumption; try lia; apply (Hclose u w); try assumption; congruence).
      apply pair_value; try assumption; try lia; try congruence.
  - replace (match k1, k2, bb with KB, KB, false => 0 | _, _, _ => _ end) with
      (if Rlt_dec (scaled_distance x a u v) (2 * cf) then cross_block (XYZ raw srange) (lam_ix lams) k1 k2 (direction x u v) (scaled_distance x a u v) (a u) (a v) i j else 0)
      by (destruct k1, k2; try reflexivity; try congruence; destruct (Rlt_dec _ _); reflexivity).
    set (R2 := match k1, k2, bb with KB, KB, false => 0 | _, _, _ => _ end).
    replace R2 with
      (if Rlt_dec (scaled_distance x a u v) (2 * cf) then cross_block (XYZ (subtract_R2Binfinity inv bb lams srange raw) srange) (lam_ix lams) k1 k2 (direction x u v) (scaled_distance x a u v) (a u) (a v) i j else 0)
      by (unfold R2; destruct k1, k2; try reflexivity; try congruence; destruct (Rlt_dec _ _); reflexivity). clear R2.
    destruct (Rlt_dec _ _) as [Hd|_]; [|ring].
    unfold cross_block. assert (Hub : (u < nb)%nat) by lia. assert (Hvb : (v < nb)%nat) by lia.
    destruct (Nat.leb_spec (mrank k2) (mrank k1)) as [L|L].
    + apply pair_value; assumption || lia.
    + destruct (Hclose u v Hub Hvb Ne Hd) as (_ & _ & E8 & _ & HJ).
      assert (Hd' : scaled_distance x a v u < 2 * cf) by (rewrite scaled_sym'; exact Hd).
      destruct (Hclose v u Hvb Hub (not_eq_sym Ne) Hd') as (_ & _ & _ & _ & HJ').
      rewrite (pair_sym bb (x u) (x v) (a u) (a v) mu) by (assumption || lia).
      pose proof (pair_swap bb (x u) (x v) (a u) (a v) mu (J u v) (J v u) k2 0 k1 1 j i (Ha u Hub) (Ha v Hvb) E8 HJ HJ' N2 N1 ltac:(lia) ltac:(lia) Hj Hi) as SW.
      cbn [Nat.sub] in SW. rewrite <- SW. rewrite <- direction_flip, (scaled_sym' x a u v).
      apply pair_value; try assumption; try lia; try congruence.
Qed.

Lemma far_flip k1 u k2 v i j : k1 <> KB -> k2 <> KB -> (u < Ns)%nat -> (v < Ns)%nat -> (i < ksize k1)%nat -> (j < ksize k2)%nat ->
  pairwise_far_field J x a nb cf k1 u k2 v i j = pairwise_far_field J x a nb cf k2 v k1 u j i.
Proof.
  intros N1 N2 Hu Hv Hi Hj. assert (LN : (Ns <= nb)%nat) by (unfold Ns, nb; lia). assert (Hub : (u < nb)%nat) by lia. assert (Hvb : (v < nb)%nat) by lia.
  unfold pairwise_far_field. rewrite (Nat.eqb_sym v u). destruct (Nat.eqb_spec u v) as [<-|Ne].
  - apply rsum_ext. intros w Hw. destruct (Nat.eqb_spec w u) as [->|Nw]; cbn [negb andb]; [reflexivity|].
    destruct (Rlt_dec _ _) as [Hd|_]; [|reflexivity].
    apply (pair_sym bb (x u) (x w) (a u) (a w) mu); try assumption; try lia. apply (Hclose u w); try assumption. congruence.
  - rewrite (scaled_sym' x a v u). destruct (Rlt_dec _ _) as [Hd|_]; [|reflexivity].
    destruct (Hclose u v Hub Hvb Ne Hd) as (_ & _ & E8 & _ & HJ).
    assert (Hd' : scaled_distance x a v u < 2 * cf) by (rewrite scaled_sym'; exact Hd).
    destruct (Hclose v u Hvb Hub (not_eq_sym Ne) Hd') as (_ & _ & _ & _ & HJ').
    rewrite (pair_sym bb (x u) (x v) (a u) (a v) mu) by (assumption || lia).
    pose proof (pair_swap bb (x u) (x v) (a u) (a v) mu (J u v) (J v u) k2 0 k1 1 j i (Ha u Hub) (Ha v Hvb) E8 HJ HJ' N2 N1 ltac:(lia) ltac:(lia) Hj Hi) as SW.
    symmetry. exact SW.
Qed.

Theorem near_subtracted k1 u k2 v i j : k1 <> KB -> k2 <> KB -> (u < Ns)%nat -> (v < Ns)%nat -> (i < ksize k1)%nat -> (j < ksize k2)%nat ->
  ent Ns G k1 u k2 v i j - ent Ns Gd k1 u k2 v i j = pairwise_far_field J x a nb cf k1 u k2 v i j.
Proof.
  intros N1 N2 Hu Hv Hi Hj. destruct (le_lt_dec u v) as [L|L]; [apply near_upper; auto|].
  assert (V1 : kvalid Ns (num_dumbbells p) k1 u) by (destruct k1; cbn; lia || congruence).
  assert (V2 : kvalid Ns (num_dumbbells p) k2 v) by (destruct k2; cbn; lia || congruence).
  rewrite far_flip by assumption. rewrite <- near_upper by (try assumption; right; lia). unfold ent. f_equal.
  - apply (gen_r2b_sym _ _ _ _ _ _ _ _ _ HG); apply block_range; assumption.
  - apply (gen_r2b_sym _ _ _ _ _ _ _ _ _ HGd); apply block_range; assumption.
Qed.
End Near.
