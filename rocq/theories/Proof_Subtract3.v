(** Either sphere may be called the first; near field of the subtracted table. *)
From Coq Require Import Reals Arith Bool List Lia Lra FunctionalExtensionality.
From Verif Require Import Base Model_Pack Model_Mob Model_Layout Model_Minf Model_Grand Model_L Model_Close Model_R2B Model_Subtract
  Spec_Layout Spec_Minf Spec_R2B Spec_Close Spec_Subtract
  Proof_Layout Proof_Minf Proof_Minf2 Proof_Minf3 Proof_Minf4 Proof_R2B Proof_R2B2 Proof_R2B3 Proof_R2B4 Proof_Close Proof_Interp
  Proof_GrandP Proof_Subtract1 Proof_Subtract2.
Import ListNotations.
Local Open Scope R_scope.

Definition other (i : nat) : nat := (1 - i)%nat.
Lemma other_permutes : permutes 2 other.
Proof. split; unfold other; intros; lia. Qed.
Lemma none_permutes : permutes 0 (fun i => i). Proof. split; intros; lia. Qed.

Lemma norm_flip u v : norm (vsub u v) = norm (vsub v u).
Proof. unfold norm, vsub. f_equal. ring. Qed.
Lemma two_distinct x0 x1 a0 a1 : 0 < a0 -> 0 < a1 -> / 10 ^ 10 < norm (vsub x1 x0) ->
  distinct_beads 2 (bead_positions (two_spheres x0 x1 a0 a1)) (bead_sizes (two_spheres x0 x1 a0 a1)).
Proof.
  intros H0 H1 H. split.
  - intros b Hb. rewrite bead_size2 by (reflexivity || exact Hb). destruct b as [|[|b]]; cbn; assumption.
  - intros p q Hp Hq Ne. rewrite !bead_pos2 by (reflexivity || assumption). destruct p as [|[|p]], q as [|[|q]]; try lia; cbn; [rewrite norm_flip|]; exact H.
Qed.

Lemma pair_swap bb x0 x1 a0 a1 mu J J' k1 u k2 v i j : 0 < a0 -> 0 < a1 -> / 10 ^ 8 < norm (vsub x1 x0) ->
  is_inv 22 (generate_Minfinity bb (two_spheres x0 x1 a0 a1) mu) J ->
  is_inv 22 (generate_Minfinity bb (two_spheres x1 x0 a1 a0) mu) J' ->
  k1 <> KB -> k2 <> KB -> (u < 2)%nat -> (v < 2)%nat -> (i < ksize k1)%nat -> (j < ksize k2)%nat ->
  pair_block J' k1 u k2 v i j = pair_block J k1 (1 - u) k2 (1 - v) i j.
Proof.
  intros H0 H1 H8 HJ HJ' N1 N2 Hu Hv Hi Hj. set (p := two_spheres x0 x1 a0 a1) in *.
  assert (V1 : kvalid 2 0 k1 u) by (destruct k1; cbn; lia || congruence).
  assert (V2 : kvalid 2 0 k2 v) by (destruct k2; cbn; lia || congruence).
  pose proof (comp_relabel_permutes p other (fun i => i) other_permutes none_permutes) as HP.
  assert (HS : is_inv 22 (generate_Minfinity bb (two_spheres x1 x0 a1 a0) mu)
     (fun r c => J (comp_relabel p other (fun i => i) r) (comp_relabel p other (fun i => i) c))).
  { refine (is_inv_ext _ _ _ _ _ _ (fun _ _ _ _ => eq_refl) (is_inv_perm 22 _ _ _ HP HJ)).
    intros r c Hr Hc. transitivity (generate_Minfinity bb (relabel other (fun i => i) p) mu r c).
    - symmetry. destruct (block_cover 2 0 r Hr) as (k & b & x & V & Hx & ->).
      destruct (block_cover 2 0 c Hc) as (k' & b' & x' & V' & Hx' & ->).
      pose proof (comp_relabel_block p other (fun i => i) k b x V Hx) as E1. pose proof (comp_relabel_block p other (fun i => i) k' b' x' V' Hx') as E2.
      change (num_spheres p) with 2%nat in E1, E2. rewrite E1, E2.
      apply (gen_relabel bb p mu other (fun i => i)); try assumption; try apply other_permutes; try apply none_permutes.
      apply two_distinct; try assumption. pose proof e10. lra.
    - apply two_ext; try reflexivity; try assumption.
      + intros [|[|b]] Hb; [| |lia]; cbn; auto.
      + intros [|[|b]] t Hb Ht; [| |lia]; reflexivity. }
  unfold pair_block.
  rewrite (is_inv_unique 22 _ J' _ HJ' HS) by (apply (block_range 2 0 _ _ _); assumption).
  pose proof (comp_relabel_block p other (fun i => i) k1 u i V1 Hi) as E1. pose proof (comp_relabel_block p other (fun i => i) k2 v j V2 Hj) as E2.
  change (num_spheres p) with 2%nat in E1, E2. rewrite E1, E2. unfold bead_relabel.
  destruct (Nat.ltb_spec u 2); [|lia]. destruct (Nat.ltb_spec v 2); [|lia]. reflexivity.
Qed.
Lemma pair_sym bb x0 x1 a0 a1 mu J k1 u k2 v i j : is_inv 22 (generate_Minfinity bb (two_spheres x0 x1 a0 a1) mu) J ->
  k1 <> KB -> k2 <> KB -> (u < 2)%nat -> (v < 2)%nat -> (i < ksize k1)%nat -> (j < ksize k2)%nat ->
  pair_block J k1 u k2 v i j = pair_block J k2 v k1 u j i.
Proof.
  intros HJ N1 N2 Hu Hv Hi Hj.
  assert (V1 : kvalid 2 0 k1 u) by (destruct k1; cbn; lia || congruence).
  assert (V2 : kvalid 2 0 k2 v) by (destruct k2; cbn; lia || congruence).
  assert (SJ : msym 22 J).
  { apply (is_inv_sym 22 (generate_Minfinity bb (two_spheres x0 x1 a0 a1) mu)); [apply (gen_sym bb (two_spheres x0 x1 a0 a1) mu)|exact HJ]. }
  unfold pair_block. apply SJ; apply (block_range 2 0 _ _ _); assumption.
Qed.

(** ** The table *)
Lemma isclose_true x y : isclose x y = true <-> Rabs (x - y) <= / 10 ^ 8 + / 10 ^ 5 * Rabs y.
Proof. unfold isclose. rewrite Rleb_spec. reflexivity. Qed.
Lemma lam_from k table lam : In lam table -> (forall l, In l table -> l <> lam -> / 10 ^ 8 + / 10 ^ 5 * Rabs lam < Rabs (l - lam)) ->
  exists t, lam_index_from k table lam = Some (k + t)%nat /\ (t < length table)%nat /\ nth t table 0 = lam.
Proof.
  revert k. induction table as [|x l IH]; intros k HI HD; [destruct HI|]. cbn [lam_index_from].
  destruct (Req_EM_T x lam) as [->|Ne].
  - replace (isclose lam lam) with true.
    + exists 0%nat. repeat split; [f_equal; lia|cbn; lia].
    + symmetry. apply isclose_true. unfold Rminus. rewrite Rplus_opp_r, Rabs_R0.
      assert (0 < / 10 ^ 8) by (apply Rinv_0_lt_compat, pow_lt; lra). assert (0 < / 10 ^ 5) by (apply Rinv_0_lt_compat, pow_lt; lra).
      pose proof (Rabs_pos lam). nra.
  - replace (isclose x lam) with false.
    + destruct HI as [E|HI]; [congruence|]. destruct (IH (S k) HI) as (t & A & B & C).
      * intros l' Hl' Hn. apply HD; [right; exact Hl'|exact Hn].
      * exists (S t). rewrite A. repeat split; [f_equal; lia|cbn; lia|exact C].
    + symmetry. apply not_true_iff_false. rewrite isclose_true. pose proof (HD x (or_introl eq_refl) Ne). lra.
Qed.
Lemma lam_ix_at lams lam : distinguishable lams -> In lam lams ->
  (lam_ix lams lam < length lams)%nat /\ nth (lam_ix lams lam) lams 0 = lam.
Proof.
  intros HD HI. destruct (lam_from 0 lams lam HI) as (t & A & B & C).
  - intros l Hl Hn. apply HD; assumption.
  - unfold lam_ix, lam_index. rewrite A. cbn. auto.
Qed.
Lemma sub_node inv bb lams srange raw n g s lam : increasing srange -> distinguishable lams -> In s srange -> In lam lams ->
  XYZ (subtract_R2Binfinity inv bb lams srange raw) srange n g s (lam_ix lams lam)
  = XYZ raw srange n g s (lam_ix lams lam) - extract (inv 22%nat (generate_Minfinity bb (pair_posdata lam s) 1)) n g.
Proof.
  intros HI HD Hs Hl. destruct (In_nth srange s 0 Hs) as (t & Ht & <-). destruct (lam_ix_at lams lam HD Hl) as [B C].
  rewrite !XYZ_node by assumption. unfold subtract_R2Binfinity, subtract_with.
  rewrite (proj2 (Nat.ltb_lt _ _) Ht), (proj2 (Nat.ltb_lt _ _) B), C. reflexivity.
Qed.

Lemma condense_minus f g m : condense_idx (fun k l => f k l - g k l) m = condense_idx f m - condense_idx g m.
Proof.
  unfold condense_idx. rewrite <- rsum_minus. apply rsum_ext. intros. rewrite <- rsum_minus. apply rsum_ext. intros. ring.
Qed.
Lemma condense_ext' f g m : (forall k l, f k l = g k l) -> condense_idx f m = condense_idx g m.
Proof. intros H. f_equal. apply functional_extensionality. intros k. apply functional_extensionality. intros l. apply H. Qed.
Lemma two_body_minus f g k1 k2 d b i j : (mrank k2 <= mrank k1)%nat ->
  two_body (fun n => f n - g n) k1 k2 d b i j = two_body f k1 k2 d b i j - two_body g k1 k2 d b i j.
Proof.
  intros Hk. destruct k1, k2; cbn [mrank] in Hk; try lia; cbn [two_body]; try ring;
  rewrite <- Rmult_minus_distr_l, <- condense_minus; f_equal; apply condense_ext'; intros k l; try ring.
  rewrite <- condense_minus. apply condense_ext'. intros m n. ring.
Qed.
