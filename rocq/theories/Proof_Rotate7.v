(** The near-field matrix and the grand resistance matrix of a turned configuration. *)
From Coq Require Import Reals Arith Bool List Lia Lra FunctionalExtensionality.
From Verif Require Import Base Model_Pack Model_Mob Model_Layout Model_Minf Model_L Model_Close Model_R2B
  Spec_Layout Spec_Minf Spec_R2B Spec_Close Spec_Rotate
  Proof_Mob2 Proof_Layout Proof_Minf Proof_Minf3 Proof_R2B3 Proof_R2B4 Proof_Close
  Proof_Rotate1 Proof_Rotate2 Proof_Rotate3 Proof_Rotate4 Proof_Rotate5 Proof_Rotate6.
Import ListNotations.
Local Open Scope R_scope.

Section Near.
Variable Q : mat.
Hypothesis HQ : orthogonal Q.
Notation q := (rot Q).

Lemma sq_opp d : sq (vopp d) = sq d. Proof. unfold sq, vopp. ring. Qed.
Lemma cross_rot sc ix k1 k2 d s ap aq i j : sq d = 1 -> (i < ksize k1)%nat -> (j < ksize k2)%nat ->
  cross_block sc ix k1 k2 (q d) s ap aq i j = turned_block Q k1 k2 (cross_block sc ix k1 k2 d s ap aq) i j.
Proof.
  intros Hd Hi Hj. unfold cross_block. destruct (Nat.leb (mrank k2) (mrank k1)).
  - apply two_body_rot; assumption.
  - rewrite q_opp, (two_body_rot Q HQ) by (assumption || (rewrite sq_opp; assumption)). rewrite (block_swap Q k1 k2). reflexivity.
Qed.
Lemma self_rot sc ix k1 k2 d s ap aq i j : sq d = 1 -> (i < ksize k1)%nat -> (j < ksize k2)%nat ->
  self_block sc ix k1 k2 (q d) s ap aq i j = turned_block Q k1 k2 (self_block sc ix k1 k2 d s ap aq) i j.
Proof.
  intros Hd Hi Hj. unfold self_block. destruct (Nat.leb (mrank k2) (mrank k1)).
  - apply two_body_rot; assumption.
  - rewrite (two_body_rot Q HQ) by assumption. rewrite (block_swap Q k1 k2). reflexivity.
Qed.
Lemma block_zero k1 k2 i j : turned_block Q k1 k2 (fun _ _ => 0) i j = 0.
Proof. unfold turned_block. apply rsum_zero. intros. apply rsum_zero. intros. ring. Qed.
Lemma block_sum k1 k2 n (f : nat -> nat -> nat -> R) i j :
  turned_block Q k1 k2 (fun x y => rsum n (fun t => f t x y)) i j = rsum n (fun t => turned_block Q k1 k2 (f t) i j).
Proof.
  unfold turned_block. rewrite (rsum_swap n (ksize k1)). apply rsum_ext. intros x _. rewrite (rsum_swap n (ksize k2)). apply rsum_ext. intros y _.
  rewrite rsum_scal_l. reflexivity.
Qed.
Lemma dir_rot x p b : direction (fun b => q (x b)) p b = q (direction x p b).
Proof. unfold direction. rewrite q_sub, (rot_norm Q HQ), q_scal. reflexivity. Qed.
Lemma dist_rot x a p b : scaled_distance (fun b => q (x b)) a p b = scaled_distance x a p b.
Proof. unfold scaled_distance. rewrite q_sub, (rot_norm Q HQ). reflexivity. Qed.
Lemma dir_unit x p b : 0 < norm (vsub (x b) (x p)) -> sq (direction x p b) = 1.
Proof.
  intros H. unfold direction. set (r := vsub (x b) (x p)) in *.
  assert (E : norm r ^ 2 = sq r). { unfold norm, sq. rewrite <- Rsqr_pow2, Rsqr_sqrt; [ring|nra]. }
  transitivity (/ norm r * / norm r * sq r); [unfold sq, vscal; ring|]. rewrite <- E. field. lra.
Qed.

Lemma free_rot sc ix bb x a n cf k1 p k2 b i j : distinct_beads n x a -> (p < n)%nat -> (b < n)%nat ->
  (i < ksize k1)%nat -> (j < ksize k2)%nat ->
  free_resistance sc ix bb (fun b => q (x b)) a n cf k1 p k2 b i j
  = turned_block Q k1 k2 (fun s t => free_resistance sc ix bb x a n cf k1 p k2 b s t) i j.
Proof.
  intros [_ Hx] Hp Hb Hi Hj.
  assert (U : forall b', (b' < n)%nat -> b' <> p -> sq (direction x p b') = 1).
  { intros b' Hb' N. apply dir_unit. pose proof tiny_pos as P. unfold tiny in P. specialize (Hx b' p Hb' Hp N). lra. }
  unfold free_resistance. rewrite !dist_rot, !dir_rot.
  destruct (Nat.eqb_spec p b) as [<-|N].
  - rewrite (block_sum k1 k2 n). apply rsum_ext. intros b' Hb'. rewrite dist_rot, dir_rot.
    destruct (Nat.eqb_spec b' p) as [->|N']; cbn [negb andb]; [symmetry; apply block_zero|].
    destruct (Rlt_dec (scaled_distance x a p b') (2 * cf)); [|symmetry; apply block_zero].
    apply (self_rot sc ix k1 k2); auto.
  - assert (P : (if (if Rlt_dec (scaled_distance x a p b) (2 * cf) then true else false)
        then cross_block sc ix k1 k2 (q (direction x p b)) (scaled_distance x a p b) (a p) (a b) i j else 0)
      = turned_block Q k1 k2 (fun s t => if (if Rlt_dec (scaled_distance x a p b) (2 * cf) then true else false)
        then cross_block sc ix k1 k2 (direction x p b) (scaled_distance x a p b) (a p) (a b) s t else 0) i j).
    { destruct (Rlt_dec (scaled_distance x a p b) (2 * cf)); [|symmetry; apply block_zero]. apply (cross_rot sc ix k1 k2); auto. }
    destruct k1, k2; try exact P. destruct bb; [exact P|symmetry; apply block_zero].
Qed.

(** The list of close pairs. *)
Definition turn_pair (t : cpair) : cpair := mkCpair (cp1 t) (cp2 t) (q (cp_disp t)) (cp_dist t) (cp_ratio t).
Lemma close_turned x a n cf : close_particles_free (fun b => q (x b)) a n cf = map turn_pair (close_particles_free x a n cf).
Proof.
  unfold close_particles_free. rewrite map_map.
  assert (E : forall f : nat * nat, norm (vsub (q (x (fst f))) (q (x (snd f)))) = norm (vsub (x (fst f)) (x (snd f)))).
  { intros f. rewrite q_sub. apply rot_norm. exact HQ. }
  rewrite (filter_ext (fun f => Rltb (norm (vsub (q (x (fst f))) (q (x (snd f)))) / (1 / 2 * (a (snd f) + a (fst f)))) (2 * cf))
    (fun f => Rltb (norm (vsub (x (fst f)) (x (snd f))) / (1 / 2 * (a (snd f) + a (fst f)))) (2 * cf))) by (intros; rewrite E; reflexivity).
  apply map_ext. intros f. unfold turn_pair. cbn [cp1 cp2 cp_disp cp_dist cp_ratio]. rewrite E, q_sub, q_scal. reflexivity.
Qed.

Section Mat.
Variables (sc : nat -> nat -> R -> nat -> R) (table : list R) (bb : bool) (p : posdata) (cf mu : R).
Let Ns := num_spheres p.
Let Nd := num_dumbbells p.
Let n := (Ns + 2 * Nd)%nat.
Let x := bead_positions p.
Let a := bead_sizes p.
Hypothesis Hcf : 0 < cf.
Hypothesis HD : distinct_beads n x a.

Lemma near_none : generate_R2Bexact_free sc table bb (turned Q p) cf mu = None <-> generate_R2Bexact_free sc table bb p cf mu = None.
Proof.
  unfold generate_R2Bexact_free. cbn [turned num_spheres num_dumbbells]. change (mkPos _ _ _ _ _ _ _) with (turned Q p).
  change (bead_sizes (turned Q p)) with a. fold Ns Nd n.
  replace (bead_positions (turned Q p)) with (fun b => q (x b)) by (apply functional_extensionality; intros b; symmetry; apply bead_positions_turned).
  fold x a. unfold generate_R2Bexact.
  pose proof (loop_fails_iff sc table bb a Ns Nd (close_particles_free (fun b => q (x b)) a n cf) n (free_close_list _ a n cf Hcf) (proj1 HD)) as A.
  pose proof (loop_fails_iff sc table bb a Ns Nd (close_particles_free x a n cf) n (free_close_list x a n cf Hcf) (proj1 HD)) as B.
  assert (E : generate_R2Bexact_loop sc table bb a Ns Nd (close_particles_free (fun b => q (x b)) a n cf) = None <->
     generate_R2Bexact_loop sc table bb a Ns Nd (close_particles_free x a n cf) = None).
  { rewrite A, B, close_turned. split.
    - intros (t & I & H). apply in_map_iff in I. destruct I as (t0 & <- & I). exists t0. split; [exact I|exact H].
    - intros (t & I & H). exists (turn_pair t). split; [apply in_map; exact I|exact H]. }
  destruct (generate_R2Bexact_loop sc table bb a Ns Nd (close_particles_free (fun b => q (x b)) a n cf));
  destruct (generate_R2Bexact_loop sc table bb a Ns Nd (close_particles_free x a n cf)); destruct E as [E1 E2]; split; intros H; try discriminate; try reflexivity.
  - discriminate (E2 eq_refl).
  - discriminate (E1 eq_refl).
Qed.

Lemma near_loop_blocks M M' :
  generate_R2Bexact_loop sc table bb a Ns Nd (close_particles_free x a n cf) = Some M ->
  generate_R2Bexact_loop sc table bb a Ns Nd (close_particles_free (fun b => q (x b)) a n cf) = Some M' ->
  blocks_turned Q Ns Nd M M'.
Proof.
  intros HM HM'.
  assert (SY : forall pairs G, generate_R2Bexact_loop sc table bb a Ns Nd pairs = Some G -> msym (11 * Ns + 6 * Nd) G).
  { intros pairs G H. unfold generate_R2Bexact_loop in H. destruct (fold_left _ _ _); [|discriminate]. injection H as <-. apply symmetrise_sym. }
  assert (W : forall k1 p1 k2 p2 i j, kvalid Ns Nd k1 p1 -> kvalid Ns Nd k2 p2 -> (i < ksize k1)%nat -> (j < ksize k2)%nat ->
     (mrank k1 <> mrank k2 \/ (p1 <= p2)%nat) -> ent Ns M' k1 p1 k2 p2 i j = turned_block Q k1 k2 (fun s t => ent Ns M k1 p1 k2 p2 s t) i j).
  { intros k1 p1 k2 p2 i j V1 V2 Hi Hj O.
    assert (O' : forall P, mrank k1 <> mrank k2 \/ (p1 <= p2)%nat \/ P) by (intros; tauto).
    unfold ent at 1. rewrite (free_loop_entry sc table bb (fun b => q (x b)) a Ns Nd cf k1 p1 k2 p2 i j Hcf (proj1 HD) V1 V2 Hi Hj (O' _) M' HM').
    rewrite (turned_block_ext Q k1 k2 (fun s t => ent Ns M k1 p1 k2 p2 s t) (fun s t => free_resistance sc (lam_ix table) bb x a n cf k1 p1 k2 p2 s t)).
    - apply free_rot; try assumption; unfold n; eapply kvalid_nb; eassumption.
    - intros s t Hs Ht. apply (free_loop_entry sc table bb x a Ns Nd cf k1 p1 k2 p2 s t Hcf (proj1 HD) V1 V2 Hs Ht (O' _) M HM). }
  intros k1 p1 k2 p2 i j V1 V2 Hi Hj.
  destruct (Nat.eq_dec (mrank k1) (mrank k2)) as [E|E]; [|apply W; auto].
  destruct (le_lt_dec p1 p2) as [L|L]; [apply W; auto|].
  unfold ent at 1. rewrite (SY _ _ HM') by (apply block_range; assumption).
  change (M' (kstart Ns k2 p2 + j)%nat (kstart Ns k1 p1 + i)%nat) with (ent Ns M' k2 p2 k1 p1 j i).
  rewrite W by (assumption || (right; lia)). rewrite (block_swap Q k1 k2). apply turned_block_ext. intros s t Hs Ht. unfold ent.
  apply (SY _ _ HM); apply block_range; assumption.
Qed.

Theorem near_blocks G G' : generate_R2Bexact_free sc table bb p cf mu = Some G ->
  generate_R2Bexact_free sc table bb (turned Q p) cf mu = Some G' -> blocks_turned Q Ns Nd G G'.
Proof.
  unfold generate_R2Bexact_free. cbn [turned num_spheres num_dumbbells]. change (mkPos _ _ _ _ _ _ _) with (turned Q p).
  change (bead_sizes (turned Q p)) with a. fold Ns Nd n.
  replace (bead_positions (turned Q p)) with (fun b => q (x b)) by (apply functional_extensionality; intros b; symmetry; apply bead_positions_turned).
  fold x a. intros H H'.
  destruct (gen_r2b_some _ _ _ _ _ _ _ _ _ H) as (M & HM & _ & EG). destruct (gen_r2b_some _ _ _ _ _ _ _ _ _ H') as (M' & HM' & _ & EG').
  pose proof (near_loop_blocks M M' HM HM') as L.
  intros k1 b1 k2 b2 i j V1 V2 Hi Hj. unfold ent at 1. rewrite EG' by (apply block_range; assumption).
  rewrite (turned_block_ext Q k1 k2 _ (fun s t => mu * ent Ns (r2b_transform Ns Nd M) k1 b1 k2 b2 s t))
    by (intros; unfold ent; apply EG; apply block_range; assumption).
  rewrite block_scal. f_equal. change (r2b_transform Ns Nd M' (kstart Ns k1 b1 + i)%nat (kstart Ns k2 b2 + j)%nat) with (ent Ns (r2b_transform Ns Nd M') k1 b1 k2 b2 i j).
  rewrite r2b_transform_ent by assumption.
  rewrite (turned_block_ext Q k1 k2 _ (fun s t => wsum Ns Nd 1 k2 b2 (fun q' => wsum Ns Nd 1 k1 b1 (fun p' => ent Ns M k1 p' k2 q' s t))))
    by (intros; apply r2b_transform_ent; assumption).
  rewrite <- (wsum_block Q _ _ _ _ _ _ _ (fun q' s t => wsum Ns Nd 1 k1 b1 (fun p' => ent Ns M k1 p' k2 q' s t))).
  apply wsum_eq; [|assumption]. intros q' Vq. rewrite <- (wsum_block Q _ _ _ _ _ _ _ (fun p' s t => ent Ns M k1 p' k2 q' s t)).
  apply wsum_eq; [|assumption]. intros p' Vp. apply L; assumption.
Qed.
End Mat.
End Near.
