(** Turning grand vectors, and the far-field mobility matrix. *)
From Coq Require Import Reals Arith Bool List Lia Lra FunctionalExtensionality.
From Verif Require Import Base Model_Pack Model_Mob Model_Layout Model_Minf Model_L Spec_Layout Spec_Minf Spec_Rotate
  Proof_Mob2 Proof_Layout Proof_Minf Proof_Minf2 Proof_Minf3 Proof_Minf4 Proof_Rotate1 Proof_Rotate2 Proof_Rotate3 Proof_Rotate4.
Import ListNotations.
Local Open Scope R_scope.

Lemma rsum_mul n k f : rsum (k * n) f = rsum n (fun p => rsum k (fun i => f (k * p + i)%nat)).
Proof.
  induction n as [|n IH]; [rewrite Nat.mul_0_r; reflexivity|].
  replace (k * S n)%nat with (k * n + k)%nat by lia. rewrite rsum_app, IH. reflexivity.
Qed.
Lemma rsum_blocks Ns Nd f : rsum (11 * Ns + 6 * Nd) f =
  rsum Ns (fun p => rsum 3 (fun i => f (kstart Ns KU p + i)%nat)) + rsum Ns (fun p => rsum 3 (fun i => f (kstart Ns KO p + i)%nat))
  + rsum Ns (fun p => rsum 5 (fun i => f (kstart Ns KS p + i)%nat))
  + rsum (2 * Nd) (fun d => rsum 3 (fun i => f (kstart Ns KB (Ns + d) + i)%nat)).
Proof.
  replace (11 * Ns + 6 * Nd)%nat with (3 * Ns + (3 * Ns + (5 * Ns + 3 * (2 * Nd))))%nat by lia.
  rewrite !rsum_app, !(rsum_mul Ns), (rsum_mul (2 * Nd) 3), !Rplus_assoc. unfold kstart.
  apply f_equal2; [reflexivity|]. apply f_equal2; [|apply f_equal2]; apply rsum_ext; intros p _; apply rsum_ext; intros i _; f_equal; lia.
Qed.
Lemma bsum_ext Ns Nd f g :
  (forall k p, kvalid Ns Nd k p -> rsum (ksize k) (fun i => f (kstart Ns k p + i)%nat) = rsum (ksize k) (fun i => g (kstart Ns k p + i)%nat)) ->
  rsum (11 * Ns + 6 * Nd) f = rsum (11 * Ns + 6 * Nd) g.
Proof.
  intros H. rewrite !rsum_blocks. f_equal; [f_equal; [f_equal|]|]; apply rsum_ext; intros p Hp.
  - apply (H KU p). exact Hp.
  - apply (H KO p). exact Hp.
  - apply (H KS p). exact Hp.
  - apply (H KB (Ns + p)%nat). cbn [kvalid]. lia.
Qed.

Section Turn.
Variable Q : mat.
Hypothesis HQ : orthogonal Q.
Notation e := (det3 Q).
Notation q := (rot Q).
Notation T := (tmat Q).

Lemma divmod3 m i : (i < 3)%nat -> ((3 * m + i) / 3 = m /\ (3 * m + i) mod 3 = i)%nat.
Proof.
  intros H. split.
  - symmetry. apply (Nat.div_unique _ 3 m i); lia.
  - symmetry. apply (Nat.mod_unique _ 3 m i); lia.
Qed.
Lemma divmod5 m i : (i < 5)%nat -> ((5 * m + i) / 5 = m /\ (5 * m + i) mod 5 = i)%nat.
Proof.
  intros H. split.
  - symmetry. apply (Nat.div_unique _ 5 m i); lia.
  - symmetry. apply (Nat.mod_unique _ 5 m i); lia.
Qed.
Lemma turn_at Ns Nd k p v i : kvalid Ns Nd k p -> (i < ksize k)%nat ->
  turn_vec Q Ns v (kstart Ns k p + i)%nat = rsum (ksize k) (fun a => T k i a * v (kstart Ns k p + a)%nat).
Proof.
  intros V Hi. unfold turn_vec. destruct k; cbn [ksize kvalid kstart tmat] in *.
  - destruct (Nat.ltb_spec (3 * p + i) (3 * Ns)); [|lia]. destruct (divmod3 p i Hi) as [-> ->]. reflexivity.
  - destruct (Nat.ltb_spec (3 * Ns + 3 * p + i) (3 * Ns)); [lia|].
    destruct (Nat.ltb_spec (3 * Ns + 3 * p + i) (6 * Ns)); [|lia].
    replace (3 * Ns + 3 * p + i)%nat with (3 * (Ns + p) + i)%nat by lia. destruct (divmod3 (Ns + p) i Hi) as [-> ->].
    unfold rot, mvec. rewrite <- rsum_scal_l. apply rsum_ext. intros a _. unfold mscal. rewrite Rmult_assoc. do 3 f_equal. lia.
  - destruct (Nat.ltb_spec (6 * Ns + 5 * p + i) (3 * Ns)); [lia|]. destruct (Nat.ltb_spec (6 * Ns + 5 * p + i) (6 * Ns)); [lia|].
    destruct (Nat.ltb_spec (6 * Ns + 5 * p + i) (11 * Ns)); [|lia].
    replace (6 * Ns + 5 * p + i - 6 * Ns)%nat with (5 * p + i)%nat by lia. destruct (divmod5 p i Hi) as [-> ->].
    apply rot5_lin.
  - destruct (Nat.ltb_spec (11 * Ns + 3 * (p - Ns) + i) (3 * Ns)); [lia|].
    destruct (Nat.ltb_spec (11 * Ns + 3 * (p - Ns) + i) (6 * Ns)); [lia|].
    destruct (Nat.ltb_spec (11 * Ns + 3 * (p - Ns) + i) (11 * Ns)); [lia|].
    replace (11 * Ns + 3 * (p - Ns) + i - 11 * Ns)%nat with (3 * (p - Ns) + i)%nat by lia.
    destruct (divmod3 (p - Ns) i Hi) as [-> ->]. reflexivity.
Qed.

(** Turning the blocks of a matrix and turning its argument. *)
Definition blocks_turned (Ns Nd : nat) (M M' : mat) : Prop :=
  forall k1 p k2 b i j, kvalid Ns Nd k1 p -> kvalid Ns Nd k2 b -> (i < ksize k1)%nat -> (j < ksize k2)%nat ->
  ent Ns M' k1 p k2 b i j = turned_block Q k1 k2 (fun x y => ent Ns M k1 p k2 b x y) i j.

Lemma pull_back k1 k2 (m : nat -> nat -> R) f i :
  rsum (ksize k2) (fun j => turned_block Q k1 k2 m i j * rsum (ksize k2) (fun b => T k2 j b * f b))
  = rsum (ksize k2) (fun b => rsum (ksize k1) (fun a => T k1 i a * m a b) * f b).
Proof.
  set (h := fun b => rsum (ksize k1) (fun a => T k1 i a * m a b)).
  transitivity (rsum (ksize k2) (fun j => rsum (ksize k2) (fun b => rsum (ksize k2) (fun b' => T k2 j b * T k2 j b' * (h b * f b'))))).
  - apply rsum_ext. intros j _. unfold turned_block. rewrite rsum_swap. rewrite <- rsum_scal_r. apply rsum_ext. intros b _.
    rewrite (rsum_ext _ _ (fun a => (T k1 i a * m a b) * T k2 j b)) by (intros; ring).
    rewrite rsum_scal_r. fold (h b). rewrite <- rsum_scal_l. apply rsum_ext. intros. ring.
  - rewrite rsum_swap. apply rsum_ext. intros b Hb. rewrite rsum_swap.
    rewrite (rsum_ext _ _ (fun b' => delta b b' * (h b * f b'))).
    + apply rsum_delta_l. assumption.
    + intros b' Hb'. rewrite rsum_scal_r. rewrite (tmat_cols Q HQ) by assumption. reflexivity.
Qed.

Theorem turned_mvec Ns Nd M M' f r : blocks_turned Ns Nd M M' -> (r < 11 * Ns + 6 * Nd)%nat ->
  mvec (11 * Ns + 6 * Nd) M' (turn_vec Q Ns f) r = turn_vec Q Ns (mvec (11 * Ns + 6 * Nd) M f) r.
Proof.
  intros H Hr. destruct (block_cover Ns Nd r Hr) as (k1 & p & i & V & Hi & ->).
  rewrite (turn_at Ns Nd) by assumption. unfold mvec.
  rewrite (rsum_ext (ksize k1) _ (fun a => rsum (11 * Ns + 6 * Nd) (fun t => T k1 i a * (M (kstart Ns k1 p + a)%nat t * f t))))
    by (intros; rewrite rsum_scal_l; reflexivity).
  rewrite rsum_swap. apply bsum_ext. intros k2 b V2.
  transitivity (rsum (ksize k2) (fun j => turned_block Q k1 k2 (fun x y => ent Ns M k1 p k2 b x y) i j * rsum (ksize k2) (fun y => T k2 j y * f (kstart Ns k2 b + y)%nat))).
  - apply rsum_ext. intros j Hj. rewrite (turn_at Ns Nd) by assumption. f_equal. apply H; assumption.
  - rewrite pull_back. apply rsum_ext. intros y Hy. rewrite <- rsum_scal_r. apply rsum_ext. intros. unfold ent. ring.
Qed.

(** Displacements of a pair. *)
Lemma q_sub x y : vsub (q x) (q y) = q (vsub x y).
Proof. apply functional_extensionality. intros i. symmetry. apply rot_vsub. Qed.
Lemma q_add x y : vadd (q x) (q y) = q (vadd x y).
Proof. apply functional_extensionality. intros i. symmetry. apply rot_vadd. Qed.
Lemma q_scal c x : vscal c (q x) = q (vscal c x).
Proof. apply functional_extensionality. intros i. symmetry. apply rot_vscal. Qed.
Lemma geom_rot x y a1 a2 : snd (pair_geometry (q x) (q y) a1 a2) = snd (pair_geometry x y a1 a2) /\
  forall t, (t < 3)%nat -> fst (pair_geometry (q x) (q y) a1 a2) t = q (fst (pair_geometry x y a1 a2)) t.
Proof.
  unfold pair_geometry. rewrite q_sub, (rot_norm Q HQ). set (r := vsub x y). set (s := norm r).
  destruct (Rlt_dec (/ 10 ^ 8) s); [|split; reflexivity]. destruct (Rlt_dec (2 * s / (a1 + a2)) (2001 / 1000)); [|split; reflexivity].
  split; [reflexivity|]. intros t Ht. cbn [fst]. unfold rot, mvec, rsum, Rdiv. idx3 Ht; cbn [v3]; ring.
Qed.

Lemma bead_positions_turned p b : bead_positions (turned Q p) b = q (bead_positions p b).
Proof.
  unfold bead_positions. cbn [turned num_spheres num_dumbbells sphere_positions dumbbell_positions dumbbell_deltax].
  destruct (Nat.ltb b (num_spheres p)); [reflexivity|]. destruct (Nat.ltb b (num_spheres p + num_dumbbells p)); rewrite q_scal, ?q_sub, ?q_add; reflexivity.
Qed.
Lemma distinct_turned n x a : distinct_beads n x a -> distinct_beads n (fun b => q (x b)) a.
Proof.
  intros [A B]. split; [exact A|]. intros p p' Hp Hp' N. rewrite q_sub, (rot_norm Q HQ). apply B; assumption.
Qed.
Lemma bead_mob_rot bb x a n c mu k1 p k2 b i j : distinct_beads n x a -> (p < n)%nat -> (b < n)%nat ->
  (i < ksize k1)%nat -> (j < ksize k2)%nat ->
  bead_mobility bb (fun p b => pair_geometry (q (x p)) (q (x b)) (a p) (a b)) a c mu k1 p k2 b i j
  = turned_block Q k1 k2 (fun s t => bead_mobility bb (fun p b => pair_geometry (x p) (x b) (a p) (a b)) a c mu k1 p k2 b s t) i j.
Proof.
  intros [Ha Hx] Hp Hb Hi Hj.
  assert (R0 : resolved (fst (pair_geometry (x p) (x b) (a p) (a b))) /\ norm (fst (pair_geometry (x p) (x b) (a p) (a b))) = snd (pair_geometry (x p) (x b) (a p) (a b))).
  { destruct (Nat.eq_dec p b) as [<-|N].
    - rewrite geom_self. cbn [fst snd]. split; [|apply norm_zero_vsub]. right. intros t _. unfold vsub. ring.
    - destruct (geom_far (x p) (x b) (a p) (a b)) as [G1 G2]; [pose proof (Ha p Hp); pose proof (Ha b Hb); lra|apply Hx; assumption|].
      split; [left; rewrite G2; exact G1|exact G2]. }
  destruct R0 as [R1 R2]. destruct (geom_rot (x p) (x b) (a p) (a b)) as [G1 G2].
  assert (P : pmob k1 k2 (fst (pair_geometry (q (x p)) (q (x b)) (a p) (a b))) (snd (pair_geometry (q (x p)) (q (x b)) (a p) (a b))) (a p) (a b) c mu i j
    = turned_block Q k1 k2 (fun s t => pmob k1 k2 (fst (pair_geometry (x p) (x b) (a p) (a b))) (snd (pair_geometry (x p) (x b) (a p) (a b))) (a p) (a b) c mu s t) i j).
  { rewrite (pmob_ext3 k1 k2 _ (q (fst (pair_geometry (x p) (x b) (a p) (a b))))) by assumption. rewrite G1, <- R2. apply pmob_rot; assumption. }
  unfold bead_mobility. destruct k1, k2; try exact P. destruct (bb || Nat.eqb p b)%bool; [exact P|].
  unfold turned_block. symmetry. apply rsum_zero. intros. apply rsum_zero. intros. ring.
Qed.

Lemma turned_block_lin k1 k2 u v f g i j : turned_block Q k1 k2 (fun x y => u * f x y + v * g x y) i j
  = u * turned_block Q k1 k2 f i j + v * turned_block Q k1 k2 g i j.
Proof.
  unfold turned_block. rewrite <- !rsum_scal_l, <- rsum_plus. apply rsum_ext. intros. rewrite <- !rsum_scal_l, <- rsum_plus.
  apply rsum_ext. intros. ring.
Qed.
Lemma turned_block_ext k1 k2 f g i j : (forall x y, (x < ksize k1)%nat -> (y < ksize k2)%nat -> f x y = g x y) ->
  turned_block Q k1 k2 f i j = turned_block Q k1 k2 g i j.
Proof. intros H. unfold turned_block. apply rsum_ext. intros. apply rsum_ext. intros. rewrite H by assumption. reflexivity. Qed.
Lemma wsum_block Ns Nd h k p k1 k2 (f : nat -> nat -> nat -> R) i j :
  wsum Ns Nd h k p (fun p' => turned_block Q k1 k2 (f p') i j) = turned_block Q k1 k2 (fun x y => wsum Ns Nd h k p (fun p' => f p' x y)) i j.
Proof.
  unfold wsum. destruct k; try reflexivity. destruct (Nat.ltb p (Ns + Nd)).
  - transitivity (turned_block Q k1 k2 (fun x y => h * f p x y + h * f (p + Nd)%nat x y) i j); [rewrite turned_block_lin; ring|].
    apply turned_block_ext. intros. ring.
  - transitivity (turned_block Q k1 k2 (fun x y => h * f p x y + (- h) * f (p - Nd)%nat x y) i j); [rewrite turned_block_lin; ring|].
    apply turned_block_ext. intros. ring.
Qed.
Lemma wsum_eq Ns Nd h k p f g : (forall p', kvalid Ns Nd k p' -> f p' = g p') -> kvalid Ns Nd k p -> wsum Ns Nd h k p f = wsum Ns Nd h k p g.
Proof.
  intros H V. unfold wsum. destruct k; try (apply H; assumption). cbn [kvalid] in *.
  destruct (Nat.ltb_spec p (Ns + Nd)); rewrite !H by lia; reflexivity.
Qed.

Theorem far_blocks bb p mu : distinct_beads (num_spheres p + 2 * num_dumbbells p) (bead_positions p) (bead_sizes p) ->
  blocks_turned (num_spheres p) (num_dumbbells p) (generate_Minfinity bb p mu) (generate_Minfinity bb (turned Q p) mu).
Proof.
  intros D.
  assert (L : blocks_turned (num_spheres p) (num_dumbbells p)
    (generate_Minfinity_loop bb (bead_positions p) (bead_sizes p) (num_spheres p) (num_dumbbells p) (1 / (8 * PI * mu)) mu)
    (generate_Minfinity_loop bb (bead_positions (turned Q p)) (bead_sizes (turned Q p)) (num_spheres p) (num_dumbbells p) (1 / (8 * PI * mu)) mu)).
  { intros k1 b1 k2 b2 i j V1 V2 Hi Hj.
    replace (bead_positions (turned Q p)) with (fun b => q (bead_positions p b))
      by (apply functional_extensionality; intros b; symmetry; apply bead_positions_turned).
    change (bead_sizes (turned Q p)) with (bead_sizes p).
    rewrite loop_entry by (assumption || (apply distinct_turned; exact D)).
    rewrite (turned_block_ext k1 k2 _ (fun s t => bead_mobility bb (fun p0 b => pair_geometry (bead_positions p p0) (bead_positions p b) (bead_sizes p p0) (bead_sizes p b)) (bead_sizes p) (1 / (8 * PI * mu)) mu k1 b1 k2 b2 s t))
      by (intros; apply loop_entry; assumption).
    apply (bead_mob_rot bb (bead_positions p) (bead_sizes p) (num_spheres p + 2 * num_dumbbells p)); try assumption.
    - apply (kvalid_nb _ _ _ _ V1).
    - apply (kvalid_nb _ _ _ _ V2). }
  unfold generate_Minfinity. cbn [turned num_spheres num_dumbbells]. change (mkPos _ _ _ _ _ _ _) with (turned Q p).
  set (Ml := generate_Minfinity_loop _ _ _ _ _ _ _) in *. set (Ml' := generate_Minfinity_loop _ (bead_positions (turned Q p)) _ _ _ _ _) in *.
  destruct (Nat.ltb 0 (num_dumbbells p)); [|exact L].
  fold (minf_transform (num_spheres p) (num_dumbbells p) Ml). fold (minf_transform (num_spheres p) (num_dumbbells p) Ml').
  intros k1 b1 k2 b2 i j V1 V2 Hi Hj. rewrite transform_ent by assumption.
  rewrite (turned_block_ext k1 k2 _ (fun x y => wsum (num_spheres p) (num_dumbbells p) (1 / 2) k2 b2 (fun q' => wsum (num_spheres p) (num_dumbbells p) (1 / 2) k1 b1 (fun p' => ent (num_spheres p) Ml k1 p' k2 q' x y))))
    by (intros; apply transform_ent; assumption).
  rewrite <- (wsum_block _ _ _ _ _ _ _ (fun q' x y => wsum (num_spheres p) (num_dumbbells p) (1 / 2) k1 b1 (fun p' => ent (num_spheres p) Ml k1 p' k2 q' x y))).
  apply wsum_eq; [|assumption]. intros q' Vq. rewrite <- (wsum_block _ _ _ _ _ _ _ (fun p' x y => ent (num_spheres p) Ml k1 p' k2 q' x y)).
  apply wsum_eq; [|assumption]. intros p' Vp. apply L; assumption.
Qed.
End Turn.
