(** How the mobility blocks turn. *)
From Coq Require Import Reals Arith Bool List Lia Lra FunctionalExtensionality.
From Verif Require Import Base Model_Pack Model_Mob Model_Layout Model_Minf Spec_Layout Spec_Minf Spec_Rotate
  Proof_Mob2 Proof_Minf Proof_Rotate1 Proof_Rotate2.
Import ListNotations.
Local Open Scope R_scope.

(** Symmetric traceless tensors and their condensed form. *)
Definition st (f : nat -> nat -> R) : Prop :=
  (forall i j, (i < 3)%nat -> (j < 3)%nat -> f i j = f j i) /\ f 0%nat 0%nat + f 1%nat 1%nat + f 2%nat 2%nat = 0.
Lemma s3_sq : sqrt 3 * sqrt 3 = 3. Proof. apply sqrt_sqrt. lra. Qed.
Lemma s2_sq : sqrt 2 * sqrt 2 = 2. Proof. apply sqrt_sqrt. lra. Qed.
Lemma s2_nz : sqrt 2 <> 0. Proof. apply Rgt_not_eq, sqrt_lt_R0. lra. Qed.
Lemma tensor_condense f i j : st f -> (i < 3)%nat -> (j < 3)%nat -> tensor_of (condense_idx f) i j = f i j.
Proof.
  intros [S T] Hi Hj. pose proof s3_sq as H3. pose proof s2_nz as H2.
  pose proof (S 0%nat 1%nat ltac:(lia) ltac:(lia)) as S1. pose proof (S 0%nat 2%nat ltac:(lia) ltac:(lia)) as S2.
  pose proof (S 1%nat 2%nat ltac:(lia) ltac:(lia)) as S3.
  unfold tensor_of, condense_idx, get2, uncondense1, contraction, hs3p1, hs3m1, s3, s2 in *.
  assert (E0 : (sqrt 3 + 3) / 6 * (1 / 2 * (sqrt 3 + 1) * f 0%nat 0%nat + 1 / 2 * (sqrt 3 - 1) * f 1%nat 1%nat) +
               (sqrt 3 - 3) / 6 * (1 / 2 * (sqrt 3 - 1) * f 0%nat 0%nat + 1 / 2 * (sqrt 3 + 1) * f 1%nat 1%nat) = f 0%nat 0%nat).
  { transitivity (f 0%nat 0%nat * (sqrt 3 * sqrt 3 + 3) / 6 + f 1%nat 1%nat * (sqrt 3 * sqrt 3 - 3) / 6); [field|rewrite H3; field]. }
  assert (E1 : (sqrt 3 - 3) / 6 * (1 / 2 * (sqrt 3 + 1) * f 0%nat 0%nat + 1 / 2 * (sqrt 3 - 1) * f 1%nat 1%nat) +
               (sqrt 3 + 3) / 6 * (1 / 2 * (sqrt 3 - 1) * f 0%nat 0%nat + 1 / 2 * (sqrt 3 + 1) * f 1%nat 1%nat) = f 1%nat 1%nat).
  { transitivity (f 1%nat 1%nat * (sqrt 3 * sqrt 3 + 3) / 6 + f 0%nat 0%nat * (sqrt 3 * sqrt 3 - 3) / 6); [field|rewrite H3; field]. }
  idx3 Hi; idx3 Hj; cbn [nth rsum]; rewrite ?Rmult_0_l, ?Rplus_0_l, ?Rplus_0_r; rewrite ?E0, ?E1;
    try reflexivity; try lra; try (field; exact H2); try (rewrite <- ?S1, <- ?S2, <- ?S3; field; exact H2).
Qed.
Lemma tensor_st c : st (tensor_of c).
Proof.
  split; [intros i j Hi Hj; idx3 Hi; idx3 Hj; reflexivity|]. unfold tensor_of, get2, uncondense1. cbn [nth]. lra.
Qed.
Lemma condense_tensor c m : (m < 5)%nat -> condense_idx (tensor_of c) m = c m.
Proof.
  intros Hm. pose proof s3_sq as H3. pose proof s2_nz as H2.
  unfold tensor_of, condense_idx, get2, uncondense1, contraction, hs3p1, hs3m1, s3, s2.
  destruct m as [|[|[|[|[|m]]]]]; try lia; cbn [nth rsum]; rewrite ?Rmult_0_l, ?Rplus_0_l, ?Rplus_0_r.
  - transitivity (c 0%nat * (sqrt 3 * sqrt 3 + 3) / 6 + c 2%nat * (sqrt 3 * sqrt 3 - 3) / 6); [field|rewrite H3; field].
  - field; exact H2.
  - transitivity (c 2%nat * (sqrt 3 * sqrt 3 + 3) / 6 + c 0%nat * (sqrt 3 * sqrt 3 - 3) / 6); [field|rewrite H3; field].
  - field; exact H2.
  - field; exact H2.
Qed.

(** Double contraction. *)
Definition ddot2 (f g : nat -> nat -> R) : R := rsum 3 (fun i => rsum 3 (fun j => f i j * g i j)).
Lemma ddot2_ext f g f' g' : (forall i j, (i < 3)%nat -> (j < 3)%nat -> f i j = f' i j) ->
  (forall i j, (i < 3)%nat -> (j < 3)%nat -> g i j = g' i j) -> ddot2 f g = ddot2 f' g'.
Proof. intros A B. unfold ddot2. apply rsum_ext. intros i Hi. apply rsum_ext. intros j Hj. rewrite A, B by assumption. reflexivity. Qed.
Lemma ddot2_tensor c d : ddot2 (tensor_of c) (tensor_of d) = rsum 5 (fun m => c m * d m).
Proof.
  pose proof s3_sq as H3. pose proof s2_sq as H2. pose proof s2_nz as N2.
  unfold ddot2, tensor_of, get2, uncondense1. cbn [nth rsum].
  assert (E : forall x y : R, x / sqrt 2 * (y / sqrt 2) = x * y / 2).
  { intros x y. transitivity (x * y / (sqrt 2 * sqrt 2)); [field; exact N2|rewrite H2; reflexivity]. }
  rewrite !E. set (t := sqrt 3) in *. clearbody t.
  transitivity (c 1%nat * d 1%nat + c 3%nat * d 3%nat + c 4%nat * d 4%nat
     + (c 0%nat * d 0%nat + c 2%nat * d 2%nat) * (t * t * 6 + 18) / 36
     + (c 0%nat * d 2%nat + c 2%nat * d 0%nat) * (t * t * 6 - 18) / 36); [field|rewrite H3; field].
Qed.

Section Blocks.
Variable Q : mat.
Hypothesis HQ : orthogonal Q.
Notation e := (det3 Q).
Notation q := (rot Q).

Lemma st_rot f : st f -> st (rot2 Q f).
Proof.
  intros [S T]. split.
  - intros i j Hi Hj. rewrite <- (rot2_tr Q f j i). apply rot2_ext. intros a b Ha Hb. symmetry. apply S; assumption.
  - pose proof (cols_on Q HQ 0 0 ltac:(lia) ltac:(lia)) as A. pose proof (cols_on Q HQ 1 1 ltac:(lia) ltac:(lia)) as B.
    pose proof (cols_on Q HQ 2 2 ltac:(lia) ltac:(lia)) as C. pose proof (cols_on Q HQ 0 1 ltac:(lia) ltac:(lia)) as D.
    pose proof (cols_on Q HQ 0 2 ltac:(lia) ltac:(lia)) as E. pose proof (cols_on Q HQ 1 2 ltac:(lia) ltac:(lia)) as F.
    unfold delta in *. simpl in A, B, C, D, E, F. rewrite <- T. unfold rot2. simpl.
    transitivity ((Q 0%nat 0%nat * Q 0%nat 0%nat + Q 1%nat 0%nat * Q 1%nat 0%nat + Q 2%nat 0%nat * Q 2%nat 0%nat) * f 0%nat 0%nat
      + (Q 0%nat 1%nat * Q 0%nat 1%nat + Q 1%nat 1%nat * Q 1%nat 1%nat + Q 2%nat 1%nat * Q 2%nat 1%nat) * f 1%nat 1%nat
      + (Q 0%nat 2%nat * Q 0%nat 2%nat + Q 1%nat 2%nat * Q 1%nat 2%nat + Q 2%nat 2%nat * Q 2%nat 2%nat) * f 2%nat 2%nat
      + (Q 0%nat 0%nat * Q 0%nat 1%nat + Q 1%nat 0%nat * Q 1%nat 1%nat + Q 2%nat 0%nat * Q 2%nat 1%nat) * (f 0%nat 1%nat + f 1%nat 0%nat)
      + (Q 0%nat 0%nat * Q 0%nat 2%nat + Q 1%nat 0%nat * Q 1%nat 2%nat + Q 2%nat 0%nat * Q 2%nat 2%nat) * (f 0%nat 2%nat + f 2%nat 0%nat)
      + (Q 0%nat 1%nat * Q 0%nat 2%nat + Q 1%nat 1%nat * Q 1%nat 2%nat + Q 2%nat 1%nat * Q 2%nat 2%nat) * (f 1%nat 2%nat + f 2%nat 1%nat)); [ring|].
    rewrite A, B, C, D, E, F. ring.
Qed.

Lemma rot5_lin c : forall m, rot5 Q c m = rsum 5 (fun a => rot5 Q (delta a) m * c a).
Proof.
  intros m. unfold rot5, condense_idx.
  transitivity (rsum 5 (fun a => c a * rsum 3 (fun j => rsum 3 (fun k => contraction m j k * rot2 Q (tensor_of (delta a)) j k)))).
  2: { apply rsum_ext. intros. ring. }
  rewrite (rsum_ext 5 _ (fun a => rsum 3 (fun j => c a * rsum 3 (fun k => contraction m j k * rot2 Q (tensor_of (delta a)) j k))))
    by (intros; rewrite rsum_scal_l; reflexivity).
  rewrite (rsum_swap 5 3). apply rsum_ext. intros j _.
  rewrite (rsum_ext 5 _ (fun a => rsum 3 (fun k => c a * (contraction m j k * rot2 Q (tensor_of (delta a)) j k))))
    by (intros; rewrite rsum_scal_l; reflexivity).
  rewrite (rsum_swap 5 3). apply rsum_ext. intros k _.
  generalize (contraction m j k). intros w. unfold rot2, tensor_of, get2, uncondense1, delta. simpl. unfold Rdiv. ring.
Qed.

Lemma rot2_back f i j : (i < 3)%nat -> (j < 3)%nat -> rot2 (mtr Q) (rot2 Q f) i j = f i j.
Proof.
  intros Hi Hj.
  transitivity (rsum 3 (fun c => rsum 3 (fun d =>
     (Q 0%nat i * Q 0%nat c + Q 1%nat i * Q 1%nat c + Q 2%nat i * Q 2%nat c) *
     (Q 0%nat j * Q 0%nat d + Q 1%nat j * Q 1%nat d + Q 2%nat j * Q 2%nat d) * f c d))).
  { unfold rot2, mtr. simpl. ring. }
  rewrite (rsum_ext 3 _ (fun c => delta i c * rsum 3 (fun d => delta j d * f c d))).
  - rewrite rsum_delta_l by assumption. apply rsum_delta_l. assumption.
  - intros c Hc. rewrite <- rsum_scal_l. apply rsum_ext. intros d Hd. rewrite !(cols_on Q HQ) by assumption. ring.
Qed.

Lemma rot5_back c m : (m < 5)%nat -> rot5 (mtr Q) (rot5 Q c) m = c m.
Proof.
  intros Hm. unfold rot5 at 1.
  rewrite (condense_ext _ (rot2 (mtr Q) (rot2 Q (tensor_of c)))).
  - rewrite <- (condense_tensor c m Hm) at 1. apply condense_ext. intros k l Hk Hl. apply rot2_back; assumption.
  - intros k l Hk Hl. apply rot2_ext. intros a b Ha Hb. unfold rot5. apply tensor_condense; try assumption.
    apply st_rot, tensor_st.
Qed.

Lemma ddot2_rot f g : ddot2 (rot2 Q f) (rot2 Q g) = ddot2 f g.
Proof.
  transitivity (ddot2 f (rot2 (mtr Q) (rot2 Q g))).
  - unfold ddot2. transitivity (rsum 3 (fun i => rsum 3 (fun j => rsum 3 (fun a => rsum 3 (fun b => Q i a * Q j b * f a b * rot2 Q g i j))))).
    + apply rsum_ext. intros i _. apply rsum_ext. intros j _. unfold rot2 at 1. rewrite <- rsum_scal_r. apply rsum_ext. intros a _.
      rewrite <- rsum_scal_r. reflexivity.
    + generalize (rot2 Q g). intros G. unfold rot2, mtr. simpl. ring.
  - apply ddot2_ext; [reflexivity|]. intros i j Hi Hj. apply rot2_back; assumption.
Qed.
Lemma rot5_iso c d : rsum 5 (fun m => rot5 Q c m * rot5 Q d m) = rsum 5 (fun m => c m * d m).
Proof.
  rewrite <- (ddot2_tensor c d), <- (ddot2_rot (tensor_of c)), <- (ddot2_tensor (rot5 Q c)). apply ddot2_ext.
  - intros i j Hi Hj. apply tensor_condense; try assumption. apply st_rot, tensor_st.
  - intros i j Hi Hj. apply tensor_condense; try assumption. apply st_rot, tensor_st.
Qed.

(** The matrix by which the components of a kind turn. *)
Definition tmat (k : kind) : mat :=
  match k with KU | KB => Q | KO => mscal e Q | KS => fun m a => rot5 Q (delta a) m end.
Lemma tmat_cols k a b : (a < ksize k)%nat -> (b < ksize k)%nat -> rsum (ksize k) (fun i => tmat k i a * tmat k i b) = delta a b.
Proof.
  intros Ha Hb. destruct k; cbn [ksize tmat] in *; try (rewrite <- (cols_on Q HQ) by assumption; unfold rsum; ring).
  - unfold mscal. transitivity (e * e * (Q 0%nat a * Q 0%nat b + Q 1%nat a * Q 1%nat b + Q 2%nat a * Q 2%nat b)); [unfold rsum; ring|].
    rewrite (det_sq Q HQ), (cols_on Q HQ) by assumption. ring.
  - rewrite rot5_iso. rewrite rsum_delta_l by assumption. apply delta_sym.
Qed.
End Blocks.

Section Blocks2.
Variable Q : mat.
Hypothesis HQ : orthogonal Q.
Lemma orth_tr : orthogonal (mtr Q).
Proof. intros i j Hi Hj. destruct (HQ i j Hi Hj) as [A B]. split; [exact B|exact A]. Qed.
Lemma det_tr : det3 (mtr Q) = det3 Q. Proof. unfold det3, mtr. ring. Qed.
Lemma rot5_tr a m : (a < 5)%nat -> (m < 5)%nat -> rot5 (mtr Q) (delta a) m = rot5 Q (delta m) a.
Proof.
  intros Ha Hm.
  transitivity (rsum 5 (fun i => delta m i * rot5 (mtr Q) (delta a) i)); [rewrite rsum_delta_l by assumption; reflexivity|].
  rewrite <- (rot5_iso Q HQ (delta m) (rot5 (mtr Q) (delta a))).
  rewrite (rsum_ext 5 _ (fun i => rot5 Q (delta m) i * delta i a)).
  - apply rsum_delta_r. assumption.
  - intros i Hi. f_equal. pose proof (rot5_back (mtr Q) orth_tr (delta a) i Hi) as B.
    change (mtr (mtr Q)) with Q in B. rewrite B. apply delta_sym.
Qed.
Lemma tmat_tr k i a : (i < ksize k)%nat -> (a < ksize k)%nat -> tmat (mtr Q) k i a = tmat Q k a i.
Proof.
  intros Hi Ha. destruct k; cbn [tmat ksize] in *; try reflexivity.
  - unfold mscal. rewrite det_tr. reflexivity.
  - apply rot5_tr; assumption.
Qed.
Lemma tmat_rows k i j : (i < ksize k)%nat -> (j < ksize k)%nat -> rsum (ksize k) (fun a => tmat Q k i a * tmat Q k j a) = delta i j.
Proof.
  intros Hi Hj. rewrite <- (tmat_cols (mtr Q) orth_tr k i j) by assumption. apply rsum_ext. intros a Ha.
  rewrite !tmat_tr by assumption. reflexivity.
Qed.
End Blocks2.

(** Strain indices of the mobility functions: symmetric, traceless. *)
Section Strain.
Variables (r : vec) (s : R).
Hypothesis Hs : s = norm r.
Hypothesis Hp : tiny < s.
Lemma s_pos : 0 < s. Proof. pose proof tiny_pos. lra. Qed.
Lemma s_sq : s ^ 2 = sq r.
Proof. rewrite Hs. unfold norm, sq. rewrite <- Rsqr_pow2, Rsqr_sqrt; [ring|]. nra. Qed.
Lemma inv3 : / s ^ 3 = sq r ^ 3 * / s ^ 9. Proof. rewrite <- s_sq. field. apply Rgt_not_eq, s_pos. Qed.
Lemma inv5 : / s ^ 5 = sq r ^ 2 * / s ^ 9. Proof. rewrite <- s_sq. field. apply Rgt_not_eq, s_pos. Qed.
Lemma inv7 : / s ^ 7 = sq r * / s ^ 9. Proof. rewrite <- s_sq. field. apply Rgt_not_eq, s_pos. Qed.
Ltac tr := unfold K, Lap_K, D_K, DLap_K, DLap_J, D_J, DD_J, kronkron, Rdiv; rewrite ?inv3, ?inv5, ?inv7; unfold sq;
  unfold delta; cbn [Nat.eqb andb]; ring.
Lemma K_trace i : (i < 3)%nat -> K r s i 0 0 + K r s i 1 1 + K r s i 2 2 = 0.
Proof. intros Hi. idx3 Hi; tr. Qed.
Lemma Lap_K_trace i : (i < 3)%nat -> Lap_K r s i 0 0 + Lap_K r s i 1 1 + Lap_K r s i 2 2 = 0.
Proof. intros Hi. idx3 Hi; tr. Qed.
Lemma D_K_trace1 k l : (k < 3)%nat -> (l < 3)%nat -> D_K r s 0 0 k l + D_K r s 1 1 k l + D_K r s 2 2 k l = 0.
Proof. intros Hi Hj. idx3 Hi; idx3 Hj; tr. Qed.
Lemma D_K_trace2 k l : (k < 3)%nat -> (l < 3)%nat -> D_K r s k l 0 0 + D_K r s k l 1 1 + D_K r s k l 2 2 = 0.
Proof. intros Hi Hj. idx3 Hi; idx3 Hj; tr. Qed.
Lemma DLap_K_trace1 k l : (k < 3)%nat -> (l < 3)%nat -> DLap_K r s 0 0 k l + DLap_K r s 1 1 k l + DLap_K r s 2 2 k l = 0.
Proof. intros Hi Hj. idx3 Hi; idx3 Hj; tr. Qed.
Lemma DLap_K_trace2 k l : (k < 3)%nat -> (l < 3)%nat -> DLap_K r s k l 0 0 + DLap_K r s k l 1 1 + DLap_K r s k l 2 2 = 0.
Proof. intros Hi Hj. idx3 Hi; idx3 Hj; tr. Qed.
Lemma K_sym i j k : K r s i j k = K r s i k j. Proof. unfold K. ring. Qed.
Lemma Lap_K_sym i j k : (i < 3)%nat -> (j < 3)%nat -> (k < 3)%nat -> Lap_K r s i j k = Lap_K r s i k j.
Proof. intros Hi Hj Hk. idx3 Hi; idx3 Hj; idx3 Hk; tr. Qed.
Lemma D_K_sym i j k l : D_K r s i j k l = D_K r s i j l k. Proof. unfold D_K. ring. Qed.
Lemma DLap_K_sym i j k l : (i < 3)%nat -> (j < 3)%nat -> (k < 3)%nat -> (l < 3)%nat -> DLap_K r s i j k l = DLap_K r s i j l k.
Proof. intros Hi Hj Hk Hl. idx3 Hi; idx3 Hj; idx3 Hk; idx3 Hl; tr. Qed.

Lemma M13_st a1 a2 i c mu : (i < 3)%nat -> st (fun k l => M13 r s a1 a2 i k l c mu).
Proof.
  intros Hi. unfold M13. destruct (Rlt_dec tiny s); [|lra]. split.
  - intros k l Hk Hl. rewrite K_sym, Lap_K_sym by assumption. reflexivity.
  - transitivity (- c * ((K r s i 0 0 + K r s i 1 1 + K r s i 2 2) + (a1 ^ 2 / 6 + a2 ^ 2 / 10) * (Lap_K r s i 0 0 + Lap_K r s i 1 1 + Lap_K r s i 2 2))); [ring|].
    rewrite K_trace, Lap_K_trace by assumption. ring.
Qed.
Lemma M33_st1 a1 a2 i j c mu : (i < 3)%nat -> (j < 3)%nat -> st (fun k l => M33 r s a1 a2 k l i j c mu).
Proof.
  intros Hi Hj. unfold M33. split.
  - intros k l Hk Hl. ring.
  - transitivity (- c * ((D_K r s 0 0 i j + D_K r s 1 1 i j + D_K r s 2 2 i j) + (a1 ^ 2 + a2 ^ 2) / 10 * (DLap_K r s 0 0 i j + DLap_K r s 1 1 i j + DLap_K r s 2 2 i j))); [field|].
    rewrite D_K_trace1, DLap_K_trace1 by assumption. ring.
Qed.
Lemma M33_st2 a1 a2 i j c mu : (i < 3)%nat -> (j < 3)%nat -> st (fun k l => M33 r s a1 a2 i j k l c mu).
Proof.
  intros Hi Hj. unfold M33. split.
  - intros k l Hk Hl. rewrite !(D_K_sym _ _ k l), !(DLap_K_sym _ _ k l) by assumption. reflexivity.
  - transitivity (- (1 / 2) * c * ((D_K r s j i 0 0 + D_K r s j i 1 1 + D_K r s j i 2 2) + (D_K r s i j 0 0 + D_K r s i j 1 1 + D_K r s i j 2 2)
       + (a1 ^ 2 + a2 ^ 2) / 10 * ((DLap_K r s j i 0 0 + DLap_K r s j i 1 1 + DLap_K r s j i 2 2) + (DLap_K r s i j 0 0 + DLap_K r s i j 1 1 + DLap_K r s i j 2 2)))); [field|].
    rewrite !D_K_trace2, !DLap_K_trace2 by assumption. ring.
Qed.
End Strain.
(** [M23] is so also for a zero displacement. *)
Lemma M23_st r s a1 a2 i c mu : (i < 3)%nat -> st (fun k l => M23 r s a1 a2 i k l c mu).
Proof.
  intros Hi. unfold M23. destruct (Rlt_dec tiny _).
  - split.
    + intros k l Hk Hl. rewrite !curl_strain by assumption. ring.
    + rewrite !curl_strain by (assumption || lia). unfold eps, rsum, levi. idx3 Hi; cbn [Nat.eqb orb andb]; generalize (/ s ^ 5); intros u; cbn -[Rplus Rmult Ropp IZR]; ring.
  - split; [reflexivity|ring].
Qed.
Lemma M13_st_self r s a1 a2 i c mu : s <= tiny -> st (fun k l => M13 r s a1 a2 i k l c mu).
Proof. intros H. unfold M13. destruct (Rlt_dec tiny s); [lra|]. split; [reflexivity|ring]. Qed.
