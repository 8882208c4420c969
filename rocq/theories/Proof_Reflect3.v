From Coq Require Import Reals List ZArith Arith Bool Lra Lia.
From Verif Require Import Base Model_Mob Model_Close Spec_Scalars Model_Reflect Spec_Reflect Proof_Reflect Proof_Reflect2.
Import ListNotations.
Local Open Scope R_scope.

Lemma cross_far n r h g x i : (i < 3)%nat -> cross (far_grad n r h g x) x i = cross g x i / r ^ (2 * n + 1).
Proof. intros Hi. destruct i as [|[|[|i]]]; [| | |lia]; unfold cross, far_grad, v3, Rdiv; ring. Qed.

(** No slip, degree by degree *)
Lemma no_slip n a d e f h g x i : (2 <= n)%nat -> 0 < a -> dot3 x x = a ^ 2 -> (i < 3)%nat ->
  outside n (- oA a n d e f) (- oB a n d e f) (- oC a n d e f) a h g x i + inside n d e f h g x i = 0.
Proof.
  intros Hn Ha Hx Hi. unfold outside, inside. rewrite cross_far by exact Hi. rewrite Hx. unfold far_grad, oA, oB, oC, outgoing.
  rewrite (proj2 (Nat.eqb_neq n 1)) by lia. cbn [fst snd]. unfold invert_A, invert_C.
  assert (P : a ^ (2 * n + 1) = a ^ (2 * n - 1) * a ^ 2) by (rewrite <- pow_add; f_equal; lia).
  assert (P3 : a ^ (2 * n + 3) = a ^ (2 * n - 1) * a ^ 4) by (rewrite <- pow_add; f_equal; lia).
  assert (Q : 0 < a ^ (2 * n - 1)) by (apply pow_lt; exact Ha). rewrite P, P3. set (q := a ^ (2 * n - 1)) in *. clearbody q.
  assert (2 <= INR n) by (change 2 with (INR 2); apply le_INR; exact Hn). set (N := INR n) in *. clearbody N.
  field. repeat split; lra.
Qed.
Lemma slip_1 a b c d e f h g x i : 0 < a -> dot3 x x = a ^ 2 -> (i < 3)%nat ->
  let A := c * a ^ 2 / 6 - a ^ 5 * f / 30 in
  outside 1 A b c a h g x i + inside 1 d e f h g x i = (- (5) * A / a ^ 3 + 15 / 10 * c / a + d) * g i + (b / a ^ 3 + e) * cross g x i.
Proof.
  intros Ha Hx Hi. cbv zeta. unfold outside, inside. rewrite cross_far by exact Hi. rewrite Hx. unfold far_grad. cbn [Nat.mul Nat.add INR].
  field. lra.
Qed.
Lemma inside_add n d e f d' h g x i : inside n (d + d') e f h g x i = inside n d e f h g x i + d' * g i.
Proof. unfold inside. ring. Qed.

Lemma orders_1 : orders 1 = [-1; 0; 1]%Z. Proof. reflexivity. Qed.
Lemma orders_2 : orders 2 = [-2; -1; 0; 1; 2]%Z. Proof. reflexivity. Qed.
Lemma in_orders n m : In m (orders n) -> (Z.abs m <= Z.of_nat n)%Z.
Proof. unfold orders. rewrite in_map_iff. intros (k & <- & Hk). apply in_seq in Hk. lia. Qed.
Lemma lsum_ext {X : Type} (l : list X) f f' : (forall x, In x l -> f x = f' x) -> lsum l f = lsum l f'.
Proof. unfold lsum. induction l as [|a l IH]; intros E; [reflexivity|]. cbn [map fold_right]. rewrite (E a) by (left; reflexivity). rewrite IH; [reflexivity|]. intros x Hx. apply E. right. exact Hx. Qed.
Lemma lsum_zero {X : Type} (l : list X) : lsum l (fun _ => 0) = 0.
Proof. unfold lsum. induction l as [|a l IH]; [reflexivity|]. cbn [map fold_right]. rewrite IH. ring. Qed.
Lemma degree_ext n f f' : (forall j m, (j = 1 \/ j = 2)%nat -> (Z.abs m <= Z.of_nat n)%Z -> f j m = f' j m) -> degree_sum n f = degree_sum n f'.
Proof. intros E. apply lsum_ext. intros m Hm. apply in_orders in Hm. rewrite !E by auto. reflexivity. Qed.
Lemma degree_1 f : degree_sum 1 f = f 1%nat (-1)%Z + f 2%nat (-1)%Z + (f 1%nat 0%Z + f 2%nat 0%Z) + (f 1%nat 1%Z + f 2%nat 1%Z).
Proof. unfold degree_sum. rewrite orders_1. unfold lsum. cbn [map fold_right]. ring. Qed.
Lemma degree_2 f : degree_sum 2 f = f 1%nat (-2)%Z + f 2%nat (-2)%Z + (f 1%nat (-1)%Z + f 2%nat (-1)%Z) + (f 1%nat 0%Z + f 2%nat 0%Z) + (f 1%nat 1%Z + f 2%nat 1%Z) + (f 1%nat 2%Z + f 2%nat 2%Z).
Proof. unfold degree_sum. rewrite orders_2. unfold lsum. cbn [map fold_right]. ring. Qed.

Lemma root_pos i : (0 < i)%nat -> 0 < root i.
Proof. intros Hi. unfold root. apply sqrt_lt_R0. apply lt_INR in Hi. cbn [INR] in Hi. lra. Qed.
Lemma fact_root_pos i : 0 < fact_root i.
Proof. induction i as [|i IH]; [cbn; lra|]. cbn [fact_root]. apply Rmult_lt_0_compat; [apply root_pos; lia|exact IH]. Qed.
Lemma H_pos n m : 0 < H n m.
Proof.
  unfold H. pose proof PI_RGT_0. assert (0 < sqrt PI) by (apply sqrt_lt_R0; assumption).
  repeat apply Rdiv_lt_0_compat; try apply fact_root_pos; [|lra]. apply Rmult_lt_0_compat; [apply root_pos; lia|apply fact_root_pos].
Qed.

Section Basis.
Variables (h : harmonics) (x : vec).
Hypothesis Hh : first_harmonics H h.
Ltac basis := let Q := fresh in pose proof (Hh x) as Q; cbv zeta in Q;
  destruct Q as ((?v1 & ?v2) & ?G10 & (?v3 & ?v4) & ?G11 & (?v5 & ?v6) & ?G1m & (?v7 & ?v8) & ?G20 & (?v9 & ?v10) & ?G21 & (?v11 & ?v12) & ?G2m & (?v13 & ?v14) & ?G22 & (?v15 & ?v16) & ?G2mm).
Ltac use G i := let A := fresh in let B := fresh in destruct (G i ltac:(lia)) as [A B]; rewrite ?A, ?B; clear A B.
Lemma grad_1 W i : (i < 3)%nat -> degree_sum 1 (fun j m => W j m * hg h j 1%nat m x i) = vec_re (fun j m => H 1 m * W j m) i.
Proof.
  intros Hi. rewrite degree_1. basis. use G10 i. use G11 i. use G1m i.
  destruct i as [|[|[|i]]]; [| | |lia]; unfold vec_re, Base.v3; ring.
Qed.
Lemma val_1 W : degree_sum 1 (fun j m => W j m * hv h j 1%nat m x) = dot3 (vec_re (fun j m => H 1 m * W j m)) x.
Proof.
  rewrite degree_1. basis. rewrite v1, v2, v3, v4, v5, v6. unfold dot3, vec_re, Base.v3. ring.
Qed.
Lemma curl_1 W i : (i < 3)%nat -> degree_sum 1 (fun j m => W j m * cross (hg h j 1%nat m x) x i) = cross (vec_re (fun j m => H 1 m * W j m)) x i.
Proof.
  intros Hi. rewrite degree_1. basis. destruct i as [|[|[|i]]]; [| | |lia]; unfold cross; unfold Base.v3 at 1 2 3 4 5 6 7.
  - use G10 1%nat. use G11 1%nat. use G1m 1%nat. use G10 2%nat. use G11 2%nat. use G1m 2%nat. unfold vec_re, Base.v3. ring.
  - use G10 0%nat. use G11 0%nat. use G1m 0%nat. use G10 2%nat. use G11 2%nat. use G1m 2%nat. unfold vec_re, Base.v3. ring.
  - use G10 1%nat. use G11 1%nat. use G1m 1%nat. use G10 0%nat. use G11 0%nat. use G1m 0%nat. unfold vec_re, Base.v3. ring.
Qed.
(** the matrix of a degree 2 combination *)
Definition mat_re (W : nat -> Z -> R) : nat -> R := fun k => - S_re (- (1)) W k.
Lemma val_2 W : degree_sum 2 (fun j m => W j m * hv h j 2%nat m x) =
  - quadratic (traceless (S_re (- (1)) (fun j m => H 2 m * W j m))) x.
Proof.
  rewrite degree_2. basis. rewrite v7, v8, v9, v10, v11, v12, v13, v14, v15, v16. unfold quadratic, traceless, S_re. cbn [rsum nth]. field.
Qed.
Lemma grad_2 W i : (i < 3)%nat -> degree_sum 2 (fun j m => W j m * hg h j 2%nat m x i) =
  - (2 * rsum 3 (fun k => traceless (S_re (- (1)) (fun j m => H 2 m * W j m)) i k * x k)).
Proof.
  intros Hi. rewrite degree_2. basis. use G20 i. use G21 i. use G2m i. use G22 i. use G2mm i.
  destruct i as [|[|[|i]]]; [| | |lia]; unfold traceless, S_re, Base.v3; cbn [rsum nth]; field.
Qed.
End Basis.

Lemma lsum_zero' n : degree_sum n (fun _ _ => 0) = 0.
Proof. unfold degree_sum. transitivity (lsum (orders n) (fun _ => 0)); [apply lsum_ext; intros m _; ring|apply lsum_zero]. Qed.
Lemma degree_plus n f f' : degree_sum n (fun j m => f j m + f' j m) = degree_sum n f + degree_sum n f'.
Proof. unfold degree_sum. induction (orders n) as [|m l IH]; [unfold lsum; cbn [map fold_right]; ring|]. unfold lsum in *. cbn [map fold_right]. rewrite IH. ring. Qed.
Lemma strain_parts E xg k : strain E -> (k < 5)%nat ->
  S_re (- (1)) (fun j m => H 2 m * - d0 xg E j 2%nat m) k =
  nth k [xg * E 0%nat 0%nat / 2; xg * E 1%nat 1%nat / 2; - (E 0%nat 1%nat / 2); - (E 0%nat 2%nat / 2); - (E 1%nat 2%nat / 2)] 0.
Proof.
  intros _ Hk. unfold S_re, d0. pose proof (H_pos 2 0) as h0. pose proof (H_pos 2 1) as h1. pose proof (H_pos 2 2) as h2.
  change (H 2 (-1)) with (H 2 1). change (H 2 (-2)) with (H 2 2).
  unfold initial_D. cbn [Nat.eqb].
  do 5 (destruct k as [|k]; [cbn [nth]; field; repeat split; apply Rgt_not_eq; assumption|]). lia.
Qed.
Lemma strain_field_xg xg E x i : strain E -> (i < 3)%nat ->
  2 * rsum 3 (fun k => traceless (S_re (- (1)) (fun j m => H 2 m * - d0 xg E j 2%nat m)) i k * x k) =
  rsum 3 (fun k => (if Nat.eqb i k then xg else - (1)) * E i k * x k).
Proof.
  intros HE Hi. pose proof (fun k => strain_parts E xg k HE) as P. destruct HE as [Sy Tr].
  assert (E22 : E 2%nat 2%nat = - E 0%nat 0%nat - E 1%nat 1%nat) by (cbn in Tr; lra).
  destruct i as [|[|[|i]]]; [| | |lia]; cbn [rsum Nat.eqb]; unfold traceless; rewrite !P by lia; cbn [nth];
    rewrite ?(Sy 1%nat 0%nat), ?(Sy 2%nat 0%nat), ?(Sy 2%nat 1%nat) by lia; rewrite ?E22; field.
Qed.
Lemma strain_field E x i : strain E -> (i < 3)%nat ->
  2 * rsum 3 (fun k => traceless (S_re (- (1)) (fun j m => H 2 m * - d0 xg_sign E j 2%nat m)) i k * x k) = - rsum 3 (fun k => E i k * x k).
Proof.
  intros HE Hi. rewrite strain_field_xg by assumption. unfold xg_sign. cbn [rsum].
  destruct i as [|[|[|i]]]; [| | |lia]; cbn [Nat.eqb]; ring.
Qed.
