(** The recurrences of the near-field functions: enough calls are made. *)
From Coq Require Import Reals List Arith ZArith Bool Lra Lia.
From Verif Require Import Base Model_Nearfield.
Import ListNotations.
Local Open Scope R_scope.

Lemma lsum_ext {A} (f g : A -> R) l : (forall x, In x l -> f x = g x) -> lsum f l = lsum g l.
Proof.
  intros H. unfold lsum. induction l as [|a l IH]; [reflexivity|]. cbn. rewrite (H a (or_introl eq_refl)), IH; [reflexivity|].
  intros x Hx. apply H. right. exact Hx.
Qed.
Lemma lsum_zero {A} (f : A -> R) l : (forall x, In x l -> f x = 0) -> lsum f l = 0.
Proof.
  intros H. unfold lsum. induction l as [|a l IH]; [reflexivity|]. cbn. rewrite (H a (or_introl eq_refl)), IH; [ring|].
  intros x Hx. apply H. right. exact Hx.
Qed.
Lemma in_range a b s : (0 <= a)%Z -> In s (range a b) <-> (a <= Z.of_nat s < b)%Z.
Proof. intros Ha. unfold range. rewrite in_seq. lia. Qed.
Lemma origin_spec p q : origin p q = true <-> (p = 0 /\ q = 0)%Z.
Proof. unfold origin. rewrite andb_true_iff, !Z.eqb_eq. reflexivity. Qed.
Lemma origin_false p q : (p <> 0 \/ q <> 0)%Z -> origin p q = false.
Proof. intros H. destruct (origin p q) eqn:E; [|reflexivity]. apply origin_spec in E. lia. Qed.

Ltac in_rng := match goal with H : In _ (range _ _) |- _ => apply in_range in H; [|lia] end.

Section X.
Variable start : nat -> R.
Lemma Px_S f n p q : Px start (S f) n p q =
    if origin p q then start n
    else lsum (fun s => let N := INR n in let S := INR s in let z := Z.of_nat s in let w := Z.of_nat n in
        INR (binom (n + s) n)
        * (N * (2 * N + 1) * (2 * N * S - N - S + 2) / (2 * (N + 1) * (2 * S - 1) * (N + S)) * Px start f s (q - z) (p - w + 1)
           - N * (2 * N - 1) / (2 * (N + 1)) * Px start f s (q - z) (p - w - 1)
           - N * (4 * N ^ 2 - 1) / (2 * (N + 1) * (2 * S + 1)) * Vx start f s (q - z - 2) (p - w + 1)))
      (range 1 (q + 1)).
Proof. reflexivity. Qed.
Lemma Vx_S f n p q : Vx start (S f) n p q =
    if origin p q then start n
    else Px start f n p q - 2 * INR n / ((INR n + 1) * (2 * INR n + 3))
         * lsum (fun s => INR (binom (n + s) n) * Px start f s (q - Z.of_nat s) (p - Z.of_nat n - 1)) (range 1 (q + 1)).
Proof. reflexivity. Qed.
Lemma Px_zero f : forall n p q, (1 <= n)%nat -> (p < 0 \/ q < 0)%Z -> Px start f n p q = 0 /\ Vx start f n p q = 0.
Proof.
  induction f as [|f IH]; intros n p q Hn H; [split; reflexivity|].
  assert (O : origin p q = false) by (apply origin_false; lia).
  split; [rewrite Px_S|rewrite Vx_S]; rewrite O.
  - apply lsum_zero. intros s Hs. in_rng. cbv zeta.
    rewrite (proj1 (IH s (q - Z.of_nat s)%Z (p - Z.of_nat n + 1)%Z ltac:(lia) ltac:(lia))).
    rewrite (proj1 (IH s (q - Z.of_nat s)%Z (p - Z.of_nat n - 1)%Z ltac:(lia) ltac:(lia))).
    rewrite (proj2 (IH s (q - Z.of_nat s - 2)%Z (p - Z.of_nat n + 1)%Z ltac:(lia) ltac:(lia))). ring.
  - rewrite (proj1 (IH n p q Hn H)), lsum_zero; [ring|]. intros s Hs. in_rng.
    rewrite (proj1 (IH s (q - Z.of_nat s)%Z (p - Z.of_nat n - 1)%Z ltac:(lia) ltac:(lia))). ring.
Qed.
Lemma Px_fuel d : forall n p q f f', (1 <= n)%nat -> (p + q <= Z.of_nat d)%Z ->
  ((2 * d + 1 <= f)%nat -> (2 * d + 1 <= f')%nat -> Px start f n p q = Px start f' n p q) /\
  ((2 * d + 2 <= f)%nat -> (2 * d + 2 <= f')%nat -> Vx start f n p q = Vx start f' n p q).
Proof.
  induction d as [|d IH]; intros n p q f f' Hn Hd.
  - assert (P1 : forall f f', (1 <= f)%nat -> (1 <= f')%nat -> Px start f n p q = Px start f' n p q).
    { clear f f'. intros [|f] [|f'] Hf Hf'; try lia. rewrite !Px_S. destruct (origin p q) eqn:O; [reflexivity|].
      assert (N : forall g s, In s (range 1 (q + 1)) -> Px start g s (q - Z.of_nat s) (p - Z.of_nat n + 1) = 0
        /\ Px start g s (q - Z.of_nat s) (p - Z.of_nat n - 1) = 0 /\ Vx start g s (q - Z.of_nat s - 2) (p - Z.of_nat n + 1) = 0).
      { intros g s Hs. in_rng. repeat split; apply Px_zero; lia. }
      apply lsum_ext. intros s Hs. cbv zeta. destruct (N f s Hs) as (-> & -> & ->). destruct (N f' s Hs) as (-> & -> & ->). reflexivity. }
    split; [exact (P1 f f')|]. destruct f as [|f], f' as [|f']; intros Hf Hf'; try lia. rewrite !Vx_S. destruct (origin p q) eqn:O; [reflexivity|].
    rewrite (P1 f f') by lia. f_equal. f_equal. apply lsum_ext. intros s Hs. in_rng.
    rewrite !(proj1 (Px_zero _ s (q - Z.of_nat s) (p - Z.of_nat n - 1) ltac:(lia) ltac:(lia))). reflexivity.
  - assert (P1 : forall f f', (2 * S d + 1 <= f)%nat -> (2 * S d + 1 <= f')%nat -> Px start f n p q = Px start f' n p q).
    { clear f f'. intros [|f] [|f'] Hf Hf'; try lia. rewrite !Px_S. destruct (origin p q) eqn:O; [reflexivity|].
      apply lsum_ext. intros s Hs. in_rng. cbv zeta.
      rewrite (proj1 (IH s (q - Z.of_nat s)%Z (p - Z.of_nat n + 1)%Z f f' ltac:(lia) ltac:(lia))) by lia.
      rewrite (proj1 (IH s (q - Z.of_nat s)%Z (p - Z.of_nat n - 1)%Z f f' ltac:(lia) ltac:(lia))) by lia.
      rewrite (proj2 (IH s (q - Z.of_nat s - 2)%Z (p - Z.of_nat n + 1)%Z f f' ltac:(lia) ltac:(lia))) by lia. reflexivity. }
    split; [exact (P1 f f')|]. destruct f as [|f], f' as [|f']; intros Hf Hf'; try lia. rewrite !Vx_S. destruct (origin p q) eqn:O; [reflexivity|].
    rewrite (P1 f f') by lia. f_equal. f_equal. apply lsum_ext. intros s Hs. in_rng.
    rewrite (proj1 (IH s (q - Z.of_nat s)%Z (p - Z.of_nat n - 1)%Z f f' ltac:(lia) ltac:(lia))) by lia. reflexivity.
Qed.

Definition PX n p q := Px start (enough p q) n p q.
Definition VX n p q := Vx start (enough p q) n p q.
Lemma PX_zero n p q : (1 <= n)%nat -> (p < 0 \/ q < 0)%Z -> PX n p q = 0.
Proof. intros. apply Px_zero; assumption. Qed.
Lemma VX_zero n p q : (1 <= n)%nat -> (p < 0 \/ q < 0)%Z -> VX n p q = 0.
Proof. intros. apply Px_zero; assumption. Qed.
(** any larger amount of fuel, or a negative degree *)
Lemma PX_any n p q f : (1 <= n)%nat -> (Z.to_nat (p + q) < f)%nat -> (2 * Z.to_nat (p + q) + 1 <= f)%nat -> Px start f n p q = PX n p q.
Proof. intros Hn _ H. apply (Px_fuel (Z.to_nat (p + q))); unfold enough; lia. Qed.
Lemma VX_any n p q f : (1 <= n)%nat -> (2 * Z.to_nat (p + q) + 2 <= f)%nat -> Vx start f n p q = VX n p q.
Proof. intros Hn H. apply (Px_fuel (Z.to_nat (p + q))); unfold enough; lia. Qed.

Lemma PX_eq n p q : (1 <= n)%nat -> PX n p q =
  if origin p q then start n
  else lsum (fun s => let N := INR n in let S := INR s in let z := Z.of_nat s in let w := Z.of_nat n in
        INR (binom (n + s) n)
        * (N * (2 * N + 1) * (2 * N * S - N - S + 2) / (2 * (N + 1) * (2 * S - 1) * (N + S)) * PX s (q - z) (p - w + 1)
           - N * (2 * N - 1) / (2 * (N + 1)) * PX s (q - z) (p - w - 1)
           - N * (4 * N ^ 2 - 1) / (2 * (N + 1) * (2 * S + 1)) * VX s (q - z - 2) (p - w + 1)))
      (range 1 (q + 1)).
Proof.
  intros Hn. unfold PX at 1. unfold enough. replace (2 * Z.to_nat (p + q) + 2)%nat with (S (2 * Z.to_nat (p + q) + 1)) by lia.
  rewrite !Px_S. destruct (origin p q) eqn:O; [reflexivity|]. apply lsum_ext. intros s Hs. in_rng. cbv zeta.
  assert (E : forall p' q', (p' + q' < p + q)%Z \/ (p' < 0 \/ q' < 0)%Z ->
     Px start (2 * Z.to_nat (p + q) + 1) s p' q' = PX s p' q' /\ Vx start (2 * Z.to_nat (p + q) + 1) s p' q' = VX s p' q').
  { intros p' q' [H|H].
    - destruct (Z_lt_le_dec p' 0) as [L|L]; [|destruct (Z_lt_le_dec q' 0) as [L'|L']].
      + unfold PX, VX. split; (etransitivity; [|symmetry]); apply Px_zero; lia.
      + unfold PX, VX. split; (etransitivity; [|symmetry]); apply Px_zero; lia.
      + split; [apply PX_any; lia|apply VX_any; lia].
    - unfold PX, VX. split; (etransitivity; [|symmetry]); apply Px_zero; lia. }
  rewrite (proj1 (E (q - Z.of_nat s)%Z (p - Z.of_nat n + 1)%Z ltac:(lia))), (proj1 (E (q - Z.of_nat s)%Z (p - Z.of_nat n - 1)%Z ltac:(lia))),
    (proj2 (E (q - Z.of_nat s - 2)%Z (p - Z.of_nat n + 1)%Z ltac:(lia))). reflexivity.
Qed.
Lemma VX_eq n p q : (1 <= n)%nat -> VX n p q =
  if origin p q then start n
  else PX n p q - 2 * INR n / ((INR n + 1) * (2 * INR n + 3))
         * lsum (fun s => INR (binom (n + s) n) * PX s (q - Z.of_nat s) (p - Z.of_nat n - 1)) (range 1 (q + 1)).
Proof.
  intros Hn. unfold VX. unfold enough at 1. replace (2 * Z.to_nat (p + q) + 2)%nat with (S (2 * Z.to_nat (p + q) + 1)) by lia.
  rewrite !Vx_S. destruct (origin p q) eqn:O; [reflexivity|]. rewrite PX_any by lia. f_equal. f_equal.
  apply lsum_ext. intros s Hs. in_rng. f_equal.
  destruct (Z_lt_le_dec (p - Z.of_nat n - 1) 0).
  - rewrite PX_zero by lia. apply Px_zero; lia.
  - apply PX_any; lia.
Qed.
End X.
