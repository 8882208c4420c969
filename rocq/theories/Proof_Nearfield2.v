(** As Proof_Nearfield1, for the families with three sequences. *)
From Coq Require Import Reals List Arith ZArith Bool Lra Lia.
From Verif Require Import Base Model_Nearfield Proof_Nearfield1.
Import ListNotations.
Local Open Scope R_scope.

Section Y.
Variables start startQ : nat -> R.
Lemma Py_S f n p q : Py start startQ (S f) n p q =
    if origin p q then start n
    else lsum (fun s => let N := INR n in let S := INR s in let z := Z.of_nat s in let w := Z.of_nat n in
        INR (binom (n + s) (n + 1))
        * ((2 * N + 1) / (2 * (N + 1)) * (3 * (N + S) - (N * S + 1) * (2 * N * S - S - N + 2)) / (S * (N + S) * (2 * S - 1))
             * Py start startQ f s (q - z) (p - w + 1)
           + N * (2 * N - 1) / (2 * (N + 1)) * Py start startQ f s (q - z) (p - w - 1)
           + N * (4 * N ^ 2 - 1) / (2 * (N + 1) * (2 * S + 1)) * Vy start startQ f s (q - z - 2) (p - w + 1)
           - 2 * (4 * N ^ 2 - 1) / (3 * (N + 1)) * Qy start startQ f s (q - z - 1) (p - w + 1)))
      (range 1 (q + 1)).
Proof. reflexivity. Qed.
Lemma Qy_S f n p q : Qy start startQ (S f) n p q =
    if origin p q then startQ n
    else lsum (fun s => let N := INR n in let S := INR s in
        INR (binom (n + s) (n + 1))
        * (S / (N + 1) * Qy start startQ f s (q - Z.of_nat s - 1) (p - Z.of_nat n)
           - 3 / (2 * N * S * (N + 1)) * Py start startQ f s (q - Z.of_nat s) (p - Z.of_nat n)))
      (range 1 (q + 1)).
Proof. reflexivity. Qed.
Lemma Vy_S f n p q : Vy start startQ (S f) n p q =
    if origin p q then start n
    else Py start startQ f n p q + 2 * INR n / ((INR n + 1) * (2 * INR n + 3))
         * lsum (fun s => INR (binom (n + s) (n + 1)) * Py start startQ f s (q - Z.of_nat s) (p - Z.of_nat n - 1)) (range 1 (q + 1)).
Proof. reflexivity. Qed.
Lemma Py_zero f : forall n p q, (1 <= n)%nat -> (p < 0 \/ q < 0)%Z -> Py start startQ f n p q = 0 /\ Qy start startQ f n p q = 0 /\ Vy start startQ f n p q = 0.
Proof.
  induction f as [|f IH]; intros n p q Hn H; [repeat split|].
  assert (O : origin p q = false) by (apply origin_false; lia).
  split; [rewrite Py_S|split; [rewrite Qy_S|rewrite Vy_S]]; rewrite O.
  - apply lsum_zero. intros s Hs. in_rng. cbv zeta.
    rewrite ?(proj1 (IH s (q - Z.of_nat s)%Z (p - Z.of_nat n + 1)%Z ltac:(lia) ltac:(lia))).
    rewrite ?(proj1 (IH s (q - Z.of_nat s)%Z (p - Z.of_nat n - 1)%Z ltac:(lia) ltac:(lia))).
    rewrite ?(proj1 (IH s (q - Z.of_nat s)%Z (p - Z.of_nat n)%Z ltac:(lia) ltac:(lia))).
    rewrite ?(proj1 (proj2 (IH s (q - Z.of_nat s - 1)%Z (p - Z.of_nat n + 1)%Z ltac:(lia) ltac:(lia)))).
    rewrite ?(proj1 (proj2 (IH s (q - Z.of_nat s - 1)%Z (p - Z.of_nat n)%Z ltac:(lia) ltac:(lia)))).
    rewrite ?(proj2 (proj2 (IH s (q - Z.of_nat s - 2)%Z (p - Z.of_nat n + 1)%Z ltac:(lia) ltac:(lia)))). ring.
  - apply lsum_zero. intros s Hs. in_rng. cbv zeta.
    rewrite ?(proj1 (IH s (q - Z.of_nat s)%Z (p - Z.of_nat n + 1)%Z ltac:(lia) ltac:(lia))).
    rewrite ?(proj1 (IH s (q - Z.of_nat s)%Z (p - Z.of_nat n - 1)%Z ltac:(lia) ltac:(lia))).
    rewrite ?(proj1 (IH s (q - Z.of_nat s)%Z (p - Z.of_nat n)%Z ltac:(lia) ltac:(lia))).
    rewrite ?(proj1 (proj2 (IH s (q - Z.of_nat s - 1)%Z (p - Z.of_nat n + 1)%Z ltac:(lia) ltac:(lia)))).
    rewrite ?(proj1 (proj2 (IH s (q - Z.of_nat s - 1)%Z (p - Z.of_nat n)%Z ltac:(lia) ltac:(lia)))).
    rewrite ?(proj2 (proj2 (IH s (q - Z.of_nat s - 2)%Z (p - Z.of_nat n + 1)%Z ltac:(lia) ltac:(lia)))). ring.
  - rewrite (proj1 (IH n p q Hn H)), lsum_zero; [ring|]. intros s Hs. in_rng.
    rewrite (proj1 (IH s (q - Z.of_nat s)%Z (p - Z.of_nat n - 1)%Z ltac:(lia) ltac:(lia))). ring.
Qed.
(** degree lowered by one, or an argument negative *)
Lemma Py_fuel d : forall n p q f f', (1 <= n)%nat -> (p + q <= Z.of_nat d)%Z ->
  ((2 * d + 1 <= f)%nat -> (2 * d + 1 <= f')%nat -> Py start startQ f n p q = Py start startQ f' n p q) /\
  ((2 * d + 1 <= f)%nat -> (2 * d + 1 <= f')%nat -> Qy start startQ f n p q = Qy start startQ f' n p q) /\
  ((2 * d + 2 <= f)%nat -> (2 * d + 2 <= f')%nat -> Vy start startQ f n p q = Vy start startQ f' n p q).
Proof.
  induction d as [|d IH]; intros n p q f f' Hn Hd.
  - assert (N : forall g s, In s (range 1 (q + 1)) -> (Py start startQ g s (q - Z.of_nat s) (p - Z.of_nat n + 1) = 0
        /\ Py start startQ g s (q - Z.of_nat s) (p - Z.of_nat n - 1) = 0 /\ Py start startQ g s (q - Z.of_nat s) (p - Z.of_nat n) = 0)
        /\ (Vy start startQ g s (q - Z.of_nat s - 2) (p - Z.of_nat n + 1) = 0 /\ Qy start startQ g s (q - Z.of_nat s - 1) (p - Z.of_nat n + 1) = 0
        /\ Qy start startQ g s (q - Z.of_nat s - 1) (p - Z.of_nat n) = 0)).
    { intros g s Hs. in_rng. repeat split; apply Py_zero; lia. }
    assert (P1 : forall f f', (1 <= f)%nat -> (1 <= f')%nat -> Py start startQ f n p q = Py start startQ f' n p q).
    { clear f f'. intros [|f] [|f'] Hf Hf'; try lia. rewrite !Py_S. destruct (origin p q) eqn:O; [reflexivity|].
      apply lsum_ext. intros s Hs. cbv zeta. destruct (N f s Hs) as ((-> & -> & _) & -> & -> & _). destruct (N f' s Hs) as ((-> & -> & _) & -> & -> & _). reflexivity. }
    split; [exact (P1 f f')|split].
    + destruct f as [|f], f' as [|f']; intros Hf Hf'; try lia. rewrite !Qy_S. destruct (origin p q) eqn:O; [reflexivity|].
      apply lsum_ext. intros s Hs. cbv zeta. destruct (N f s Hs) as ((_ & _ & ->) & _ & _ & ->). destruct (N f' s Hs) as ((_ & _ & ->) & _ & _ & ->). reflexivity.
    + destruct f as [|f], f' as [|f']; intros Hf Hf'; try lia. rewrite !Vy_S. destruct (origin p q) eqn:O; [reflexivity|].
      rewrite (P1 f f') by lia. f_equal. f_equal. apply lsum_ext. intros s Hs.
      destruct (N f s Hs) as ((_ & -> & _) & _). destruct (N f' s Hs) as ((_ & -> & _) & _). reflexivity.
  - assert (P1 : forall f f', (2 * S d + 1 <= f)%nat -> (2 * S d + 1 <= f')%nat -> Py start startQ f n p q = Py start startQ f' n p q).
    { clear f f'. intros [|f] [|f'] Hf Hf'; try lia. rewrite !Py_S. destruct (origin p q) eqn:O; [reflexivity|].
      apply lsum_ext. intros s Hs. in_rng. cbv zeta.
      rewrite (proj1 (IH s (q - Z.of_nat s)%Z (p - Z.of_nat n + 1)%Z f f' ltac:(lia) ltac:(lia))) by lia.
      rewrite (proj1 (IH s (q - Z.of_nat s)%Z (p - Z.of_nat n - 1)%Z f f' ltac:(lia) ltac:(lia))) by lia.
      rewrite (proj1 (proj2 (IH s (q - Z.of_nat s - 1)%Z (p - Z.of_nat n + 1)%Z f f' ltac:(lia) ltac:(lia)))) by lia.
      rewrite (proj2 (proj2 (IH s (q - Z.of_nat s - 2)%Z (p - Z.of_nat n + 1)%Z f f' ltac:(lia) ltac:(lia)))) by lia. reflexivity. }
    split; [exact (P1 f f')|split].
    + destruct f as [|f], f' as [|f']; intros Hf Hf'; try lia. rewrite !Qy_S. destruct (origin p q) eqn:O; [reflexivity|].
      apply lsum_ext. intros s Hs. in_rng. cbv zeta.
      rewrite (proj1 (IH s (q - Z.of_nat s)%Z (p - Z.of_nat n)%Z f f' ltac:(lia) ltac:(lia))) by lia.
      rewrite (proj1 (proj2 (IH s (q - Z.of_nat s - 1)%Z (p - Z.of_nat n)%Z f f' ltac:(lia) ltac:(lia)))) by lia. reflexivity.
    + destruct f as [|f], f' as [|f']; intros Hf Hf'; try lia. rewrite !Vy_S. destruct (origin p q) eqn:O; [reflexivity|].
      rewrite (P1 f f') by lia. f_equal. f_equal. apply lsum_ext. intros s Hs. in_rng.
      rewrite (proj1 (IH s (q - Z.of_nat s)%Z (p - Z.of_nat n - 1)%Z f f' ltac:(lia) ltac:(lia))) by lia. reflexivity.
Qed.

Definition PY n p q := Py start startQ (enough p q) n p q.
Definition QY n p q := Qy start startQ (enough p q) n p q.
Definition VY n p q := Vy start startQ (enough p q) n p q.
Lemma PY_zero n p q : (1 <= n)%nat -> (p < 0 \/ q < 0)%Z -> PY n p q = 0.
Proof. intros. apply Py_zero; assumption. Qed.
Lemma QY_zero n p q : (1 <= n)%nat -> (p < 0 \/ q < 0)%Z -> QY n p q = 0.
Proof. intros. apply Py_zero; assumption. Qed.
Lemma VY_zero n p q : (1 <= n)%nat -> (p < 0 \/ q < 0)%Z -> VY n p q = 0.
Proof. intros. apply Py_zero; assumption. Qed.
Lemma PY_any n p q f : (1 <= n)%nat -> (2 * Z.to_nat (p + q) + 1 <= f)%nat -> Py start startQ f n p q = PY n p q.
Proof. intros Hn H. apply (Py_fuel (Z.to_nat (p + q))); unfold enough; lia. Qed.
Lemma QY_any n p q f : (1 <= n)%nat -> (2 * Z.to_nat (p + q) + 1 <= f)%nat -> Qy start startQ f n p q = QY n p q.
Proof. intros Hn H. apply (Py_fuel (Z.to_nat (p + q))); unfold enough; lia. Qed.
Lemma VY_any n p q f : (1 <= n)%nat -> (2 * Z.to_nat (p + q) + 2 <= f)%nat -> Vy start startQ f n p q = VY n p q.
Proof. intros Hn H. apply (Py_fuel (Z.to_nat (p + q))); unfold enough; lia. Qed.
Lemma Y_less s p q p' q' : (1 <= s)%nat -> (p' + q' < p + q)%Z \/ (p' < 0 \/ q' < 0)%Z ->
  Py start startQ (2 * Z.to_nat (p + q) + 1) s p' q' = PY s p' q' /\ Qy start startQ (2 * Z.to_nat (p + q) + 1) s p' q' = QY s p' q' /\
  Vy start startQ (2 * Z.to_nat (p + q) + 1) s p' q' = VY s p' q'.
Proof.
  intros Hs H. destruct (Z_lt_le_dec p' 0) as [L|L]; [|destruct (Z_lt_le_dec q' 0) as [L'|L']].
  - unfold PY, QY, VY. repeat split; (etransitivity; [|symmetry]); apply Py_zero; lia.
  - unfold PY, QY, VY. repeat split; (etransitivity; [|symmetry]); apply Py_zero; lia.
  - split; [apply PY_any; lia|]. split; [apply QY_any; lia|apply VY_any; lia].
Qed.
Lemma PY_eq n p q : (1 <= n)%nat -> PY n p q =
    if origin p q then start n
    else lsum (fun s => let N := INR n in let S := INR s in let z := Z.of_nat s in let w := Z.of_nat n in
        INR (binom (n + s) (n + 1))
        * ((2 * N + 1) / (2 * (N + 1)) * (3 * (N + S) - (N * S + 1) * (2 * N * S - S - N + 2)) / (S * (N + S) * (2 * S - 1))
             * PY s (q - z) (p - w + 1)
           + N * (2 * N - 1) / (2 * (N + 1)) * PY s (q - z) (p - w - 1)
           + N * (4 * N ^ 2 - 1) / (2 * (N + 1) * (2 * S + 1)) * VY s (q - z - 2) (p - w + 1)
           - 2 * (4 * N ^ 2 - 1) / (3 * (N + 1)) * QY s (q - z - 1) (p - w + 1)))
      (range 1 (q + 1)).
Proof.
  intros Hn. unfold PY at 1. unfold enough. replace (2 * Z.to_nat (p + q) + 2)%nat with (S (2 * Z.to_nat (p + q) + 1)) by lia.
  rewrite Py_S. destruct (origin p q) eqn:O; [reflexivity|].
  apply lsum_ext. intros s Hs. in_rng. cbv zeta.
  rewrite (proj1 (Y_less s p q (q - Z.of_nat s)%Z (p - Z.of_nat n + 1)%Z ltac:(lia) ltac:(lia))).
  rewrite (proj1 (Y_less s p q (q - Z.of_nat s)%Z (p - Z.of_nat n - 1)%Z ltac:(lia) ltac:(lia))).
  rewrite (proj1 (proj2 (Y_less s p q (q - Z.of_nat s - 1)%Z (p - Z.of_nat n + 1)%Z ltac:(lia) ltac:(lia)))).
  rewrite (proj2 (proj2 (Y_less s p q (q - Z.of_nat s - 2)%Z (p - Z.of_nat n + 1)%Z ltac:(lia) ltac:(lia)))). reflexivity.
Qed.
Lemma QY_eq n p q : (1 <= n)%nat -> QY n p q =
    if origin p q then startQ n
    else lsum (fun s => let N := INR n in let S := INR s in
        INR (binom (n + s) (n + 1))
        * (S / (N + 1) * QY s (q - Z.of_nat s - 1) (p - Z.of_nat n)
           - 3 / (2 * N * S * (N + 1)) * PY s (q - Z.of_nat s) (p - Z.of_nat n)))
      (range 1 (q + 1)).
Proof.
  intros Hn. unfold QY at 1. unfold enough. replace (2 * Z.to_nat (p + q) + 2)%nat with (S (2 * Z.to_nat (p + q) + 1)) by lia.
  rewrite Qy_S. destruct (origin p q) eqn:O; [reflexivity|].
  apply lsum_ext. intros s Hs. in_rng. cbv zeta.
  rewrite (proj1 (Y_less s p q (q - Z.of_nat s)%Z (p - Z.of_nat n)%Z ltac:(lia) ltac:(lia))).
  rewrite (proj1 (proj2 (Y_less s p q (q - Z.of_nat s - 1)%Z (p - Z.of_nat n)%Z ltac:(lia) ltac:(lia)))). reflexivity.
Qed.
Lemma VY_eq n p q : (1 <= n)%nat -> VY n p q =
    if origin p q then start n
    else PY n p q + 2 * INR n / ((INR n + 1) * (2 * INR n + 3))
         * lsum (fun s => INR (binom (n + s) (n + 1)) * PY s (q - Z.of_nat s) (p - Z.of_nat n - 1)) (range 1 (q + 1)).
Proof.
  intros Hn. unfold VY at 1. unfold enough. replace (2 * Z.to_nat (p + q) + 2)%nat with (S (2 * Z.to_nat (p + q) + 1)) by lia.
  rewrite Vy_S. destruct (origin p q) eqn:O; [reflexivity|].
  rewrite PY_any by lia. f_equal. f_equal. apply lsum_ext. intros s Hs. in_rng. f_equal. apply (proj1 (Y_less s p q (q - Z.of_nat s)%Z (p - Z.of_nat n - 1)%Z ltac:(lia) ltac:(lia))).
Qed.
End Y.

Section ZF.
Lemma Pz_S f n p q : Pz (S f) n p q =
    if origin p q then kron 2 n
    else lsum (fun s => let N := INR n in let S := INR s in let z := Z.of_nat s in let w := Z.of_nat n in
        INR (binom (n + s) (n + 2))
        * (- (2) * (2 * N + 1) * (2 * N - 1) / (N + 1) * Qz f s (q - z - 1) (p - w + 1)
           + N * (2 * N + 1) * (2 * N - 1) / (2 * (N + 1) * (2 * S + 1)) * Vz f s (q - z - 2) (p - w + 1)
           + (2 * N + 1) / (N + 1) * (N * S * (N + S - 2 * N * S - 2) - 4 * (2 * N * S - 4 * S - 4 * N + 2)) / (2 * S * (N + S) * (2 * S - 1))
             * Pz f s (q - z) (p - w + 1)
           + N * (2 * N - 1) / (2 * (N + 1)) * Pz f s (q - z) (p - w - 1)))
      (range 2 (q + 1)).
Proof. reflexivity. Qed.
Lemma Qz_S f n p q : Qz (S f) n p q =
    if origin p q then 0
    else lsum (fun s => let N := INR n in let S := INR s in
        INR (binom (n + s) (n + 2))
        * (S / (N + 1) * Qz f s (q - Z.of_nat s - 1) (p - Z.of_nat n)
           - 2 / (N * S * (N + 1)) * Pz f s (q - Z.of_nat s) (p - Z.of_nat n)))
      (range 2 (q + 1)).
Proof. reflexivity. Qed.
Lemma Vz_S f n p q : Vz (S f) n p q =
    if origin p q then kron 2 n
    else Pz f n p q + 2 * INR n / ((INR n + 1) * (2 * INR n + 3))
         * lsum (fun s => INR (binom (n + s) (n + 2)) * Pz f s (q - Z.of_nat s) (p - Z.of_nat n - 1)) (range 2 (q + 1)).
Proof. reflexivity. Qed.
Lemma Pz_zero f : forall n p q, (1 <= n)%nat -> (p < 0 \/ q < 0)%Z -> Pz f n p q = 0 /\ Qz f n p q = 0 /\ Vz f n p q = 0.
Proof.
  induction f as [|f IH]; intros n p q Hn H; [repeat split|].
  assert (O : origin p q = false) by (apply origin_false; lia).
  split; [rewrite Pz_S|split; [rewrite Qz_S|rewrite Vz_S]]; rewrite O.
  - apply lsum_zero. intros s Hs. in_rng. cbv zeta.
    rewrite ?(proj1 (IH s (q - Z.of_nat s)%Z (p - Z.of_nat n + 1)%Z ltac:(lia) ltac:(lia))).
    rewrite ?(proj1 (IH s (q - Z.of_nat s)%Z (p - Z.of_nat n - 1)%Z ltac:(lia) ltac:(lia))).
    rewrite ?(proj1 (IH s (q - Z.of_nat s)%Z (p - Z.of_nat n)%Z ltac:(lia) ltac:(lia))).
    rewrite ?(proj1 (proj2 (IH s (q - Z.of_nat s - 1)%Z (p - Z.of_nat n + 1)%Z ltac:(lia) ltac:(lia)))).
    rewrite ?(proj1 (proj2 (IH s (q - Z.of_nat s - 1)%Z (p - Z.of_nat n)%Z ltac:(lia) ltac:(lia)))).
    rewrite ?(proj2 (proj2 (IH s (q - Z.of_nat s - 2)%Z (p - Z.of_nat n + 1)%Z ltac:(lia) ltac:(lia)))). ring.
  - apply lsum_zero. intros s Hs. in_rng. cbv zeta.
    rewrite ?(proj1 (IH s (q - Z.of_nat s)%Z (p - Z.of_nat n + 1)%Z ltac:(lia) ltac:(lia))).
    rewrite ?(proj1 (IH s (q - Z.of_nat s)%Z (p - Z.of_nat n - 1)%Z ltac:(lia) ltac:(lia))).
    rewrite ?(proj1 (IH s (q - Z.of_nat s)%Z (p - Z.of_nat n)%Z ltac:(lia) ltac:(lia))).
    rewrite ?(proj1 (proj2 (IH s (q - Z.of_nat s - 1)%Z (p - Z.of_nat n + 1)%Z ltac:(lia) ltac:(lia)))).
    rewrite ?(proj1 (proj2 (IH s (q - Z.of_nat s - 1)%Z (p - Z.of_nat n)%Z ltac:(lia) ltac:(lia)))).
    rewrite ?(proj2 (proj2 (IH s (q - Z.of_nat s - 2)%Z (p - Z.of_nat n + 1)%Z ltac:(lia) ltac:(lia)))). ring.
  - rewrite (proj1 (IH n p q Hn H)), lsum_zero; [ring|]. intros s Hs. in_rng.
    rewrite (proj1 (IH s (q - Z.of_nat s)%Z (p - Z.of_nat n - 1)%Z ltac:(lia) ltac:(lia))). ring.
Qed.
(** degree lowered by one, or an argument negative *)
Lemma Pz_fuel d : forall n p q f f', (1 <= n)%nat -> (p + q <= Z.of_nat d)%Z ->
  ((2 * d + 1 <= f)%nat -> (2 * d + 1 <= f')%nat -> Pz f n p q = Pz f' n p q) /\
  ((2 * d + 1 <= f)%nat -> (2 * d + 1 <= f')%nat -> Qz f n p q = Qz f' n p q) /\
  ((2 * d + 2 <= f)%nat -> (2 * d + 2 <= f')%nat -> Vz f n p q = Vz f' n p q).
Proof.
  induction d as [|d IH]; intros n p q f f' Hn Hd.
  - assert (N : forall g s, In s (range 2 (q + 1)) -> (Pz g s (q - Z.of_nat s) (p - Z.of_nat n + 1) = 0
        /\ Pz g s (q - Z.of_nat s) (p - Z.of_nat n - 1) = 0 /\ Pz g s (q - Z.of_nat s) (p - Z.of_nat n) = 0)
        /\ (Vz g s (q - Z.of_nat s - 2) (p - Z.of_nat n + 1) = 0 /\ Qz g s (q - Z.of_nat s - 1) (p - Z.of_nat n + 1) = 0
        /\ Qz g s (q - Z.of_nat s - 1) (p - Z.of_nat n) = 0)).
    { intros g s Hs. in_rng. repeat split; apply Pz_zero; lia. }
    assert (P1 : forall f f', (1 <= f)%nat -> (1 <= f')%nat -> Pz f n p q = Pz f' n p q).
    { clear f f'. intros [|f] [|f'] Hf Hf'; try lia. rewrite !Pz_S. destruct (origin p q) eqn:O; [reflexivity|].
      apply lsum_ext. intros s Hs. cbv zeta. destruct (N f s Hs) as ((-> & -> & _) & -> & -> & _). destruct (N f' s Hs) as ((-> & -> & _) & -> & -> & _). reflexivity. }
    split; [exact (P1 f f')|split].
    + destruct f as [|f], f' as [|f']; intros Hf Hf'; try lia. rewrite !Qz_S. destruct (origin p q) eqn:O; [reflexivity|].
      apply lsum_ext. intros s Hs. cbv zeta. destruct (N f s Hs) as ((_ & _ & ->) & _ & _ & ->). destruct (N f' s Hs) as ((_ & _ & ->) & _ & _ & ->). reflexivity.
    + destruct f as [|f], f' as [|f']; intros Hf Hf'; try lia. rewrite !Vz_S. destruct (origin p q) eqn:O; [reflexivity|].
      rewrite (P1 f f') by lia. f_equal. f_equal. apply lsum_ext. intros s Hs.
      destruct (N f s Hs) as ((_ & -> & _) & _). destruct (N f' s Hs) as ((_ & -> & _) & _). reflexivity.
  - assert (P1 : forall f f', (2 * S d + 1 <= f)%nat -> (2 * S d + 1 <= f')%nat -> Pz f n p q = Pz f' n p q).
    { clear f f'. intros [|f] [|f'] Hf Hf'; try lia. rewrite !Pz_S. destruct (origin p q) eqn:O; [reflexivity|].
      apply lsum_ext. intros s Hs. in_rng. cbv zeta.
      rewrite (proj1 (IH s (q - Z.of_nat s)%Z (p - Z.of_nat n + 1)%Z f f' ltac:(lia) ltac:(lia))) by lia.
      rewrite (proj1 (IH s (q - Z.of_nat s)%Z (p - Z.of_nat n - 1)%Z f f' ltac:(lia) ltac:(lia))) by lia.
      rewrite (proj1 (proj2 (IH s (q - Z.of_nat s - 1)%Z (p - Z.of_nat n + 1)%Z f f' ltac:(lia) ltac:(lia)))) by lia.
      rewrite (proj2 (proj2 (IH s (q - Z.of_nat s - 2)%Z (p - Z.of_nat n + 1)%Z f f' ltac:(lia) ltac:(lia)))) by lia. reflexivity. }
    split; [exact (P1 f f')|split].
    + destruct f as [|f], f' as [|f']; intros Hf Hf'; try lia. rewrite !Qz_S. destruct (origin p q) eqn:O; [reflexivity|].
      apply lsum_ext. intros s Hs. in_rng. cbv zeta.
      rewrite (proj1 (IH s (q - Z.of_nat s)%Z (p - Z.of_nat n)%Z f f' ltac:(lia) ltac:(lia))) by lia.
      rewrite (proj1 (proj2 (IH s (q - Z.of_nat s - 1)%Z (p - Z.of_nat n)%Z f f' ltac:(lia) ltac:(lia)))) by lia. reflexivity.
    + destruct f as [|f], f' as [|f']; intros Hf Hf'; try lia. rewrite !Vz_S. destruct (origin p q) eqn:O; [reflexivity|].
      rewrite (P1 f f') by lia. f_equal. f_equal. apply lsum_ext. intros s Hs. in_rng.
      rewrite (proj1 (IH s (q - Z.of_nat s)%Z (p - Z.of_nat n - 1)%Z f f' ltac:(lia) ltac:(lia))) by lia. reflexivity.
Qed.

Definition PZM n p q := Pz (enough p q) n p q.
Definition QZM n p q := Qz (enough p q) n p q.
Definition VZM n p q := Vz (enough p q) n p q.
Lemma PZM_zero n p q : (1 <= n)%nat -> (p < 0 \/ q < 0)%Z -> PZM n p q = 0.
Proof. intros. apply Pz_zero; assumption. Qed.
Lemma QZM_zero n p q : (1 <= n)%nat -> (p < 0 \/ q < 0)%Z -> QZM n p q = 0.
Proof. intros. apply Pz_zero; assumption. Qed.
Lemma VZM_zero n p q : (1 <= n)%nat -> (p < 0 \/ q < 0)%Z -> VZM n p q = 0.
Proof. intros. apply Pz_zero; assumption. Qed.
Lemma PZM_any n p q f : (1 <= n)%nat -> (2 * Z.to_nat (p + q) + 1 <= f)%nat -> Pz f n p q = PZM n p q.
Proof. intros Hn H. apply (Pz_fuel (Z.to_nat (p + q))); unfold enough; lia. Qed.
Lemma QZM_any n p q f : (1 <= n)%nat -> (2 * Z.to_nat (p + q) + 1 <= f)%nat -> Qz f n p q = QZM n p q.
Proof. intros Hn H. apply (Pz_fuel (Z.to_nat (p + q))); unfold enough; lia. Qed.
Lemma VZM_any n p q f : (1 <= n)%nat -> (2 * Z.to_nat (p + q) + 2 <= f)%nat -> Vz f n p q = VZM n p q.
Proof. intros Hn H. apply (Pz_fuel (Z.to_nat (p + q))); unfold enough; lia. Qed.
Lemma ZM_less s p q p' q' : (1 <= s)%nat -> (p' + q' < p + q)%Z \/ (p' < 0 \/ q' < 0)%Z ->
  Pz (2 * Z.to_nat (p + q) + 1) s p' q' = PZM s p' q' /\ Qz (2 * Z.to_nat (p + q) + 1) s p' q' = QZM s p' q' /\
  Vz (2 * Z.to_nat (p + q) + 1) s p' q' = VZM s p' q'.
Proof.
  intros Hs H. destruct (Z_lt_le_dec p' 0) as [L|L]; [|destruct (Z_lt_le_dec q' 0) as [L'|L']].
  - unfold PZM, QZM, VZM. repeat split; (etransitivity; [|symmetry]); apply Pz_zero; lia.
  - unfold PZM, QZM, VZM. repeat split; (etransitivity; [|symmetry]); apply Pz_zero; lia.
  - split; [apply PZM_any; lia|]. split; [apply QZM_any; lia|apply VZM_any; lia].
Qed.
Lemma PZM_eq n p q : (1 <= n)%nat -> PZM n p q =
    if origin p q then kron 2 n
    else lsum (fun s => let N := INR n in let S := INR s in let z := Z.of_nat s in let w := Z.of_nat n in
        INR (binom (n + s) (n + 2))
        * (- (2) * (2 * N + 1) * (2 * N - 1) / (N + 1) * QZM s (q - z - 1) (p - w + 1)
           + N * (2 * N + 1) * (2 * N - 1) / (2 * (N + 1) * (2 * S + 1)) * VZM s (q - z - 2) (p - w + 1)
           + (2 * N + 1) / (N + 1) * (N * S * (N + S - 2 * N * S - 2) - 4 * (2 * N * S - 4 * S - 4 * N + 2)) / (2 * S * (N + S) * (2 * S - 1))
             * PZM s (q - z) (p - w + 1)
           + N * (2 * N - 1) / (2 * (N + 1)) * PZM s (q - z) (p - w - 1)))
      (range 2 (q + 1)).
Proof.
  intros Hn. unfold PZM at 1. unfold enough. replace (2 * Z.to_nat (p + q) + 2)%nat with (S (2 * Z.to_nat (p + q) + 1)) by lia.
  rewrite Pz_S. destruct (origin p q) eqn:O; [reflexivity|].
  apply lsum_ext. intros s Hs. in_rng. cbv zeta.
  rewrite (proj1 (ZM_less s p q (q - Z.of_nat s)%Z (p - Z.of_nat n + 1)%Z ltac:(lia) ltac:(lia))).
  rewrite (proj1 (ZM_less s p q (q - Z.of_nat s)%Z (p - Z.of_nat n - 1)%Z ltac:(lia) ltac:(lia))).
  rewrite (proj1 (proj2 (ZM_less s p q (q - Z.of_nat s - 1)%Z (p - Z.of_nat n + 1)%Z ltac:(lia) ltac:(lia)))).
  rewrite (proj2 (proj2 (ZM_less s p q (q - Z.of_nat s - 2)%Z (p - Z.of_nat n + 1)%Z ltac:(lia) ltac:(lia)))). reflexivity.
Qed.
Lemma QZM_eq n p q : (1 <= n)%nat -> QZM n p q =
    if origin p q then 0
    else lsum (fun s => let N := INR n in let S := INR s in
        INR (binom (n + s) (n + 2))
        * (S / (N + 1) * QZM s (q - Z.of_nat s - 1) (p - Z.of_nat n)
           - 2 / (N * S * (N + 1)) * PZM s (q - Z.of_nat s) (p - Z.of_nat n)))
      (range 2 (q + 1)).
Proof.
  intros Hn. unfold QZM at 1. unfold enough. replace (2 * Z.to_nat (p + q) + 2)%nat with (S (2 * Z.to_nat (p + q) + 1)) by lia.
  rewrite Qz_S. destruct (origin p q) eqn:O; [reflexivity|].
  apply lsum_ext. intros s Hs. in_rng. cbv zeta.
  rewrite (proj1 (ZM_less s p q (q - Z.of_nat s)%Z (p - Z.of_nat n)%Z ltac:(lia) ltac:(lia))).
  rewrite (proj1 (proj2 (ZM_less s p q (q - Z.of_nat s - 1)%Z (p - Z.of_nat n)%Z ltac:(lia) ltac:(lia)))). reflexivity.
Qed.
Lemma VZM_eq n p q : (1 <= n)%nat -> VZM n p q =
    if origin p q then kron 2 n
    else PZM n p q + 2 * INR n / ((INR n + 1) * (2 * INR n + 3))
         * lsum (fun s => INR (binom (n + s) (n + 2)) * PZM s (q - Z.of_nat s) (p - Z.of_nat n - 1)) (range 2 (q + 1)).
Proof.
  intros Hn. unfold VZM at 1. unfold enough. replace (2 * Z.to_nat (p + q) + 2)%nat with (S (2 * Z.to_nat (p + q) + 1)) by lia.
  rewrite Vz_S. destruct (origin p q) eqn:O; [reflexivity|].
  rewrite PZM_any by lia. f_equal. f_equal. apply lsum_ext. intros s Hs. in_rng. f_equal. apply (proj1 (ZM_less s p q (q - Z.of_nat s)%Z (p - Z.of_nat n - 1)%Z ltac:(lia) ltac:(lia))).
Qed.
End ZF.
