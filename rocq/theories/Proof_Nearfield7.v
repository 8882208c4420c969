(** As Proof_Nearfield6, for the families with three sequences. *)
From Coq Require Import Reals List Arith ZArith Bool Lra Lia.
From Verif Require Import Base Model_Nearfield Proof_Nearfield1 Proof_Nearfield2 Proof_Nearfield5 Proof_Nearfield6.
Import ListNotations.
Local Open Scope R_scope.

(** ** Y *)
Section YFam.
Variables (start startQ : nat -> R).
Notation P := (PY start startQ).
Notation Q := (QY start startQ).
Notation V := (VY start startQ).
Definition gY (N : R) : R := N * (N + 1).
Definition hY (N : R) : R := 1.
Definition sY (N S : R) : R := (3 * (N + S) - (N * S + 1) * (2 * N * S - S - N + 2)) / ((N + S) * (2 * S - 1) * (2 * N - 1)).
Lemma sY_sym N S : sY N S = sY S N.
Proof. unfold sY. f_equal; [ring|ring]. Qed.
(** components P, V, Q *)
Definition rY (n c c' : nat) : R :=
  let N := INR n in
  match c, c' with
  | 0%nat, 0%nat => hY N * (4 * N ^ 2 - 1) / 2
  | 0%nat, 1%nat | 1%nat, 0%nat => hY N * N * (2 * N - 1) / 2
  | 1%nat, 1%nat => hY N * (N ^ 2 * (2 * N - 1) / (2 * (2 * N + 1)) + 2 * N ^ 2 / ((2 * N + 1) * (2 * N + 3)))
  | 2%nat, 2%nat => hY N * 9 / 8
  | _, _ => 0
  end.
Definition eY (n c c' : nat) : Z :=
  match c, c' with 2%nat, 2%nat => (2 * Z.of_nat n + 1)%Z | _, _ => (2 * Z.of_nat n - 1 + 2 * Z.of_nat (c + c'))%Z end.
Definition tY (n c s b : nat) : R :=
  match c, b with
  | 0%nat, 0%nat => B1 n s * sY (INR n) (INR s)
  | 0%nat, 1%nat => B1 n s * INR n
  | 1%nat, 0%nat => B1 n s * INR s
  | 0%nat, 2%nat | 2%nat, 0%nat => - (4 / 3) * B1 n s
  | 2%nat, 2%nat => 8 / 9 * B1 n s * (INR n * INR s)
  | _, _ => 0
  end.
Definition yY (n c : nat) (p q : Z) : R :=
  match c with
  | 0%nat => gY (INR n) / INR n * P n (p - Z.of_nat n)%Z q
  | 1%nat => gY (INR n) / (2 * INR n + 1) * V n (p - Z.of_nat n - 2)%Z q
  | _ => gY (INR n) * Q n (p - Z.of_nat n - 1)%Z q
  end.
Ltac cases3 c := destruct c as [|[|[|c]]].
Lemma rY_sym n c c' : rY n c c' = rY n c' c.
Proof. cases3 c; cases3 c'; reflexivity. Qed.
Lemma eY_sym n c c' : eY n c c' = eY n c' c.
Proof. cases3 c; cases3 c'; unfold eY; try reflexivity; lia. Qed.
Lemma tY_sym n c s b : tY n c s b = tY s b n c.
Proof. cases3 c; cases3 b; cbn [tY]; try rewrite (B1_sym s n); try rewrite (sY_sym (INR s) (INR n)); try reflexivity; ring. Qed.
Lemma eY_odd n c c' : Z.odd (eY n c c') = true.
Proof. cases3 c; cases3 c'; unfold eY; rewrite ?Z.odd_add, ?Z.odd_sub, ?Z.odd_mul; reflexivity. Qed.
Lemma eY_pos n c c' : (1 <= n)%nat -> (1 <= eY n c c')%Z.
Proof. intros Hn. cases3 c; cases3 c'; unfold eY; lia. Qed.
Lemma yY_zero n c p q : (1 <= n)%nat -> (c < 3)%nat -> (p < Z.of_nat n \/ q < 0)%Z -> yY n c p q = 0.
Proof.
  intros Hn Hc H. cases3 c; [..|lia]; cbn [yY].
  - rewrite PY_zero by lia. ring.
  - rewrite VY_zero by lia. ring.
  - rewrite QY_zero by lia. ring.
Qed.
Lemma PY_full n p q : (1 <= n)%nat -> P n p q = (if origin p q then start n else 0) + lsum (fun s => let N := INR n in let S := INR s in let z := Z.of_nat s in let w := Z.of_nat n in
        INR (binom (n + s) (n + 1))
        * ((2 * N + 1) / (2 * (N + 1)) * (3 * (N + S) - (N * S + 1) * (2 * N * S - S - N + 2)) / (S * (N + S) * (2 * S - 1))
             * P s (q - z) (p - w + 1)
           + N * (2 * N - 1) / (2 * (N + 1)) * P s (q - z) (p - w - 1)
           + N * (4 * N ^ 2 - 1) / (2 * (N + 1) * (2 * S + 1)) * V s (q - z - 2) (p - w + 1)
           - 2 * (4 * N ^ 2 - 1) / (3 * (N + 1)) * Q s (q - z - 1) (p - w + 1)))
      (range 1 (q + 1)).
Proof.
  intros Hn. rewrite PY_eq by exact Hn. destruct (origin p q) eqn:O; [|ring].
  apply origin_spec in O. destruct O as [-> ->]. unfold lsum. cbn. ring.
Qed.
Lemma QY_full n p q : (1 <= n)%nat -> Q n p q = (if origin p q then startQ n else 0) + lsum (fun s => let N := INR n in let S := INR s in
        INR (binom (n + s) (n + 1))
        * (S / (N + 1) * Q s (q - Z.of_nat s - 1) (p - Z.of_nat n)
           - 3 / (2 * N * S * (N + 1)) * P s (q - Z.of_nat s) (p - Z.of_nat n)))
      (range 1 (q + 1)).
Proof.
  intros Hn. rewrite QY_eq by exact Hn. destruct (origin p q) eqn:O; [|ring].
  apply origin_spec in O. destruct O as [-> ->]. unfold lsum. cbn. ring.
Qed.
Lemma VY_full n p q : (1 <= n)%nat -> V n p q = P n p q + 2 * INR n / ((INR n + 1) * (2 * INR n + 3))
         * lsum (fun s => INR (binom (n + s) (n + 1)) * P s (q - Z.of_nat s) (p - Z.of_nat n - 1)) (range 1 (q + 1)).
Proof.
  intros Hn. rewrite VY_eq by exact Hn. destruct (origin p q) eqn:O; [|ring].
  rewrite PY_eq, O by exact Hn. apply origin_spec in O. destruct O as [-> ->]. unfold lsum. cbn. ring.
Qed.
Definition srcY (n c : nat) (p q : Z) : R :=
  match c with
  | 0%nat => gY (INR n) / INR n * (if origin (p - Z.of_nat n) q then start n else 0)
  | 1%nat => gY (INR n) / (2 * INR n + 1) * (if origin (p - Z.of_nat n - 2) q then start n else 0)
  | _ => gY (INR n) * (if origin (p - Z.of_nat n - 1) q then startQ n else 0)
  end.
Lemma yY_sum n c p q : (1 <= n)%nat -> (c < 3)%nat -> yY n c p q = srcY n c p q
    + lsum (fun a => rY n c a * lsum (fun s => lsum (fun b => tY n a s b * yY s b q (p - eY n c a)%Z) (seq 0 3)) (range 1 (q + 1))) (seq 0 3).
Proof.
  intros Hn Hc.
  assert (Sum : lsum (fun a => rY n c a * lsum (fun s => lsum (fun b => tY n a s b * yY s b q (p - eY n c a)%Z) (seq 0 3)) (range 1 (q + 1))) (seq 0 3)
    = lsum (fun s => rY n c 0 * (tY n 0 s 0 * yY s 0 q (p - eY n c 0)%Z + tY n 0 s 1 * yY s 1 q (p - eY n c 0)%Z + tY n 0 s 2 * yY s 2 q (p - eY n c 0)%Z)
                   + rY n c 1 * (tY n 1 s 0 * yY s 0 q (p - eY n c 1)%Z + tY n 1 s 1 * yY s 1 q (p - eY n c 1)%Z + tY n 1 s 2 * yY s 2 q (p - eY n c 1)%Z)
                   + rY n c 2 * (tY n 2 s 0 * yY s 0 q (p - eY n c 2)%Z + tY n 2 s 1 * yY s 1 q (p - eY n c 2)%Z + tY n 2 s 2 * yY s 2 q (p - eY n c 2)%Z)) (range 1 (q + 1))).
  { rewrite !lsum_plus, !lsum_mul_l. unfold lsum at 1. cbn [seq map fold_right].
    rewrite Rplus_0_r, <- Rplus_assoc. f_equal; [f_equal|]; f_equal; apply lsum_ext; intros s _; unfold lsum; cbn [seq map fold_right]; ring. }
  rewrite Sum. clear Sum. pos_n n.
  cases3 c; [..|lia].
  - cbn [yY srcY]. rewrite PY_full by exact Hn. rewrite Rmult_plus_distr_l. f_equal. rewrite <- lsum_mul_l.
    apply lsum_ext. intros s Hs. in_rng. cbv zeta. cbn [rY tY yY].
    assert (Hs1 : (1 <= s)%nat) by lia. rewrite binom_1 by exact Hs1. assert (Hs2 : (1 <= s)%nat) by lia. pos_n s.
    replace (p - eY n 0 0)%Z with (p - Z.of_nat n - Z.of_nat n + 1)%Z by (unfold eY; lia).
    replace (p - eY n 0 1)%Z with (p - Z.of_nat n - Z.of_nat n - 1)%Z by (unfold eY; lia).
    unfold sY, gY, hY. field. repeat split; lra.
  - cbn [yY srcY]. rewrite VY_full by exact Hn. rewrite PY_full by exact Hn. rewrite lsum_comb'. f_equal.
    apply lsum_ext. intros s Hs. in_rng. cbv zeta. cbn [rY tY yY].
    assert (Hs1 : (1 <= s)%nat) by lia. rewrite binom_1 by exact Hs1. assert (Hs2 : (1 <= s)%nat) by lia. pos_n s.
    replace (p - eY n 1 0)%Z with (p - Z.of_nat n - 2 - Z.of_nat n + 1)%Z by (unfold eY; lia).
    replace (p - eY n 1 1)%Z with (p - Z.of_nat n - 2 - Z.of_nat n - 1)%Z by (unfold eY; lia).
    unfold sY, gY, hY. field. repeat split; lra.
  - cbn [yY srcY]. rewrite QY_full by exact Hn. rewrite Rmult_plus_distr_l. f_equal. rewrite <- lsum_mul_l.
    apply lsum_ext. intros s Hs. in_rng. cbv zeta. cbn [rY tY yY].
    assert (Hs1 : (1 <= s)%nat) by lia. rewrite binom_1 by exact Hs1. assert (Hs2 : (1 <= s)%nat) by lia. pos_n s.
    replace (p - eY n 2 2)%Z with (p - Z.of_nat n - 1 - Z.of_nat n)%Z by (unfold eY; lia).
    unfold sY, gY, hY. field. repeat split; lra.
Qed.
End YFam.

(** ** Z *)
Section ZFam.
Notation P := (PZM).
Notation Q := (QZM).
Notation V := (VZM).
Definition gZ (N : R) : R := (N + 2) * (N + 1) * N * (N - 1).
Definition hZ (N : R) : R := (N + 2) * (N - 1).
Definition sZ (N S : R) : R := (N * S * (N + S - 2 * N * S - 2) - 4 * (2 * N * S - 4 * S - 4 * N + 2)) / ((N + S) * (2 * S - 1) * (2 * N - 1)).
Lemma sZ_sym N S : sZ N S = sZ S N.
Proof. unfold sZ. f_equal; [ring|ring]. Qed.
(** components P, V, Q *)
Definition rZ (n c c' : nat) : R :=
  let N := INR n in
  match c, c' with
  | 0%nat, 0%nat => hZ N * (4 * N ^ 2 - 1) / 2
  | 0%nat, 1%nat | 1%nat, 0%nat => hZ N * N * (2 * N - 1) / 2
  | 1%nat, 1%nat => hZ N * (N ^ 2 * (2 * N - 1) / (2 * (2 * N + 1)) + 2 * N ^ 2 / ((2 * N + 1) * (2 * N + 3)))
  | 2%nat, 2%nat => hZ N * (1 / 2)
  | _, _ => 0
  end.
Definition eZ (n c c' : nat) : Z :=
  match c, c' with 2%nat, 2%nat => (2 * Z.of_nat n + 1)%Z | _, _ => (2 * Z.of_nat n - 1 + 2 * Z.of_nat (c + c'))%Z end.
Definition tZ (n c s b : nat) : R :=
  match c, b with
  | 0%nat, 0%nat => B2 n s * sZ (INR n) (INR s)
  | 0%nat, 1%nat => B2 n s * INR n
  | 1%nat, 0%nat => B2 n s * INR s
  | 0%nat, 2%nat | 2%nat, 0%nat => - (4) * B2 n s
  | 2%nat, 2%nat => 2 * B2 n s * (INR n * INR s)
  | _, _ => 0
  end.
Definition yZ (n c : nat) (p q : Z) : R :=
  match c with
  | 0%nat => gZ (INR n) / INR n * P n (p - Z.of_nat n)%Z q
  | 1%nat => gZ (INR n) / (2 * INR n + 1) * V n (p - Z.of_nat n - 2)%Z q
  | _ => gZ (INR n) * Q n (p - Z.of_nat n - 1)%Z q
  end.
Ltac cases3 c := destruct c as [|[|[|c]]].
Lemma rZ_sym n c c' : rZ n c c' = rZ n c' c.
Proof. cases3 c; cases3 c'; reflexivity. Qed.
Lemma eZ_sym n c c' : eZ n c c' = eZ n c' c.
Proof. cases3 c; cases3 c'; unfold eZ; try reflexivity; lia. Qed.
Lemma tZ_sym n c s b : tZ n c s b = tZ s b n c.
Proof. cases3 c; cases3 b; cbn [tZ]; try rewrite (B2_sym s n); try rewrite (sZ_sym (INR s) (INR n)); try reflexivity; ring. Qed.
Lemma eZ_odd n c c' : Z.odd (eZ n c c') = true.
Proof. cases3 c; cases3 c'; unfold eZ; rewrite ?Z.odd_add, ?Z.odd_sub, ?Z.odd_mul; reflexivity. Qed.
Lemma eZ_pos n c c' : (1 <= n)%nat -> (1 <= eZ n c c')%Z.
Proof. intros Hn. cases3 c; cases3 c'; unfold eZ; lia. Qed.
Lemma yZ_zero n c p q : (1 <= n)%nat -> (c < 3)%nat -> (p < Z.of_nat n \/ q < 0)%Z -> yZ n c p q = 0.
Proof.
  intros Hn Hc H. cases3 c; [..|lia]; cbn [yZ].
  - rewrite PZM_zero by lia. ring.
  - rewrite VZM_zero by lia. ring.
  - rewrite QZM_zero by lia. ring.
Qed.
Lemma PZM_full n p q : (1 <= n)%nat -> P n p q = (if origin p q then kron 2 n else 0) + lsum (fun s => let N := INR n in let S := INR s in let z := Z.of_nat s in let w := Z.of_nat n in
        INR (binom (n + s) (n + 2))
        * (- (2) * (2 * N + 1) * (2 * N - 1) / (N + 1) * Q s (q - z - 1) (p - w + 1)
           + N * (2 * N + 1) * (2 * N - 1) / (2 * (N + 1) * (2 * S + 1)) * V s (q - z - 2) (p - w + 1)
           + (2 * N + 1) / (N + 1) * (N * S * (N + S - 2 * N * S - 2) - 4 * (2 * N * S - 4 * S - 4 * N + 2)) / (2 * S * (N + S) * (2 * S - 1))
             * P s (q - z) (p - w + 1)
           + N * (2 * N - 1) / (2 * (N + 1)) * P s (q - z) (p - w - 1)))
      (range 2 (q + 1)).
Proof.
  intros Hn. rewrite PZM_eq by exact Hn. destruct (origin p q) eqn:O; [|ring].
  apply origin_spec in O. destruct O as [-> ->]. unfold lsum. cbn. ring.
Qed.
Lemma QZM_full n p q : (1 <= n)%nat -> Q n p q = (if origin p q then 0 else 0) + lsum (fun s => let N := INR n in let S := INR s in
        INR (binom (n + s) (n + 2))
        * (S / (N + 1) * Q s (q - Z.of_nat s - 1) (p - Z.of_nat n)
           - 2 / (N * S * (N + 1)) * P s (q - Z.of_nat s) (p - Z.of_nat n)))
      (range 2 (q + 1)).
Proof.
  intros Hn. rewrite QZM_eq by exact Hn. destruct (origin p q) eqn:O; [|ring].
  apply origin_spec in O. destruct O as [-> ->]. unfold lsum. cbn. ring.
Qed.
Lemma VZM_full n p q : (1 <= n)%nat -> V n p q = P n p q + 2 * INR n / ((INR n + 1) * (2 * INR n + 3))
         * lsum (fun s => INR (binom (n + s) (n + 2)) * P s (q - Z.of_nat s) (p - Z.of_nat n - 1)) (range 2 (q + 1)).
Proof.
  intros Hn. rewrite VZM_eq by exact Hn. destruct (origin p q) eqn:O; [|ring].
  rewrite PZM_eq, O by exact Hn. apply origin_spec in O. destruct O as [-> ->]. unfold lsum. cbn. ring.
Qed.
Definition srcZ (n c : nat) (p q : Z) : R :=
  match c with
  | 0%nat => gZ (INR n) / INR n * (if origin (p - Z.of_nat n) q then kron 2 n else 0)
  | 1%nat => gZ (INR n) / (2 * INR n + 1) * (if origin (p - Z.of_nat n - 2) q then kron 2 n else 0)
  | _ => gZ (INR n) * (if origin (p - Z.of_nat n - 1) q then 0 else 0)
  end.
(** the sums start at 2; the factor g vanishes at 1 *)
Lemma range_2 (f : nat -> R) q : f 1%nat = 0 -> lsum f (range 1 (q + 1)) = lsum f (range 2 (q + 1)).
Proof.
  intros H. destruct (Z_le_gt_dec q 0) as [Hq|Hq].
  - unfold range. replace (Z.to_nat (q + 1 - 1)) with 0%nat by lia. replace (Z.to_nat (q + 1 - 2)) with 0%nat by lia. reflexivity.
  - unfold range. replace (Z.to_nat (q + 1 - 1)) with (S (Z.to_nat (q + 1 - 2))) by lia. change (Z.to_nat 1) with 1%nat. cbn [seq].
    unfold lsum. cbn [map fold_right]. rewrite H. change (Z.to_nat 2) with 2%nat. ring.
Qed.
Lemma y1 c p q : (c < 3)%nat -> yZ 1 c p q = 0.
Proof. intros Hc. cases3 c; [..|lia]; cbn [yZ INR]; unfold gZ; field; lra. Qed.
Lemma yZ_sum n c p q : (1 <= n)%nat -> (c < 3)%nat -> yZ n c p q = srcZ n c p q
    + lsum (fun a => rZ n c a * lsum (fun s => lsum (fun b => tZ n a s b * yZ s b q (p - eZ n c a)%Z) (seq 0 3)) (range 1 (q + 1))) (seq 0 3).
Proof.
  intros Hn Hc.
  assert (Sum : lsum (fun a => rZ n c a * lsum (fun s => lsum (fun b => tZ n a s b * yZ s b q (p - eZ n c a)%Z) (seq 0 3)) (range 1 (q + 1))) (seq 0 3)
    = lsum (fun s => rZ n c 0 * (tZ n 0 s 0 * yZ s 0 q (p - eZ n c 0)%Z + tZ n 0 s 1 * yZ s 1 q (p - eZ n c 0)%Z + tZ n 0 s 2 * yZ s 2 q (p - eZ n c 0)%Z)
                   + rZ n c 1 * (tZ n 1 s 0 * yZ s 0 q (p - eZ n c 1)%Z + tZ n 1 s 1 * yZ s 1 q (p - eZ n c 1)%Z + tZ n 1 s 2 * yZ s 2 q (p - eZ n c 1)%Z)
                   + rZ n c 2 * (tZ n 2 s 0 * yZ s 0 q (p - eZ n c 2)%Z + tZ n 2 s 1 * yZ s 1 q (p - eZ n c 2)%Z + tZ n 2 s 2 * yZ s 2 q (p - eZ n c 2)%Z)) (range 1 (q + 1))).
  { rewrite !lsum_plus, !lsum_mul_l. unfold lsum at 1. cbn [seq map fold_right].
    rewrite Rplus_0_r, <- Rplus_assoc. f_equal; [f_equal|]; f_equal; apply lsum_ext; intros s _; unfold lsum; cbn [seq map fold_right]; ring. }
  rewrite Sum. clear Sum. rewrite range_2 by (rewrite !y1 by lia; ring). pos_n n.
  cases3 c; [..|lia].
  - cbn [yZ srcZ]. rewrite PZM_full by exact Hn. rewrite Rmult_plus_distr_l. f_equal. rewrite <- lsum_mul_l.
    apply lsum_ext. intros s Hs. in_rng. cbv zeta. cbn [rZ tZ yZ].
    assert (Hs1 : (2 <= s)%nat) by lia. rewrite binom_2 by exact Hs1. assert (Hs2 : (1 <= s)%nat) by lia. pos_n s.
    replace (p - eZ n 0 0)%Z with (p - Z.of_nat n - Z.of_nat n + 1)%Z by (unfold eZ; lia).
    replace (p - eZ n 0 1)%Z with (p - Z.of_nat n - Z.of_nat n - 1)%Z by (unfold eZ; lia).
    unfold sZ, gZ, hZ. field. repeat split; lra.
  - cbn [yZ srcZ]. rewrite VZM_full by exact Hn. rewrite PZM_full by exact Hn. rewrite lsum_comb'. f_equal.
    apply lsum_ext. intros s Hs. in_rng. cbv zeta. cbn [rZ tZ yZ].
    assert (Hs1 : (2 <= s)%nat) by lia. rewrite binom_2 by exact Hs1. assert (Hs2 : (1 <= s)%nat) by lia. pos_n s.
    replace (p - eZ n 1 0)%Z with (p - Z.of_nat n - 2 - Z.of_nat n + 1)%Z by (unfold eZ; lia).
    replace (p - eZ n 1 1)%Z with (p - Z.of_nat n - 2 - Z.of_nat n - 1)%Z by (unfold eZ; lia).
    unfold sZ, gZ, hZ. field. repeat split; lra.
  - cbn [yZ srcZ]. rewrite QZM_full by exact Hn. rewrite Rmult_plus_distr_l. f_equal. rewrite <- lsum_mul_l.
    apply lsum_ext. intros s Hs. in_rng. cbv zeta. cbn [rZ tZ yZ].
    assert (Hs1 : (2 <= s)%nat) by lia. rewrite binom_2 by exact Hs1. assert (Hs2 : (1 <= s)%nat) by lia. pos_n s.
    replace (p - eZ n 2 2)%Z with (p - Z.of_nat n - 1 - Z.of_nat n)%Z by (unfold eZ; lia).
    unfold sZ, gZ, hZ. field. repeat split; lra.
Qed.
End ZFam.
