(** The recurrences are repeated reflections with symmetric coefficients, so that
    the coefficients of odd order are symmetric. *)
From Coq Require Import Reals List Arith ZArith Bool Lra Lia.
From Verif Require Import Base Model_Nearfield Proof_Nearfield1 Proof_Nearfield2 Proof_Nearfield5.
Import ListNotations.
Local Open Scope R_scope.

(** ** Binomial coefficients *)
Lemma binom_diag_lt n k : (n < k)%nat -> binom n k = 0%nat.
Proof. revert k. induction n as [|n IH]; intros [|k] H; try lia; cbn; [reflexivity|]. rewrite !IH by lia. reflexivity. Qed.
Lemma binom_n_0 n : binom n 0 = 1%nat.
Proof. destruct n; reflexivity. Qed.
Lemma binom_fact m : forall k, (binom (m + k) k * fact k * fact m = fact (m + k))%nat.
Proof.
  induction m as [|m IHm].
  - intros k. assert (E : forall k, binom k k = 1%nat) by (clear; induction k; cbn; [reflexivity|rewrite IHk, binom_diag_lt by lia; lia]).
    cbn [Nat.add]. rewrite E. cbn [fact]. lia.
  - induction k as [|k IHk].
    + rewrite binom_n_0, Nat.add_0_r. cbn [fact]. lia.
    + replace (S m + S k)%nat with (S (m + S k)) by lia. cbn [binom].
      replace (m + S k)%nat with (S m + k)%nat at 1 by lia.
      pose proof (IHm (S k)) as A. pose proof IHk as B.
      assert (F1 : fact (S k) = (S k * fact k)%nat) by reflexivity. assert (F2 : fact (S m) = (S m * fact m)%nat) by reflexivity.
      assert (F3 : fact (S (m + S k)) = ((S m + S k) * fact (m + S k))%nat) by (change (fact (S (m + S k))) with (S (m + S k) * fact (m + S k))%nat; f_equal; lia).
      rewrite F3. replace (S m + k)%nat with (m + S k)%nat in * by lia.
      rewrite Nat.mul_add_distr_r, Nat.mul_add_distr_r.
      transitivity (S k * (binom (m + S k) k * fact k * fact (S m)) + S m * (binom (m + S k) (S k) * fact (S k) * fact m))%nat; [rewrite F1, F2; ring|].
      rewrite A, B. ring.
Qed.
Lemma binom_R m k : INR (binom (m + k) k) = INR (fact (m + k)) / (INR (fact k) * INR (fact m)).
Proof.
  pose proof (INR_fact_neq_0 k). pose proof (INR_fact_neq_0 m). rewrite <- (binom_fact m k), !mult_INR. field. split; assumption.
Qed.

Definition B0 (n s : nat) : R := INR (fact (n + s)) / (INR (fact n) * INR (fact s)).
Definition B1 (n s : nat) : R := INR (fact (n + s)) / (INR (fact (n + 1)) * INR (fact (s + 1))).
Definition B2 (n s : nat) : R := INR (fact (n + s)) / (INR (fact (n + 2)) * INR (fact (s + 2))).
Lemma B0_sym n s : B0 n s = B0 s n.
Proof. unfold B0. rewrite (Nat.add_comm n s), (Rmult_comm (INR (fact n))). reflexivity. Qed.
Lemma B1_sym n s : B1 n s = B1 s n.
Proof. unfold B1. rewrite (Nat.add_comm n s), (Rmult_comm (INR (fact (n + 1)))). reflexivity. Qed.
Lemma B2_sym n s : B2 n s = B2 s n.
Proof. unfold B2. rewrite (Nat.add_comm n s), (Rmult_comm (INR (fact (n + 2)))). reflexivity. Qed.
Lemma binom_0 n s : INR (binom (n + s) n) = B0 n s.
Proof. rewrite Nat.add_comm, binom_R. unfold B0. rewrite (Nat.add_comm s n). reflexivity. Qed.
Lemma fact_S_R n : INR (fact (S n)) = (INR n + 1) * INR (fact n).
Proof. change (fact (S n)) with (S n * fact n)%nat. rewrite mult_INR, S_INR. reflexivity. Qed.
Lemma binom_1 n s : (1 <= s)%nat -> INR (binom (n + s) (n + 1)) = B1 n s * (INR s * (INR s + 1)).
Proof.
  intros Hs. replace (n + s)%nat with ((s - 1) + (n + 1))%nat by lia. rewrite binom_R. unfold B1.
  replace (s - 1 + (n + 1))%nat with (n + s)%nat by lia.
  pose proof (INR_fact_neq_0 (n + 1)) as P. destruct s as [|s]; [lia|]. replace (S s - 1)%nat with s by lia. replace (S s + 1)%nat with (S (S s)) by lia.
  rewrite (fact_S_R (S s)), (fact_S_R s), !S_INR. pose proof (INR_fact_neq_0 s) as Q. pose proof (pos_INR s). field. repeat split; try assumption; lra.
Qed.
Lemma binom_2 n s : (2 <= s)%nat -> INR (binom (n + s) (n + 2)) = B2 n s * ((INR s + 2) * (INR s + 1) * INR s * (INR s - 1)).
Proof.
  intros Hs. replace (n + s)%nat with ((s - 2) + (n + 2))%nat by lia. rewrite binom_R. unfold B2.
  replace (s - 2 + (n + 2))%nat with (n + s)%nat by lia.
  pose proof (INR_fact_neq_0 (n + 2)) as P. destruct s as [|[|s]]; [lia|lia|]. replace (S (S s) - 2)%nat with s by lia. replace (S (S s) + 2)%nat with (S (S (S (S s)))) by lia.
  rewrite (fact_S_R (S (S (S s)))), (fact_S_R (S (S s))), (fact_S_R (S s)), (fact_S_R s), !S_INR.
  pose proof (INR_fact_neq_0 s) as Q. pose proof (pos_INR s). field. repeat split; try assumption; lra.
Qed.

Ltac pos_n n := match goal with H : (1 <= n)%nat |- _ => pose proof (le_INR 1 n H); change (INR 1) with 1 in * end.

Lemma lsum_comb {A} (f g : A -> R) c x d l : c * (x + lsum f l - d * lsum g l) = c * x + lsum (fun s => c * f s - c * d * g s) l.
Proof. unfold lsum. induction l as [|a l IH]; cbn; [ring|]. lra. Qed.
Lemma lsum_comb' {A} (f g : A -> R) c x d l : c * (x + lsum f l + d * lsum g l) = c * x + lsum (fun s => c * f s + c * d * g s) l.
Proof. unfold lsum. induction l as [|a l IH]; cbn; [ring|]. lra. Qed.

(** ** X *)
Section XFam.
Variable n0 : nat.
Hypothesis Hn0 : (1 <= n0)%nat.
Notation P := (PX (kron n0)).
Notation V := (VX (kron n0)).

Definition sX (N S : R) : R := (2 * N * S - N - S + 2) / ((2 * S - 1) * (2 * N - 1) * (N + S)).
Lemma sX_sym N S : sX N S = sX S N.
Proof. unfold sX. f_equal; [ring|f_equal; ring]. Qed.
Definition rX (n c c' : nat) : R :=
  let N := INR n in
  match c, c' with
  | O, O => N * (4 * N ^ 2 - 1) / (2 * (N + 1))
  | S _, S _ => (N * (2 * N - 1) / (2 * (N + 1)) + 2 * N / ((N + 1) * (2 * N + 3))) / (2 * N + 1)
  | _, _ => N * (2 * N - 1) / (2 * (N + 1))
  end.
Definition eX (n c c' : nat) : Z := (2 * Z.of_nat n - 1 + 2 * Z.of_nat (c + c'))%Z.
Definition tX (n c s b : nat) : R :=
  match c, b with O, O => B0 n s * sX (INR n) (INR s) | S _, S _ => 0 | _, _ => - B0 n s end.
Definition yX (n c : nat) (p q : Z) : R :=
  match c with
  | O => P n (p - Z.of_nat n)%Z q
  | _ => / (2 * INR n + 1) * V n (p - Z.of_nat n - 2)%Z q
  end.
Lemma rX_sym n c c' : rX n c c' = rX n c' c.
Proof. destruct c, c'; reflexivity. Qed.
Lemma tX_sym n c s b : tX n c s b = tX s b n c.
Proof. destruct c, b; cbn [tX]; try rewrite (B0_sym s n); try rewrite (sX_sym (INR s) (INR n)); reflexivity. Qed.
Lemma eX_odd n c c' : Z.odd (eX n c c') = true.
Proof. unfold eX. rewrite Z.odd_add, Z.odd_sub, !Z.odd_mul. reflexivity. Qed.
Lemma PX_full n p q : (1 <= n)%nat -> P n p q = (if origin p q then kron n0 n else 0) +
    lsum (fun s => let N := INR n in let S := INR s in let z := Z.of_nat s in let w := Z.of_nat n in
        INR (binom (n + s) n)
        * (N * (2 * N + 1) * (2 * N * S - N - S + 2) / (2 * (N + 1) * (2 * S - 1) * (N + S)) * P s (q - z) (p - w + 1)
           - N * (2 * N - 1) / (2 * (N + 1)) * P s (q - z) (p - w - 1)
           - N * (4 * N ^ 2 - 1) / (2 * (N + 1) * (2 * S + 1)) * V s (q - z - 2) (p - w + 1)))
      (range 1 (q + 1)).
Proof.
  intros Hn. rewrite PX_eq by exact Hn. destruct (origin p q) eqn:O; [|ring].
  apply origin_spec in O. destruct O as [-> ->]. unfold lsum. cbn. ring.
Qed.
Lemma VX_full n p q : (1 <= n)%nat -> V n p q = P n p q - 2 * INR n / ((INR n + 1) * (2 * INR n + 3))
         * lsum (fun s => INR (binom (n + s) n) * P s (q - Z.of_nat s) (p - Z.of_nat n - 1)) (range 1 (q + 1)).
Proof.
  intros Hn. rewrite VX_eq by exact Hn. destruct (origin p q) eqn:O; [|ring].
  rewrite PX_eq, O by exact Hn. apply origin_spec in O. destruct O as [-> ->]. unfold lsum. cbn. ring.
Qed.

Lemma source_P n p q : (if origin (p - Z.of_nat n) q then kron n0 n else 0)
  = if Nat.eqb n n0 then at_ (p + (Z.of_nat n0 - 1) =? 2 * Z.of_nat n - 1)%Z * at_ (q =? 0)%Z else 0.
Proof.
  unfold kron. rewrite (Nat.eqb_sym n0 n). destruct (Nat.eqb_spec n n0) as [->|]; [|destruct (origin _ _); reflexivity].
  unfold origin. destruct (Z.eqb_spec (p - Z.of_nat n0) 0), (Z.eqb_spec (p + (Z.of_nat n0 - 1)) (2 * Z.of_nat n0 - 1)); try lia;
    cbn [andb at_]; destruct (q =? 0)%Z; cbn [at_]; ring.
Qed.

Lemma X_reversal p q : Z.odd (p + q) = true -> P n0 p q = P n0 (q - 1)%Z (p + 1)%Z.
Proof.
  intros Ho.
  assert (Hk : rX n0 0 0 <> 0).
  { cbn [rX]. pos_n n0. apply Rmult_integral_contrapositive_currified; [nra|]. apply Rinv_neq_0_compat. lra. }
  pose proof (family_reversal 2 rX tX eX) as FR.
  assert (Q := FR rX_sym ltac:(intros n c c'; unfold eX; lia) tX_sym eX_odd ltac:(intros n c c' Hn; unfold eX; lia) yX n0 0%nat (/ rX n0 0 0) (Z.of_nat n0 - 1)%Z Hn0 ltac:(lia)). clear FR.
  assert (Q1 := Q (fun n c p q (Hn : (1 <= n)%nat) (Hc : (c < 2)%nat) H => match c as c return yX n c p q = 0 with
     O => PX_zero (kron n0) n (p - Z.of_nat n) q Hn ltac:(lia)
   | _ => eq_trans (f_equal (Rmult (/ (2 * INR n + 1))) (VX_zero (kron n0) n (p - Z.of_nat n - 2) q Hn ltac:(lia))) (Rmult_0_r _) end)). clear Q.
  assert (Q2 : forall n c p q, (1 <= n)%nat -> (c < 2)%nat -> yX n c p q =
    (if Nat.eqb n n0 then / rX n0 0 0 * (rX n c 0 * (at_ (p + (Z.of_nat n0 - 1) =? eX n c 0)%Z * at_ (q =? 0)%Z)) else 0)
    + lsum (fun a => rX n c a * lsum (fun s => lsum (fun b => tX n a s b * yX s b q (p - eX n c a)%Z) (seq 0 2)) (range 1 (q + 1))) (seq 0 2)).
  { clear p q Ho Q1. intros n c p q Hn Hc.
    assert (Sum : forall (g0 g1 : nat -> R), lsum (fun a => rX n c a * lsum (fun s => lsum (fun b => tX n a s b * yX s b q (p - eX n c a)%Z) (seq 0 2)) (range 1 (q + 1))) (seq 0 2)
      = lsum (fun s => rX n c 0 * (tX n 0 s 0 * yX s 0 q (p - eX n c 0)%Z + tX n 0 s 1 * yX s 1 q (p - eX n c 0)%Z)
                     + rX n c 1 * (tX n 1 s 0 * yX s 0 q (p - eX n c 1)%Z + tX n 1 s 1 * yX s 1 q (p - eX n c 1)%Z)) (range 1 (q + 1))).
    { intros _ _. rewrite lsum_plus, !lsum_mul_l. unfold lsum at 1. cbn [seq map fold_right].
      rewrite Rplus_0_r. f_equal; f_equal; apply lsum_ext; intros s _; unfold lsum; cbn [seq map fold_right]; ring. }
    rewrite (Sum (fun _ => 0) (fun _ => 0)). clear Sum.
    destruct c as [|[|c]]; [| |lia].
    - cbn [yX]. rewrite PX_full by exact Hn. rewrite source_P. f_equal.
      + destruct (Nat.eqb_spec n n0) as [->|]; [|reflexivity]. unfold eX. cbn [Nat.add]. rewrite Z.mul_0_r, Z.add_0_r. field. exact Hk.
      + apply lsum_ext. intros s Hs. in_rng. cbv zeta. cbn [rX tX yX]. rewrite binom_0.
        assert (Hs1 : (1 <= s)%nat) by lia. pos_n s. pos_n n.
        replace (p - eX n 0 0)%Z with (p - Z.of_nat n - Z.of_nat n + 1)%Z by (unfold eX; lia).
        replace (p - eX n 0 1)%Z with (p - Z.of_nat n - Z.of_nat n - 1)%Z by (unfold eX; lia).
        unfold sX. field. repeat split; lra.
    - cbn [yX]. rewrite VX_full by exact Hn. rewrite PX_full by exact Hn.
      replace (p - Z.of_nat n - 2)%Z with (p - 2 - Z.of_nat n)%Z by lia. rewrite source_P.
      pos_n n.
      rewrite lsum_comb.
      f_equal.
      + destruct (Nat.eqb_spec n n0) as [->|]; [|ring]. unfold eX.
        replace (p + (Z.of_nat n0 - 1) =? 2 * Z.of_nat n0 - 1 + 2 * Z.of_nat (1 + 0))%Z with (p - 2 + (Z.of_nat n0 - 1) =? 2 * Z.of_nat n0 - 1)%Z
          by (destruct (Z.eqb_spec (p - 2 + (Z.of_nat n0 - 1)) (2 * Z.of_nat n0 - 1)), (Z.eqb_spec (p + (Z.of_nat n0 - 1)) (2 * Z.of_nat n0 - 1 + 2 * Z.of_nat (1 + 0))); lia).
        set (u := at_ _). set (v := at_ _). cbn [rX]. field. repeat split; try lra. cbn [rX] in Hk. intros Z. apply Hk. rewrite Z. field. lra.
      + apply lsum_ext. intros s Hs. in_rng. cbv zeta. cbn [rX tX yX]. rewrite binom_0.
        assert (Hs1 : (1 <= s)%nat) by lia. pos_n s.
        replace (p - eX n 1 0)%Z with (p - 2 - Z.of_nat n - Z.of_nat n + 1)%Z by (unfold eX; lia).
        replace (p - eX n 1 1)%Z with (p - 2 - Z.of_nat n - Z.of_nat n - 1)%Z by (unfold eX; lia).
        unfold sX. field. repeat split; lra. }
  specialize (Q1 Q2 (p + Z.of_nat n0)%Z q). cbn [yX] in Q1.
  replace (p + Z.of_nat n0 - Z.of_nat n0)%Z with p in Q1 by lia.
  replace (q + (Z.of_nat n0 - 1) - Z.of_nat n0)%Z with (q - 1)%Z in Q1 by lia.
  replace (p + Z.of_nat n0 - (Z.of_nat n0 - 1))%Z with (p + 1)%Z in Q1 by lia.
  apply Q1. replace (p + Z.of_nat n0 + q + (Z.of_nat n0 - 1))%Z with (p + q + 2 * (Z.of_nat n0) - 1)%Z by lia.
  rewrite Z.odd_sub, Z.odd_add, Z.odd_mul, Ho. reflexivity.
Qed.
End XFam.
