(** The near-field recurrences as sums over reflections. *)
From Coq Require Import Reals List Arith ZArith Bool Lra Lia.
From Verif Require Import Base Model_Mob Model_Close Model_Reflect Spec_Reflect Spec_Translate Spec_Recur Model_Nearfield Proof_Nearfield1 Proof_Nearfield2
  Proof_Translate Proof_Translate2 Proof_Recur1 Proof_Recur2.
Import ListNotations.
Local Open Scope R_scope.

(** ** All reflections in turn *)
Lemma carries_ext N m j kappa k b P V Q P1 V1 Q1 f :
  (forall n, (lowest m <= n <= N)%nat -> P n = P1 n /\ V n = V1 n /\ Q n = Q1 n) -> carries N m j kappa k b P V Q f -> carries N m j kappa k b P1 V1 Q1 f.
Proof. intros E C n Hn. destruct (E n Hn) as (<- & <- & <-). apply C. exact Hn. Qed.
Lemma chain N m j kappa a b d stP stQ (f : nat -> six) : (j = 1 \/ j = 2)%nat -> 0 < a -> 0 < b -> 0 < d ->
  carries N m j kappa 0 a stP stP stQ (f 0%nat) ->
  (forall k, reflected N m (side (S k) a b) (side k d (- d)) (f k) (f (S k))) ->
  forall k, let w := W (phys m) (lowest m) N stP stQ k in let K := bound N k in
  let x := side k a b / d in let y := side (S k) a b / d in
  carries N m j kappa k (side k a b) (fun n => poly K (aP w n) x y) (fun n => poly K (aV w n) x y) (fun n => poly K (aQ w n) x y) (f k).
Proof.
  intros Hj Ha Hb Hd H0 Hr k. cbv zeta. assert (L1 : (1 <= lowest m)%nat) by (unfold lowest; lia).
  assert (Pos : forall k, 0 < side k a b) by (intros i; unfold side; destruct (Nat.even i); assumption).
  induction k as [|k IH].
  - eapply carries_ext; [|exact H0]. intros n Hn. unfold bound. cbn [Nat.mul]. rewrite !poly_origin. repeat split; reflexivity.
  - eapply carries_ext; [|apply (reflection_step N m j kappa k (side (S k) a b) (side k a b) d _ _ _ (f k) (f (S k)) Hj (Pos (S k)) Hd IH (Hr k))].
    intros n Hn. replace (bound N (S k)) with (bound N k + (N + 2))%nat by (unfold bound; lia).
    change (W (phys m) (lowest m) N stP stQ (S k)) with (step (phys m) (lowest m) N (W (phys m) (lowest m) N stP stQ k)).
    replace (side (S (S k)) a b) with (side k a b) by (rewrite !side_next; reflexivity).
    destruct (poly_step (phys m) (lowest m) N L1 (bound N k) (W (phys m) (lowest m) N stP stQ k) (side (S k) a b / d) (side k a b / d) n
      (W_supported (phys m) (lowest m) N L1 stP stQ k) ltac:(lia)) as (EP & EQ & EV).
    assert (PE : P' N m (side (S k) a b) (side k a b) d (fun n => poly (bound N k) (aP (W (phys m) (lowest m) N stP stQ k) n) (side k a b / d) (side (S k) a b / d))
      (fun n => poly (bound N k) (aV (W (phys m) (lowest m) N stP stQ k) n) (side k a b / d) (side (S k) a b / d))
      (fun n => poly (bound N k) (aQ (W (phys m) (lowest m) N stP stQ k) n) (side k a b / d) (side (S k) a b / d)) n
      = poly (bound N k + (N + 2)) (aP (step (phys m) (lowest m) N (W (phys m) (lowest m) N stP stQ k)) n) (side (S k) a b / d) (side k a b / d)).
    { rewrite EP. reflexivity. }
    split; [exact PE|]. split; [|rewrite EQ; reflexivity].
    rewrite EV. unfold V'. cbv zeta. rewrite PE. reflexivity.
Qed.

(** ** The source's sums *)
Lemma lsum_seq (h : nat -> R) a k : lsum h (seq a k) = rsum k (fun i => h (a + i)%nat).
Proof.
  revert a. induction k as [|k IH]; intros a; [reflexivity|]. cbn [seq]. unfold lsum in *. cbn [map fold_right]. rewrite IH.
  change (S k) with (1 + k)%nat. rewrite rsum_app. cbn [rsum]. rewrite Rplus_0_l, Nat.add_0_r. f_equal. apply rsum_ext. intros i _. f_equal. lia.
Qed.
Lemma lsum_tsum lo N q (h : nat -> R) : (0 <= q <= Z.of_nat N)%Z -> (forall s, (q < Z.of_nat s)%Z -> h s = 0) ->
  lsum h (range (Z.of_nat lo) (q + 1)) = tsum lo N h.
Proof.
  intros Hq Hh. unfold range. rewrite Nat2Z.id, lsum_seq. unfold tsum. set (k := Z.to_nat (q + 1 - Z.of_nat lo)).
  destruct (le_lt_dec lo (N + 1)) as [L|L].
  - replace (S N - lo)%nat with (k + (S N - lo - k))%nat by (unfold k; lia). rewrite rsum_app.
    rewrite (rsum_zero (S N - lo - k)); [ring|]. intros i Hi. apply Hh. unfold k in *. lia.
  - replace (S N - lo)%nat with 0%nat by lia. replace k with 0%nat by (unfold k; lia). reflexivity.
Qed.

Section Family.
Variables (k_ : kernel) (lo N : nat) (stP stQ : nat -> R) (F : arr).
Hypothesis Hlo : (1 <= lo)%nat.
Definition termP n p q s := let z := Z.of_nat s in let w := Z.of_nat n in c_ k_ n s *
    (kP k_ n s * aP F s (q - z)%Z (p - w + 1)%Z + kF k_ n * aP F s (q - z)%Z (p - w - 1)%Z
     + kV k_ n s * aV F s (q - z - 2)%Z (p - w + 1)%Z + kQ k_ n * aQ F s (q - z - 1)%Z (p - w + 1)%Z).
Definition termQ n p q s := let z := Z.of_nat s in let w := Z.of_nat n in c_ k_ n s *
    (lQ k_ n s * aQ F s (q - z - 1)%Z (p - w)%Z + lP k_ n s * aP F s (q - z)%Z (p - w)%Z).
Definition termF n p q s := c_ k_ n s * aP F s (q - Z.of_nat s)%Z (p - Z.of_nat n - 1)%Z.
Hypothesis F_neg : forall n p q, (1 <= n)%nat -> (p < 0 \/ q < 0)%Z -> aP F n p q = 0 /\ aV F n p q = 0 /\ aQ F n p q = 0.
Hypothesis hP : forall n p q, (1 <= n)%nat -> aP F n p q = if origin p q then stP n else lsum (termP n p q) (range (Z.of_nat lo) (q + 1)).
Hypothesis hQ : forall n p q, (1 <= n)%nat -> aQ F n p q = if origin p q then stQ n else lsum (termQ n p q) (range (Z.of_nat lo) (q + 1)).
Hypothesis hV : forall n p q, (1 <= n)%nat -> aV F n p q = if origin p q then stP n else aP F n p q + kv k_ n * lsum (termF n p q) (range (Z.of_nat lo) (q + 1)).
Lemma termP_0 n p q s : (1 <= n)%nat -> (1 <= s)%nat -> (p < 0 \/ q < Z.of_nat s)%Z -> termP n p q s = 0.
Proof.
  intros Hn Hs Hq. unfold termP. cbv zeta.
  rewrite (proj1 (F_neg s (q - Z.of_nat s)%Z (p - Z.of_nat n + 1)%Z ltac:(lia) ltac:(lia))), (proj1 (F_neg s (q - Z.of_nat s)%Z (p - Z.of_nat n - 1)%Z ltac:(lia) ltac:(lia))),
    (proj1 (proj2 (F_neg s (q - Z.of_nat s - 2)%Z (p - Z.of_nat n + 1)%Z ltac:(lia) ltac:(lia)))), (proj2 (proj2 (F_neg s (q - Z.of_nat s - 1)%Z (p - Z.of_nat n + 1)%Z ltac:(lia) ltac:(lia)))). ring.
Qed.
Lemma termQ_0 n p q s : (1 <= n)%nat -> (1 <= s)%nat -> (p < 0 \/ q < Z.of_nat s)%Z -> termQ n p q s = 0.
Proof.
  intros Hn Hs Hq. unfold termQ. cbv zeta.
  rewrite (proj1 (F_neg s (q - Z.of_nat s)%Z (p - Z.of_nat n)%Z ltac:(lia) ltac:(lia))), (proj2 (proj2 (F_neg s (q - Z.of_nat s - 1)%Z (p - Z.of_nat n)%Z ltac:(lia) ltac:(lia)))). ring.
Qed.
Lemma termF_0 n p q s : (1 <= n)%nat -> (1 <= s)%nat -> (p < 0 \/ q < Z.of_nat s)%Z -> termF n p q s = 0.
Proof.
  intros Hn Hs Hq. unfold termF. rewrite (proj1 (F_neg s (q - Z.of_nat s)%Z (p - Z.of_nat n - 1)%Z ltac:(lia) ltac:(lia))). ring.
Qed.
Lemma range_all (h : nat -> nat -> R) n p q : (1 <= n)%nat -> (p + q <= Z.of_nat N)%Z -> (forall s, (1 <= s)%nat -> (p < 0 \/ q < Z.of_nat s)%Z -> h n s = 0) ->
  lsum (h n) (range (Z.of_nat lo) (q + 1)) = tsum lo N (h n).
Proof.
  intros Hn HN Hh. destruct (Z_lt_le_dec p 0) as [Lp|Lp]; [|destruct (Z_lt_le_dec q 0) as [Lq|Lq]].
  - rewrite lsum_zero, tsum_zero; [reflexivity| |]; intros s Hs; apply Hh; try lia. apply in_range in Hs; lia.
  - rewrite lsum_zero, tsum_zero; [reflexivity| |]; intros s Hs; apply Hh; try lia. apply in_range in Hs; lia.
  - destruct lo as [|l]; [lia|]. transitivity (lsum (fun s => if Nat.eqb s 0 then 0 else h n s) (range (Z.of_nat (S l)) (q + 1))).
    + apply lsum_ext. intros s Hs. apply in_range in Hs; [|lia]. destruct (Nat.eqb_spec s 0); [lia|reflexivity].
    + rewrite (lsum_tsum (S l) N); [|lia|].
      * apply tsum_ext. intros s Hs. destruct (Nat.eqb_spec s 0); [lia|reflexivity].
      * intros s Hs. destruct (Nat.eqb_spec s 0); [reflexivity|]. apply Hh; lia.
Qed.
Lemma origin_at x p q : (if origin p q then x else 0) = at_origin x p q.
Proof. reflexivity. Qed.
Lemma eqP n p q : (1 <= n)%nat -> (p + q <= Z.of_nat N)%Z -> aP F n p q = at_origin (stP n) p q + stepP k_ lo N F n p q.
Proof.
  intros Hn HN. change (stepP k_ lo N F n p q) with (tsum lo N (termP n p q)). rewrite hP by exact Hn. rewrite <- origin_at.
  rewrite (range_all (fun n => termP n p q) n p q) by (try assumption; intros s Hs; apply termP_0; assumption).
  destruct (origin p q) eqn:O; [|ring]. apply origin_spec in O. rewrite tsum_zero; [ring|]. intros s Hs. apply termP_0; lia.
Qed.
Lemma eqQ n p q : (1 <= n)%nat -> (p + q <= Z.of_nat N)%Z -> aQ F n p q = at_origin (stQ n) p q + stepQ k_ lo N F n p q.
Proof.
  intros Hn HN. change (stepQ k_ lo N F n p q) with (tsum lo N (termQ n p q)). rewrite hQ by exact Hn. rewrite <- origin_at.
  rewrite (range_all (fun n => termQ n p q) n p q) by (try assumption; intros s Hs; apply termQ_0; assumption).
  destruct (origin p q) eqn:O; [|ring]. apply origin_spec in O. rewrite tsum_zero; [ring|]. intros s Hs. apply termQ_0; lia.
Qed.
Lemma eqV n p q : (1 <= n)%nat -> (p + q <= Z.of_nat N)%Z -> aV F n p q = at_origin (stP n) p q + stepV k_ lo N F n p q.
Proof.
  intros Hn HN. unfold stepV. change (stepF k_ lo N F n p q) with (tsum lo N (termF n p q)). change (stepP k_ lo N F n p q) with (tsum lo N (termP n p q)).
  rewrite hV by exact Hn. rewrite hP by exact Hn. rewrite <- origin_at.
  rewrite (range_all (fun n => termF n p q) n p q) by (try assumption; intros s Hs; apply termF_0; assumption).
  rewrite (range_all (fun n => termP n p q) n p q) by (try assumption; intros s Hs; apply termP_0; assumption).
  destruct (origin p q) eqn:O; [|ring]. apply origin_spec in O. rewrite !tsum_zero; [ring| |]; intros s Hs; (apply termP_0 || apply termF_0); lia.
Qed.
Lemma family_total n p q : (1 <= n)%nat -> (p + q <= Z.of_nat N)%Z ->
  let sum (A : arr -> nat -> Z -> Z -> R) := rsum (S (Z.to_nat (p + q))) (fun k => A (W k_ lo N stP stQ k) n p q) in
  aP F n p q = sum aP /\ aV F n p q = sum aV /\ aQ F n p q = sum aQ.
Proof.
  intros Hn HN. cbv zeta.
  apply (Proof_Recur1.total k_ lo N Hlo stP stQ F F_neg eqP eqQ eqV (S (Z.to_nat (p + q)))); lia.
Qed.
End Family.

(** ** Binomials *)
Lemma binom_below n : forall k, (n < k)%nat -> binom n k = 0%nat.
Proof. induction n as [|n IH]; intros [|k] Hk; try lia; [reflexivity|]. cbn [binom]. rewrite !IH by lia. reflexivity. Qed.
Lemma binom_fact n : forall k, (k <= n)%nat -> INR (binom n k) = INR (fact n) / (INR (fact k) * INR (fact (n - k))).
Proof.
  induction n as [|n IH]; intros k Hk.
  - replace k with 0%nat by lia. cbn. field.
  - destruct k as [|k]; [cbn [binom]; change (fact 0) with 1%nat; rewrite Nat.sub_0_r; change (INR 1) with 1; field; apply fact_nz|].
    cbn [binom]. rewrite plus_INR, IH by lia. destruct (Nat.eq_dec k n) as [->|Ne].
    + rewrite (binom_below n (S n)) by lia. rewrite !Nat.sub_diag. change (fact 0) with 1%nat. change (INR 1) with 1. change (INR 0) with 0. field. split; apply fact_nz.
    + rewrite IH by lia. replace (S n - S k)%nat with (n - k)%nat by lia. replace (n - k)%nat with (S (n - S k)) by lia. rewrite !fact_S.
      pose proof (fact_nz n) as F1. pose proof (fact_nz k) as F2. pose proof (fact_nz (n - S k)) as F3. rewrite !minus_INR, S_INR by lia. pose proof (pos_INR k) as Pk.
      assert (INR k + 1 <= INR n) by (rewrite <- S_INR; apply le_INR; lia). field. repeat split; try assumption; lra.
Qed.
Lemma binom_g n s m : (Z.abs_nat m <= s)%nat -> INR (binom (n + s) (n + Z.abs_nat m)) = g n s m.
Proof.
  intros Hs. rewrite binom_fact by lia. rewrite g_val by exact Hs. replace (n + s - (n + Z.abs_nat m))%nat with (s - Z.abs_nat m)%nat by lia.
  rewrite (Nat.add_comm s n). rewrite (Rmult_comm (INR (fact (n + _)))). reflexivity.
Qed.
Lemma INR_1 n : (1 <= n)%nat -> 1 <= INR n. Proof. intros Hn. change 1 with (INR 1). apply le_INR. exact Hn. Qed.

(** ** The three families *)
Definition arrX start := mkArr (PX start) (VX start) (fun _ _ _ => 0).
Definition arrY start startQ := mkArr (PY start startQ) (VY start startQ) (QY start startQ).
Definition arrZ := mkArr PZM VZM QZM.
Lemma mu_0 : mu 0 = 0. Proof. reflexivity. Qed.
Lemma phys_c m n s : c_ (phys m) n s = g n s m. Proof. reflexivity. Qed.
Lemma total_X N start n p q : (1 <= n)%nat -> (p + q <= Z.of_nat N)%Z ->
  let sum (A : arr -> nat -> Z -> Z -> R) := rsum (S (Z.to_nat (p + q))) (fun k => A (W (phys 0) 1 N start (fun _ => 0) k) n p q) in
  PX start n p q = sum aP /\ VX start n p q = sum aV.
Proof.
  intros Hn HN. cbv zeta.
  destruct (family_total (phys 0) 1 N start (fun _ => 0) (arrX start) (le_n 1)) with (n := n) (p := p) (q := q) as (E1 & E2 & _); try assumption.
  - intros n' p' q' Hn' Hpq. cbn [arrX aP aV aQ]. split; [apply PX_zero|split; [apply VX_zero|reflexivity]]; assumption.
  - intros n' p' q' Hn'. cbn [arrX aP]. rewrite PX_eq by exact Hn'. destruct (origin p' q'); [reflexivity|]. apply lsum_ext. intros s Hs. apply in_range in Hs; [|lia].
    unfold termP. cbv zeta. rewrite phys_c, <- (binom_g n' s 0) by (cbn; lia). change (Z.abs_nat 0) with 0%nat. rewrite Nat.add_0_r. f_equal.
    cbn [phys kP kF kV kQ arrX aP aV aQ]. unfold mu, eps. change (Z.abs_nat 0) with 0%nat. change (INR 0) with 0. cbn [Z.eqb].
    pose proof (INR_1 n' Hn'). pose proof (INR_1 s ltac:(lia)). field. repeat split; lra.
  - intros n' p' q' Hn'. cbn [arrX aQ]. destruct (origin p' q'); [reflexivity|]. symmetry. apply lsum_zero. intros s Hs.
    unfold termQ. cbv zeta. cbn [phys lP lQ arrX aQ aP]. unfold mu. change (Z.abs_nat 0) with 0%nat. change (INR 0) with 0. unfold Rdiv. ring.
  - intros n' p' q' Hn'. cbn [arrX aV aP]. rewrite VX_eq by exact Hn'. destruct (origin p' q'); [reflexivity|]. unfold Rminus. f_equal. rewrite Ropp_mult_distr_l. f_equal.
    + cbn [phys kv]. unfold eps. cbn [Z.eqb]. ring.
    + apply lsum_ext. intros s Hs. unfold termF. cbn [arrX aP]. rewrite phys_c, <- (binom_g n' s 0) by (cbn; lia). change (Z.abs_nat 0) with 0%nat. rewrite Nat.add_0_r. reflexivity.
  - split; assumption.
Qed.
Lemma total_Y N start startQ m n p q : Z.abs m = 1%Z -> (1 <= n)%nat -> (p + q <= Z.of_nat N)%Z ->
  let sum (A : arr -> nat -> Z -> Z -> R) := rsum (S (Z.to_nat (p + q))) (fun k => A (W (phys m) 1 N start startQ k) n p q) in
  PY start startQ n p q = sum aP /\ VY start startQ n p q = sum aV /\ QY start startQ n p q = sum aQ.
Proof.
  intros Hm Hn HN. cbv zeta. assert (Hm1 : Z.abs_nat m = 1%nat) by lia. assert (Hm0 : Z.eqb m 0 = false) by (apply Z.eqb_neq; lia).
  assert (UQ : unit_Q m = 2 / 3) by (unfold unit_Q; rewrite Hm; reflexivity).
  apply (family_total (phys m) 1 N start startQ (arrY start startQ) (le_n 1)) with (n := n) (p := p) (q := q); try assumption.
  - intros n' p' q' Hn' Hpq. cbn [arrY aP aV aQ]. split; [apply PY_zero|split; [apply VY_zero|apply QY_zero]]; assumption.
  - intros n' p' q' Hn'. cbn [arrY aP]. rewrite PY_eq by exact Hn'. destruct (origin p' q'); [reflexivity|]. apply lsum_ext. intros s Hs. apply in_range in Hs; [|lia].
    unfold termP. cbv zeta. rewrite phys_c, <- (binom_g n' s m) by lia. rewrite Hm1. f_equal.
    cbn [phys kP kF kV kQ arrY aP aV aQ]. unfold mu, eps. rewrite Hm1, Hm0, UQ. change (INR 1) with 1.
    pose proof (INR_1 n' Hn'). pose proof (INR_1 s ltac:(lia)). field. repeat split; lra.
  - intros n' p' q' Hn'. cbn [arrY aQ]. rewrite QY_eq by exact Hn'. destruct (origin p' q'); [reflexivity|]. apply lsum_ext. intros s Hs. apply in_range in Hs; [|lia].
    unfold termQ. cbv zeta. rewrite phys_c, <- (binom_g n' s m) by lia. rewrite Hm1. f_equal.
    cbn [phys lP lQ arrY aQ aP]. unfold mu, eps. rewrite Hm1, Hm0, UQ. change (INR 1) with 1.
    pose proof (INR_1 n' Hn'). pose proof (INR_1 s ltac:(lia)). field. repeat split; lra.
  - intros n' p' q' Hn'. cbn [arrY aV aP]. rewrite VY_eq by exact Hn'. destruct (origin p' q'); [reflexivity|]. f_equal. f_equal.
    + cbn [phys kv]. unfold eps. rewrite Hm0. ring.
    + apply lsum_ext. intros s Hs. apply in_range in Hs; [|lia]. unfold termF. cbn [arrY aP]. rewrite phys_c, <- (binom_g n' s m) by lia. rewrite Hm1. reflexivity.
Qed.
Lemma total_Z N m n p q : Z.abs m = 2%Z -> (1 <= n)%nat -> (p + q <= Z.of_nat N)%Z ->
  let sum (A : arr -> nat -> Z -> Z -> R) := rsum (S (Z.to_nat (p + q))) (fun k => A (W (phys m) 2 N (kron 2) (fun _ => 0) k) n p q) in
  PZM n p q = sum aP /\ VZM n p q = sum aV /\ QZM n p q = sum aQ.
Proof.
  intros Hm Hn HN. cbv zeta. assert (Hm1 : Z.abs_nat m = 2%nat) by lia. assert (Hm0 : Z.eqb m 0 = false) by (apply Z.eqb_neq; lia).
  assert (UQ : unit_Q m = 1) by (unfold unit_Q; rewrite Hm; reflexivity).
  apply (family_total (phys m) 2 N (kron 2) (fun _ => 0) arrZ ltac:(lia)) with (n := n) (p := p) (q := q); try assumption.
  - intros n' p' q' Hn' Hpq. cbn [arrZ aP aV aQ]. split; [apply PZM_zero|split; [apply VZM_zero|apply QZM_zero]]; assumption.
  - intros n' p' q' Hn'. cbn [arrZ aP]. rewrite PZM_eq by exact Hn'. destruct (origin p' q'); [reflexivity|]. apply lsum_ext. intros s Hs. apply in_range in Hs; [|lia].
    unfold termP. cbv zeta. rewrite phys_c, <- (binom_g n' s m) by lia. rewrite Hm1. f_equal.
    cbn [phys kP kF kV kQ arrZ aP aV aQ]. unfold mu, eps. rewrite Hm1, Hm0, UQ. change (INR 2) with (1 + 1).
    pose proof (INR_1 n' Hn'). pose proof (INR_1 s ltac:(lia)). field. repeat split; lra.
  - intros n' p' q' Hn'. cbn [arrZ aQ]. rewrite QZM_eq by exact Hn'. destruct (origin p' q'); [reflexivity|]. apply lsum_ext. intros s Hs. apply in_range in Hs; [|lia].
    unfold termQ. cbv zeta. rewrite phys_c, <- (binom_g n' s m) by lia. rewrite Hm1. f_equal.
    cbn [phys lP lQ arrZ aQ aP]. unfold mu, eps. rewrite Hm1, Hm0, UQ. change (INR 2) with (1 + 1).
    pose proof (INR_1 n' Hn'). pose proof (INR_1 s ltac:(lia)). field. repeat split; lra.
  - intros n' p' q' Hn'. cbn [arrZ aV aP]. rewrite VZM_eq by exact Hn'. destruct (origin p' q'); [reflexivity|]. f_equal. f_equal.
    + cbn [phys kv]. unfold eps. rewrite Hm0. ring.
    + apply lsum_ext. intros s Hs. apply in_range in Hs; [|lia]. unfold termF. cbn [arrZ aP]. rewrite phys_c, <- (binom_g n' s m) by lia. rewrite Hm1. reflexivity.
Qed.
