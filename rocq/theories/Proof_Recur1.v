(** Sums of reflections: the recurrences as a whole and one by one. *)
From Coq Require Import Reals List Arith ZArith Bool Lra Lia.
From Verif Require Import Base Model_Mob Model_Reflect Spec_Recur.
Local Open Scope R_scope.

(** ** Polynomials with shifted coefficients *)
Definition vanish1 (K : nat) (f : Z -> R) : Prop := forall p, (p < 0 \/ Z.of_nat K < p)%Z -> f p = 0.
Lemma shift1 K K' i (f : Z -> R) x : vanish1 K f -> (K + i <= K')%nat ->
  rsum (S K') (fun p => f (Z.of_nat p - Z.of_nat i)%Z * x ^ p) = x ^ i * rsum (S K) (fun p => f (Z.of_nat p) * x ^ p).
Proof.
  intros Hf HK. replace (S K') with (i + (S K + (K' - K - i)))%nat by lia. rewrite rsum_app, rsum_app.
  rewrite rsum_zero, (rsum_zero (K' - K - i)).
  - rewrite <- rsum_scal_l, Rplus_0_l, Rplus_0_r. apply rsum_ext. intros p Hp. replace (Z.of_nat (i + p) - Z.of_nat i)%Z with (Z.of_nat p) by lia. rewrite pow_add. ring.
  - intros p Hp. rewrite Hf by lia. ring.
  - intros p Hp. rewrite Hf by lia. ring.
Qed.
Definition vanish (K : nat) (c : Z -> Z -> R) : Prop := forall p q, (p < 0 \/ q < 0 \/ Z.of_nat K < p \/ Z.of_nat K < q)%Z -> c p q = 0.
Lemma poly_ext K c c' x y : (forall p q, c p q = c' p q) -> poly K c x y = poly K c' x y.
Proof. intros E. unfold poly. apply rsum_ext. intros p _. apply rsum_ext. intros q _. rewrite E. reflexivity. Qed.
Lemma poly_swap K c x y : poly K (fun p q => c q p) x y = poly K c y x.
Proof.
  unfold poly. rewrite rsum_swap. apply rsum_ext. intros p _. apply rsum_ext. intros q _. ring.
Qed.
Lemma poly_shift K K' i j c x y : vanish K c -> (K + i <= K')%nat -> (K + j <= K')%nat ->
  poly K' (fun p q => c (q - Z.of_nat i) (p - Z.of_nat j))%Z x y = x ^ j * y ^ i * poly K c y x.
Proof.
  intros Hc Hi Hj. rewrite (poly_swap K' (fun p q => c (p - Z.of_nat i) (q - Z.of_nat j))%Z). unfold poly.
  transitivity (rsum (S K') (fun p => (fun z => x ^ j * rsum (S K) (fun q => c z (Z.of_nat q) * x ^ q)) (Z.of_nat p - Z.of_nat i)%Z * y ^ p)).
  - apply rsum_ext. intros p _. cbv beta. rewrite <- (shift1 K K' j (fun z => c (Z.of_nat p - Z.of_nat i)%Z z)); [|intros z Hz; apply Hc; lia|exact Hj].
    rewrite <- rsum_scal_r. apply rsum_ext. intros q _. ring.
  - rewrite (shift1 K K' i (fun z => x ^ j * rsum (S K) (fun q => c z (Z.of_nat q) * x ^ q))); [| |exact Hi].
    + rewrite (Rmult_comm (x ^ j)), Rmult_assoc. f_equal. rewrite <- rsum_scal_l. apply rsum_ext. intros p _. cbv beta. rewrite Rmult_assoc. f_equal.
      rewrite <- rsum_scal_r. apply rsum_ext. intros q _. ring.
    + intros p Hp. cbv beta. rewrite rsum_zero; [ring|]. intros q _. rewrite Hc by lia. ring.
Qed.
Lemma poly_plus K c c' x y : poly K (fun p q => c p q + c' p q) x y = poly K c x y + poly K c' x y.
Proof. unfold poly. rewrite <- rsum_plus. apply rsum_ext. intros p _. rewrite <- rsum_plus. apply rsum_ext. intros q _. ring. Qed.
Lemma poly_scal K a c x y : poly K (fun p q => a * c p q) x y = a * poly K c x y.
Proof. unfold poly. rewrite <- rsum_scal_l. apply rsum_ext. intros p _. rewrite <- rsum_scal_l. apply rsum_ext. intros q _. ring. Qed.
Lemma poly_rsum K n (c : nat -> Z -> Z -> R) x y : poly K (fun p q => rsum n (fun i => c i p q)) x y = rsum n (fun i => poly K (c i) x y).
Proof.
  induction n as [|n IH]; cbn [rsum].
  - unfold poly. apply rsum_zero. intros p _. apply rsum_zero. intros q _. ring.
  - rewrite poly_plus, IH. reflexivity.
Qed.
Lemma poly_origin c x y : poly 0 c x y = c 0%Z 0%Z.
Proof. unfold poly. cbn [rsum Z.of_nat]. cbn [pow]. ring. Qed.

(** ** One reflection on the coefficients *)
Record arr := mkArr { aP : nat -> Z -> Z -> R; aV : nat -> Z -> Z -> R; aQ : nat -> Z -> Z -> R }.
Record kernel := mkKer { c_ : nat -> nat -> R; kP : nat -> nat -> R; kF : nat -> R; kV : nat -> nat -> R; kQ : nat -> R;
  lP : nat -> nat -> R; lQ : nat -> nat -> R; kv : nat -> R }.
Definition at_origin (x : R) (p q : Z) : R := if ((p =? 0) && (q =? 0))%Z%bool then x else 0.

Lemma tsum_zero lo N f : (forall s, (lo <= s <= N)%nat -> f s = 0) -> tsum lo N f = 0.
Proof. intros Hf. unfold tsum. apply rsum_zero. intros i Hi. apply Hf. lia. Qed.
Lemma tsum_ext lo N f f' : (forall s, (lo <= s <= N)%nat -> f s = f' s) -> tsum lo N f = tsum lo N f'.
Proof. intros Hf. unfold tsum. apply rsum_ext. intros i Hi. apply Hf. lia. Qed.
Lemma tsum_rsum lo N K (f : nat -> nat -> R) : tsum lo N (fun s => rsum K (fun i => f i s)) = rsum K (fun i => tsum lo N (f i)).
Proof. unfold tsum. apply rsum_swap. Qed.

Section Ker.
Variables (k_ : kernel) (lo N : nat).
Hypothesis Hlo : (1 <= lo)%nat.
Definition stepP (A : arr) (n : nat) (p q : Z) : R :=
  tsum lo N (fun s => let z := Z.of_nat s in let w := Z.of_nat n in c_ k_ n s *
    (kP k_ n s * aP A s (q - z)%Z (p - w + 1)%Z + kF k_ n * aP A s (q - z)%Z (p - w - 1)%Z
     + kV k_ n s * aV A s (q - z - 2)%Z (p - w + 1)%Z + kQ k_ n * aQ A s (q - z - 1)%Z (p - w + 1)%Z)).
Definition stepQ (A : arr) (n : nat) (p q : Z) : R :=
  tsum lo N (fun s => let z := Z.of_nat s in let w := Z.of_nat n in c_ k_ n s *
    (lQ k_ n s * aQ A s (q - z - 1)%Z (p - w)%Z + lP k_ n s * aP A s (q - z)%Z (p - w)%Z)).
Definition stepF (A : arr) (n : nat) (p q : Z) : R :=
  tsum lo N (fun s => c_ k_ n s * aP A s (q - Z.of_nat s)%Z (p - Z.of_nat n - 1)%Z).
Definition stepV (A : arr) (n : nat) (p q : Z) : R := stepP A n p q + kv k_ n * stepF A n p q.
Definition step (A : arr) : arr := mkArr (stepP A) (stepV A) (stepQ A).
Variables stP stQ : nat -> R.
Fixpoint W (k : nat) : arr :=
  match k with
  | O => mkArr (fun n => at_origin (stP n)) (fun n => at_origin (stP n)) (fun n => at_origin (stQ n))
  | S k' => step (W k')
  end.
Definition bound (k : nat) : nat := (k * (N + 2))%nat.
Definition supported (K : nat) (A : arr) : Prop :=
  forall n p q, (1 <= n <= N)%nat -> (p < 0 \/ q < 0 \/ Z.of_nat K < p \/ Z.of_nat K < q)%Z -> aP A n p q = 0 /\ aV A n p q = 0 /\ aQ A n p q = 0.
Lemma step_supported K A : supported K A -> supported (K + (N + 2)) (step A).
Proof.
  intros HA n p q Hn Hpq. cbn [step aP aV aQ].
  assert (Hs : forall s i j, (lo <= s <= N)%nat -> (0 <= i <= 2)%Z -> (-1 <= j <= 1)%Z ->
     aP A s (q - Z.of_nat s - i)%Z (p - Z.of_nat n - j)%Z = 0 /\ aV A s (q - Z.of_nat s - i)%Z (p - Z.of_nat n - j)%Z = 0 /\ aQ A s (q - Z.of_nat s - i)%Z (p - Z.of_nat n - j)%Z = 0).
  { intros s i j Hs Hi Hj. apply HA; lia. }
  assert (EP : forall s, (lo <= s <= N)%nat -> aP A s (q - Z.of_nat s)%Z (p - Z.of_nat n + 1)%Z = 0).
  { intros s H1. replace (q - Z.of_nat s)%Z with (q - Z.of_nat s - 0)%Z by lia. replace (p - Z.of_nat n + 1)%Z with (p - Z.of_nat n - -1)%Z by lia. apply Hs; lia. }
  assert (EF : forall s, (lo <= s <= N)%nat -> aP A s (q - Z.of_nat s)%Z (p - Z.of_nat n - 1)%Z = 0).
  { intros s H1. replace (q - Z.of_nat s)%Z with (q - Z.of_nat s - 0)%Z by lia. apply Hs; lia. }
  assert (EV : forall s, (lo <= s <= N)%nat -> aV A s (q - Z.of_nat s - 2)%Z (p - Z.of_nat n + 1)%Z = 0).
  { intros s H1. replace (p - Z.of_nat n + 1)%Z with (p - Z.of_nat n - -1)%Z by lia. apply Hs; lia. }
  assert (EQ : forall s, (lo <= s <= N)%nat -> aQ A s (q - Z.of_nat s - 1)%Z (p - Z.of_nat n + 1)%Z = 0).
  { intros s H1. replace (p - Z.of_nat n + 1)%Z with (p - Z.of_nat n - -1)%Z by lia. apply Hs; lia. }
  assert (LQ : forall s, (lo <= s <= N)%nat -> aQ A s (q - Z.of_nat s - 1)%Z (p - Z.of_nat n)%Z = 0).
  { intros s H1. replace (p - Z.of_nat n)%Z with (p - Z.of_nat n - 0)%Z by lia. apply Hs; lia. }
  assert (LP : forall s, (lo <= s <= N)%nat -> aP A s (q - Z.of_nat s)%Z (p - Z.of_nat n)%Z = 0).
  { intros s H1. replace (q - Z.of_nat s)%Z with (q - Z.of_nat s - 0)%Z by lia. replace (p - Z.of_nat n)%Z with (p - Z.of_nat n - 0)%Z by lia. apply Hs; lia. }
  assert (ZP : stepP A n p q = 0).
  { unfold stepP. apply tsum_zero. intros s H1. cbv zeta. rewrite EP, EF, EV, EQ by exact H1. ring. }
  assert (ZF : stepF A n p q = 0).
  { unfold stepF. apply tsum_zero. intros s H1. rewrite EF by exact H1. ring. }
  repeat split; [exact ZP|unfold stepV; rewrite ZP, ZF; ring|].
  unfold stepQ. apply tsum_zero. intros s H1. cbv zeta. rewrite LQ, LP by exact H1. ring.
Qed.
Lemma at_origin_off x p q : (p <> 0 \/ q <> 0)%Z -> at_origin x p q = 0.
Proof. intros Hpq. unfold at_origin. destruct (Z.eqb_spec p 0), (Z.eqb_spec q 0); cbn [andb]; try reflexivity. lia. Qed.
Lemma W_supported k : supported (bound k) (W k).
Proof.
  induction k as [|k IH].
  - intros n p q _ Hpq. cbn [W aP aV aQ]. unfold bound in Hpq. rewrite !at_origin_off by lia. repeat split.
  - replace (bound (S k)) with (bound k + (N + 2))%nat by (unfold bound; lia). apply step_supported. exact IH.
Qed.

(** The polynomials of a reflection *)
Lemma poly_step K A x y n : supported K A -> (1 <= n <= N)%nat ->
  let K' := (K + (N + 2))%nat in
  poly K' (aP (step A) n) x y = tsum lo N (fun s => c_ k_ n s *
    (kP k_ n s * (x ^ (n - 1) * y ^ s * poly K (aP A s) y x) + kF k_ n * (x ^ (n + 1) * y ^ s * poly K (aP A s) y x)
     + kV k_ n s * (x ^ (n - 1) * y ^ (s + 2) * poly K (aV A s) y x) + kQ k_ n * (x ^ (n - 1) * y ^ (s + 1) * poly K (aQ A s) y x))) /\
  poly K' (aQ (step A) n) x y = tsum lo N (fun s => c_ k_ n s *
    (lQ k_ n s * (x ^ n * y ^ (s + 1) * poly K (aQ A s) y x) + lP k_ n s * (x ^ n * y ^ s * poly K (aP A s) y x))) /\
  poly K' (aV (step A) n) x y = poly K' (aP (step A) n) x y + kv k_ n * tsum lo N (fun s => c_ k_ n s * (x ^ (n + 1) * y ^ s * poly K (aP A s) y x)).
Proof.
  intros HA Hn K'.
  assert (VP : forall s, (lo <= s <= N)%nat -> vanish K (aP A s)) by (intros s Hs p q Hpq; apply HA; lia).
  assert (VV : forall s, (lo <= s <= N)%nat -> vanish K (aV A s)) by (intros s Hs p q Hpq; apply HA; lia).
  assert (VQ : forall s, (lo <= s <= N)%nat -> vanish K (aQ A s)) by (intros s Hs p q Hpq; apply HA; lia).
  assert (S_ : forall i j c, vanish K c -> (i <= N + 2)%nat -> (j <= N + 1)%nat -> forall fi fj, (forall q, fi q = q - Z.of_nat i)%Z -> (forall p, fj p = p - Z.of_nat j)%Z ->
     poly K' (fun p q => c (fi q) (fj p)) x y = x ^ j * y ^ i * poly K c y x).
  { intros i j c Hc Hi Hj fi fj Ei Ej. rewrite <- (poly_shift K K' i j) by (try exact Hc; unfold K'; lia). apply poly_ext. intros p q. rewrite Ei, Ej. reflexivity. }
  assert (EF : poly K' (stepF A n) x y = tsum lo N (fun s => c_ k_ n s * (x ^ (n + 1) * y ^ s * poly K (aP A s) y x))).
  { unfold stepF, tsum. rewrite poly_rsum. apply rsum_ext. intros i Hi. set (s := (lo + i)%nat). rewrite poly_scal. f_equal.
    apply (S_ s (n + 1)%nat (aP A s)) with (fi := fun q => (q - Z.of_nat s)%Z) (fj := fun p => (p - Z.of_nat n - 1)%Z); try (intros; lia); try lia. apply VP; lia. }
  cbn [step aP aV aQ]. split; [|split].
  - unfold stepP, tsum. rewrite poly_rsum. apply rsum_ext. intros i Hi. set (s := (lo + i)%nat). cbv zeta. rewrite poly_scal. f_equal.
    rewrite !poly_plus, !poly_scal. f_equal; [f_equal; [f_equal|]|]; f_equal.
    + apply (S_ s (n - 1)%nat (aP A s)) with (fi := fun q => (q - Z.of_nat s)%Z) (fj := fun p => (p - Z.of_nat n + 1)%Z); try (intros; lia); try lia. apply VP; lia.
    + apply (S_ s (n + 1)%nat (aP A s)) with (fi := fun q => (q - Z.of_nat s)%Z) (fj := fun p => (p - Z.of_nat n - 1)%Z); try (intros; lia); try lia. apply VP; lia.
    + apply (S_ (s + 2)%nat (n - 1)%nat (aV A s)) with (fi := fun q => (q - Z.of_nat s - 2)%Z) (fj := fun p => (p - Z.of_nat n + 1)%Z); try (intros; lia); try lia. apply VV; lia.
    + apply (S_ (s + 1)%nat (n - 1)%nat (aQ A s)) with (fi := fun q => (q - Z.of_nat s - 1)%Z) (fj := fun p => (p - Z.of_nat n + 1)%Z); try (intros; lia); try lia. apply VQ; lia.
  - unfold stepQ, tsum. rewrite poly_rsum. apply rsum_ext. intros i Hi. set (s := (lo + i)%nat). cbv zeta. rewrite poly_scal. f_equal.
    rewrite !poly_plus, !poly_scal. f_equal; f_equal.
    + apply (S_ (s + 1)%nat n (aQ A s)) with (fi := fun q => (q - Z.of_nat s - 1)%Z) (fj := fun p => (p - Z.of_nat n)%Z); try (intros; lia); try lia. apply VQ; lia.
    + apply (S_ s n (aP A s)) with (fi := fun q => (q - Z.of_nat s)%Z) (fj := fun p => (p - Z.of_nat n)%Z); try (intros; lia); try lia. apply VP; lia.
  - unfold stepV. rewrite poly_plus, poly_scal, EF. reflexivity.
Qed.

(** Every reflection raises the degree. *)
Lemma W_low k : forall n p q, (1 <= n)%nat -> (p + q < Z.of_nat k)%Z -> aP (W k) n p q = 0 /\ aV (W k) n p q = 0 /\ aQ (W k) n p q = 0.
Proof.
  induction k as [|k IH]; intros n p q Hn Hk.
  - cbn [W aP aV aQ]. rewrite !at_origin_off by lia. repeat split.
  - cbn [W step aP aV aQ].
    assert (ZF : stepF (W k) n p q = 0).
    { unfold stepF. apply tsum_zero. intros s Hs. rewrite (proj1 (IH s (q - Z.of_nat s)%Z (p - Z.of_nat n - 1)%Z ltac:(lia) ltac:(lia))). ring. }
    assert (ZP : stepP (W k) n p q = 0).
    { unfold stepP. apply tsum_zero. intros s Hs. cbv zeta.
      rewrite (proj1 (IH s (q - Z.of_nat s)%Z (p - Z.of_nat n + 1)%Z ltac:(lia) ltac:(lia))), (proj1 (IH s (q - Z.of_nat s)%Z (p - Z.of_nat n - 1)%Z ltac:(lia) ltac:(lia))),
        (proj1 (proj2 (IH s (q - Z.of_nat s - 2)%Z (p - Z.of_nat n + 1)%Z ltac:(lia) ltac:(lia)))), (proj2 (proj2 (IH s (q - Z.of_nat s - 1)%Z (p - Z.of_nat n + 1)%Z ltac:(lia) ltac:(lia)))). ring. }
    split; [exact ZP|]. split.
    + unfold stepV. rewrite ZP, ZF. ring.
    + unfold stepQ. apply tsum_zero. intros s Hs. cbv zeta.
      rewrite (proj1 (IH s (q - Z.of_nat s)%Z (p - Z.of_nat n)%Z ltac:(lia) ltac:(lia))), (proj2 (proj2 (IH s (q - Z.of_nat s - 1)%Z (p - Z.of_nat n)%Z ltac:(lia) ltac:(lia)))). ring.
Qed.

(** Every reflection moves the degree to the other parity. *)
Definition odd_at (k n : nat) (p q : Z) : bool := Z.odd (p + q + Z.of_nat n + Z.of_nat k).
Lemma odd_shift x y : Z.odd (x + 2 * y) = Z.odd x. Proof. apply Z.odd_add_mul_2. Qed.
Lemma odd_shift1 x y : Z.odd (x + 2 * y + 1) = negb (Z.odd x).
Proof. change (x + 2 * y + 1)%Z with (x + 2 * y + 1)%Z. rewrite Z.add_1_r, Z.odd_succ, <- Z.negb_odd, odd_shift. reflexivity. Qed.
Lemma W_parity e : (forall n, Z.odd (Z.of_nat n) <> e -> stP n = 0) -> (forall n, Z.odd (Z.of_nat n) = e -> stQ n = 0) ->
  forall k n p q, (odd_at k n p q <> e -> aP (W k) n p q = 0 /\ aV (W k) n p q = 0) /\ (odd_at k n p q = e -> aQ (W k) n p q = 0).
Proof.
  intros HP HQ. induction k as [|k IH]; intros n p q.
  - cbn [W aP aV aQ]. unfold odd_at. destruct (Z.eq_dec p 0) as [->|Np]; [destruct (Z.eq_dec q 0) as [->|Nq]|].
    + replace (0 + 0 + Z.of_nat n + Z.of_nat 0)%Z with (Z.of_nat n) by lia. unfold at_origin. cbn. split; [intros E; rewrite HP by exact E; split; reflexivity|intros E; apply HQ; exact E].
    + rewrite !at_origin_off by lia. repeat split.
    + rewrite !at_origin_off by lia. repeat split.
  - set (O := (p + q + Z.of_nat n + Z.of_nat (S k))%Z).
    assert (SP : forall s p' q' y, (p' + q' + Z.of_nat s + Z.of_nat k = O + 2 * y)%Z -> odd_at k s p' q' = Z.odd O).
    { intros s p' q' y E. unfold odd_at. rewrite E. apply odd_shift. }
    assert (SQ : forall s p' q' y, (p' + q' + Z.of_nat s + Z.of_nat k = O + 2 * y + 1)%Z -> odd_at k s p' q' = negb (Z.odd O)).
    { intros s p' q' y E. unfold odd_at. rewrite E. apply odd_shift1. }
    change (odd_at (S k) n p q) with (Z.odd O). cbn [W step aP aV aQ].
    assert (ZF : Z.odd O <> e -> stepF (W k) n p q = 0).
    { intros Ne. unfold stepF. apply tsum_zero. intros s Hs.
      rewrite (proj1 (proj1 (IH s (q - Z.of_nat s)%Z (p - Z.of_nat n - 1)%Z) ltac:(rewrite (SP _ _ _ (- Z.of_nat n - 1)%Z) by (unfold O; lia); exact Ne))). ring. }
    assert (ZP : Z.odd O <> e -> stepP (W k) n p q = 0).
    { intros Ne. unfold stepP. apply tsum_zero. intros s Hs. cbv zeta.
      rewrite (proj1 (proj1 (IH s (q - Z.of_nat s)%Z (p - Z.of_nat n + 1)%Z) ltac:(rewrite (SP _ _ _ (- Z.of_nat n)%Z) by (unfold O; lia); exact Ne))).
      rewrite (proj1 (proj1 (IH s (q - Z.of_nat s)%Z (p - Z.of_nat n - 1)%Z) ltac:(rewrite (SP _ _ _ (- Z.of_nat n - 1)%Z) by (unfold O; lia); exact Ne))).
      rewrite (proj2 (proj1 (IH s (q - Z.of_nat s - 2)%Z (p - Z.of_nat n + 1)%Z) ltac:(rewrite (SP _ _ _ (- Z.of_nat n - 1)%Z) by (unfold O; lia); exact Ne))).
      rewrite (proj2 (IH s (q - Z.of_nat s - 1)%Z (p - Z.of_nat n + 1)%Z) ltac:(rewrite (SQ _ _ _ (- Z.of_nat n - 1)%Z) by (unfold O; lia); destruct (Z.odd O), e; cbn [negb]; congruence)). ring. }
    split.
    + intros Ne. split; [exact (ZP Ne)|]. unfold stepV. rewrite ZP, ZF by exact Ne. ring.
    + intros Ee. unfold stepQ. apply tsum_zero. intros s Hs. cbv zeta.
      rewrite (proj2 (IH s (q - Z.of_nat s - 1)%Z (p - Z.of_nat n)%Z) ltac:(rewrite (SP _ _ _ (- Z.of_nat n - 1)%Z) by (unfold O; lia); exact Ee)).
      rewrite (proj1 (proj1 (IH s (q - Z.of_nat s)%Z (p - Z.of_nat n)%Z) ltac:(rewrite (SQ _ _ _ (- Z.of_nat n - 1)%Z) by (unfold O; lia); destruct (Z.odd O), e; cbn [negb]; congruence))). ring.
Qed.

(** ** The sum of all reflections *)
Variable F : arr.
Hypothesis F_neg : forall n p q, (1 <= n)%nat -> (p < 0 \/ q < 0)%Z -> aP F n p q = 0 /\ aV F n p q = 0 /\ aQ F n p q = 0.
Hypothesis F_P : forall n p q, (1 <= n)%nat -> (p + q <= Z.of_nat N)%Z -> aP F n p q = at_origin (stP n) p q + stepP F n p q.
Hypothesis F_Q : forall n p q, (1 <= n)%nat -> (p + q <= Z.of_nat N)%Z -> aQ F n p q = at_origin (stQ n) p q + stepQ F n p q.
Hypothesis F_V : forall n p q, (1 <= n)%nat -> (p + q <= Z.of_nat N)%Z -> aV F n p q = at_origin (stP n) p q + stepV F n p q.
Lemma W_neg k n p q : (1 <= n)%nat -> (p < 0 \/ q < 0)%Z -> aP (W k) n p q = 0 /\ aV (W k) n p q = 0 /\ aQ (W k) n p q = 0.
Proof.
  revert n p q. induction k as [|k IH]; intros n p q Hn Hpq.
  - cbn [W aP aV aQ]. rewrite !at_origin_off by lia. repeat split.
  - cbn [W step aP aV aQ].
    assert (ZP : stepP (W k) n p q = 0).
    { unfold stepP. apply tsum_zero. intros s Hs. cbv zeta.
      rewrite (proj1 (IH s (q - Z.of_nat s)%Z (p - Z.of_nat n + 1)%Z ltac:(lia) ltac:(lia))), (proj1 (IH s (q - Z.of_nat s)%Z (p - Z.of_nat n - 1)%Z ltac:(lia) ltac:(lia))),
        (proj1 (proj2 (IH s (q - Z.of_nat s - 2)%Z (p - Z.of_nat n + 1)%Z ltac:(lia) ltac:(lia)))), (proj2 (proj2 (IH s (q - Z.of_nat s - 1)%Z (p - Z.of_nat n + 1)%Z ltac:(lia) ltac:(lia)))). ring. }
    assert (ZF : stepF (W k) n p q = 0).
    { unfold stepF. apply tsum_zero. intros s Hs. rewrite (proj1 (IH s (q - Z.of_nat s)%Z (p - Z.of_nat n - 1)%Z ltac:(lia) ltac:(lia))). ring. }
    repeat split; [exact ZP|unfold stepV; rewrite ZP, ZF; ring|].
    unfold stepQ. apply tsum_zero. intros s Hs. cbv zeta.
    rewrite (proj1 (IH s (q - Z.of_nat s)%Z (p - Z.of_nat n)%Z ltac:(lia) ltac:(lia))), (proj2 (proj2 (IH s (q - Z.of_nat s - 1)%Z (p - Z.of_nat n)%Z ltac:(lia) ltac:(lia)))). ring.
Qed.
Lemma rsum_first n f : rsum (S n) f = f 0%nat + rsum n (fun i => f (S i)).
Proof. change (S n) with (1 + n)%nat. rewrite rsum_app. cbn [rsum]. rewrite Rplus_0_l. reflexivity. Qed.
Lemma total D : forall n p q K, (1 <= n)%nat -> (p + q < Z.of_nat D)%Z -> (p + q <= Z.of_nat N)%Z -> (D <= S K)%nat ->
  aP F n p q = rsum (S K) (fun k => aP (W k) n p q) /\ aV F n p q = rsum (S K) (fun k => aV (W k) n p q) /\ aQ F n p q = rsum (S K) (fun k => aQ (W k) n p q).
Proof.
  induction D as [|D IH]; intros n p q K Hn Hd HN HK.
  - destruct (F_neg n p q Hn ltac:(lia)) as (-> & -> & ->).
    rewrite !rsum_zero; [repeat split| | |]; intros k _; apply (W_neg k n p q Hn); lia.
  - destruct (Z_lt_le_dec p 0) as [Lp|Lp]; [|destruct (Z_lt_le_dec q 0) as [Lq|Lq]].
    { destruct (F_neg n p q Hn ltac:(lia)) as (-> & -> & ->). rewrite !rsum_zero; [repeat split| | |]; intros k _; apply (W_neg k n p q Hn); lia. }
    { destruct (F_neg n p q Hn ltac:(lia)) as (-> & -> & ->). rewrite !rsum_zero; [repeat split| | |]; intros k _; apply (W_neg k n p q Hn); lia. }
    destruct (Nat.eq_dec K 0) as [K0|K0].
    { (* degree 0: only the start *)
      subst K. assert (D = 0)%nat by lia. subst D. cbn [rsum W aP aV aQ].
      assert (ZP : stepP F n p q = 0).
      { unfold stepP. apply tsum_zero. intros s Hs. cbv zeta.
        rewrite (proj1 (F_neg s (q - Z.of_nat s)%Z (p - Z.of_nat n + 1)%Z ltac:(lia) ltac:(lia))), (proj1 (F_neg s (q - Z.of_nat s)%Z (p - Z.of_nat n - 1)%Z ltac:(lia) ltac:(lia))),
        (proj1 (proj2 (F_neg s (q - Z.of_nat s - 2)%Z (p - Z.of_nat n + 1)%Z ltac:(lia) ltac:(lia)))), (proj2 (proj2 (F_neg s (q - Z.of_nat s - 1)%Z (p - Z.of_nat n + 1)%Z ltac:(lia) ltac:(lia)))). ring. }
      assert (ZF : stepF F n p q = 0).
      { unfold stepF. apply tsum_zero. intros s Hs. rewrite (proj1 (F_neg s (q - Z.of_nat s)%Z (p - Z.of_nat n - 1)%Z ltac:(lia) ltac:(lia))). ring. }
      assert (ZQ : stepQ F n p q = 0).
      { unfold stepQ. apply tsum_zero. intros s Hs. cbv zeta.
        rewrite (proj1 (F_neg s (q - Z.of_nat s)%Z (p - Z.of_nat n)%Z ltac:(lia) ltac:(lia))), (proj2 (proj2 (F_neg s (q - Z.of_nat s - 1)%Z (p - Z.of_nat n)%Z ltac:(lia) ltac:(lia)))). ring. }
      rewrite F_P, F_V, F_Q by (assumption || lia). unfold stepV. rewrite ZP, ZF, ZQ. repeat split; ring. }
    rewrite !rsum_first. cbn [W aP aV aQ step].
    assert (L : forall s p' q', (1 <= s)%nat -> (p' + q' < p + q)%Z -> aP F s p' q' = rsum K (fun k => aP (W k) s p' q') /\ aV F s p' q' = rsum K (fun k => aV (W k) s p' q') /\ aQ F s p' q' = rsum K (fun k => aQ (W k) s p' q')).
    { intros s p' q' Hs Hlt. replace K with (S (K - 1)) by lia. apply IH; lia. }
    assert (EP : stepP F n p q = rsum K (fun k => stepP (W k) n p q)).
    { unfold stepP. rewrite <- tsum_rsum. apply tsum_ext. intros s Hs. cbv zeta.
      rewrite (proj1 (L s (q - Z.of_nat s)%Z (p - Z.of_nat n + 1)%Z ltac:(lia) ltac:(lia))), (proj1 (L s (q - Z.of_nat s)%Z (p - Z.of_nat n - 1)%Z ltac:(lia) ltac:(lia))),
        (proj1 (proj2 (L s (q - Z.of_nat s - 2)%Z (p - Z.of_nat n + 1)%Z ltac:(lia) ltac:(lia)))), (proj2 (proj2 (L s (q - Z.of_nat s - 1)%Z (p - Z.of_nat n + 1)%Z ltac:(lia) ltac:(lia)))).
      rewrite <- !rsum_scal_l, <- !rsum_plus, <- rsum_scal_l. reflexivity. }
    assert (EF : stepF F n p q = rsum K (fun k => stepF (W k) n p q)).
    { unfold stepF. rewrite <- tsum_rsum. apply tsum_ext. intros s Hs. rewrite (proj1 (L s (q - Z.of_nat s)%Z (p - Z.of_nat n - 1)%Z ltac:(lia) ltac:(lia))).
      rewrite <- rsum_scal_l. reflexivity. }
    assert (EQ : stepQ F n p q = rsum K (fun k => stepQ (W k) n p q)).
    { unfold stepQ. rewrite <- tsum_rsum. apply tsum_ext. intros s Hs. cbv zeta.
      rewrite (proj1 (L s (q - Z.of_nat s)%Z (p - Z.of_nat n)%Z ltac:(lia) ltac:(lia))), (proj2 (proj2 (L s (q - Z.of_nat s - 1)%Z (p - Z.of_nat n)%Z ltac:(lia) ltac:(lia)))).
      rewrite <- !rsum_scal_l, <- !rsum_plus, <- rsum_scal_l. reflexivity. }
    rewrite F_P, F_V, F_Q by (assumption || lia). unfold stepV. rewrite EP, EF, EQ. repeat split.
    rewrite rsum_plus, rsum_scal_l. reflexivity.
Qed.
End Ker.
