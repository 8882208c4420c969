(** Reversing the order of the reflections.  A quantity [y] on indices [I] with
    coefficients p, q is given by a source and by repeated reflections
    y_i(p,q) = source + sum r_ia T_ab y_b(q, p - e_ia),
    r, e and T symmetric, e odd and positive.  Then the terms with an odd number
    of reflections do not change when the order is reversed. *)
From Coq Require Import Reals List Arith ZArith Bool Lra Lia.
From Verif Require Import Base Model_Nearfield Proof_Nearfield1.
Import ListNotations.
Local Open Scope R_scope.

Lemma lsum_plus {A} (f g : A -> R) l : lsum (fun x => f x + g x) l = lsum f l + lsum g l.
Proof. unfold lsum. induction l; cbn; [ring|rewrite IHl; ring]. Qed.
Lemma lsum_mul_l {A} (f : A -> R) c l : lsum (fun x => c * f x) l = c * lsum f l.
Proof. unfold lsum. induction l; cbn; [ring|rewrite IHl; ring]. Qed.
Lemma lsum_mul_r {A} (f : A -> R) c l : lsum (fun x => f x * c) l = lsum f l * c.
Proof. unfold lsum. induction l; cbn; [ring|rewrite IHl; ring]. Qed.
Lemma lsum_swap {A B} (f : A -> B -> R) l m : lsum (fun x => lsum (fun y => f x y) m) l = lsum (fun y => lsum (fun x => f x y) l) m.
Proof.
  induction l as [|a l IH].
  - unfold lsum at 1. cbn. symmetry. apply lsum_zero. reflexivity.
  - change (lsum (fun y => f a y) m + lsum (fun x => lsum (fun y => f x y) m) l = lsum (fun y => lsum (fun x => f x y) (a :: l)) m).
    rewrite IH, <- lsum_plus. reflexivity.
Qed.
Lemma lsum_app {A} (f : A -> R) l m : lsum f (l ++ m) = lsum f l + lsum f m.
Proof. unfold lsum. induction l; cbn; [ring|rewrite IHl; ring]. Qed.

Section Paths.
Variables (I : Type) (idx : list I) (r T : I -> I -> R) (e : I -> I -> Z).
Hypotheses (r_sym : forall i j, r i j = r j i) (T_sym : forall i j, T i j = T j i) (e_sym : forall i j, e i j = e j i)
  (e_odd : forall i j, Z.odd (e i j) = true) (e_pos : forall i j, (1 <= e i j)%Z).

Definition at_ (b : bool) : R := if b then 1 else 0.
Fixpoint path (k : nat) (i j : I) (p q : Z) : R :=
  match k with
  | O => r i j * (at_ (p =? e i j)%Z * at_ (q =? 0)%Z)
  | S k => lsum (fun a => lsum (fun b => r i a * T a b * path k b j q (p - e i a)%Z) idx) idx
  end.

Lemma path_parity k : forall i j p q, Z.odd (p + q) = Z.odd (Z.of_nat k) -> path k i j p q = 0.
Proof.
  induction k as [|k IH]; intros i j p q H.
  - cbn [path]. destruct (Z.eqb_spec p (e i j)) as [->|]; cbn [at_]; [|ring].
    destruct (Z.eqb_spec q 0) as [->|]; cbn [at_]; [|ring].
    rewrite Z.add_0_r, e_odd in H. discriminate.
  - cbn [path]. apply lsum_zero. intros a _. apply lsum_zero. intros b _. rewrite IH; [ring|].
    replace (q + (p - e i a))%Z with (p + q - e i a)%Z by lia.
    rewrite Z.odd_sub, e_odd, H, Nat2Z.inj_succ, Z.odd_succ, <- Z.negb_odd. destruct (Z.odd (Z.of_nat k)); reflexivity.
Qed.

(** the last reflection instead of the first *)
Lemma path_right k : forall i j p q, path (S k) i j p q =
  lsum (fun a => lsum (fun b => (if Nat.odd k then path k i a (p - e b j) q else path k i a p (q - e b j)%Z) * T a b * r b j) idx) idx.
Proof.
  induction k as [|k IH]; intros i j p q.
  - cbn [path]. change (Nat.odd 0) with false. cbv iota. apply lsum_ext. intros a _. apply lsum_ext. intros b _.
    replace (p - e i a =? 0)%Z with (p =? e i a)%Z by (destruct (Z.eqb_spec p (e i a)), (Z.eqb_spec (p - e i a) 0); lia).
    replace (q - e b j =? 0)%Z with (q =? e b j)%Z by (destruct (Z.eqb_spec q (e b j)), (Z.eqb_spec (q - e b j) 0); lia).
    ring.
  - set (m := S k). cbn [path]. unfold m at 1.
    transitivity (lsum (fun a => lsum (fun b => lsum (fun c => lsum (fun f => r i a * T a b *
       (if Nat.odd k then path k b c (q - e f j) (p - e i a) else path k b c q (p - e i a - e f j)%Z) * T c f * r f j) idx) idx) idx) idx).
    { apply lsum_ext. intros a _. apply lsum_ext. intros b _. rewrite IH, <- lsum_mul_l. apply lsum_ext. intros c _.
      rewrite <- lsum_mul_l. apply lsum_ext. intros f _. ring. }
    transitivity (lsum (fun c => lsum (fun f => lsum (fun a => lsum (fun b => r i a * T a b *
       (if Nat.odd k then path k b c (q - e f j) (p - e i a) else path k b c q (p - e i a - e f j)%Z) * T c f * r f j) idx) idx) idx) idx).
    { rewrite (lsum_ext _ (fun a => lsum (fun c => lsum (fun b => lsum (fun f => r i a * T a b *
        (if Nat.odd k then path k b c (q - e f j) (p - e i a) else path k b c q (p - e i a - e f j)%Z) * T c f * r f j) idx) idx) idx))
        by (intros a _; apply lsum_swap).
      rewrite lsum_swap. apply lsum_ext. intros c _.
      rewrite (lsum_ext _ (fun a => lsum (fun f => lsum (fun b => r i a * T a b *
        (if Nat.odd k then path k b c (q - e f j) (p - e i a) else path k b c q (p - e i a - e f j)%Z) * T c f * r f j) idx) idx))
        by (intros a _; apply lsum_swap).
      apply lsum_swap. }
    apply lsum_ext. intros c _. apply lsum_ext. intros f _.
    assert (Hm : Nat.odd m = negb (Nat.odd k)) by (unfold m; rewrite Nat.odd_succ, <- Nat.negb_odd; reflexivity).
    rewrite Hm. unfold m. destruct (Nat.odd k); cbn [negb path].
    + rewrite <- !lsum_mul_r. apply lsum_ext. intros a _. rewrite <- !lsum_mul_r. apply lsum_ext. intros b _. reflexivity.
    + rewrite <- !lsum_mul_r. apply lsum_ext. intros a _. rewrite <- !lsum_mul_r. apply lsum_ext. intros b _.
      replace (p - e f j - e i a)%Z with (p - e i a - e f j)%Z by lia. reflexivity.
Qed.

Lemma path_reverse k : forall i j p q, path k i j p q = if Nat.odd k then path k j i q p else path k j i p q.
Proof.
  induction k as [|k IH]; intros i j p q.
  - cbn [path]. change (Nat.odd 0) with false. cbv iota. rewrite r_sym, e_sym. reflexivity.
  - transitivity (lsum (fun a => lsum (fun b => r i a * T a b * path k b j q (p - e i a)) idx) idx); [reflexivity|].
    rewrite lsum_swap. rewrite !(path_right k j i).
    assert (Hm : Nat.odd (S k) = negb (Nat.odd k)) by (rewrite Nat.odd_succ, <- Nat.negb_odd; reflexivity).
    rewrite Hm. destruct (Nat.odd k) eqn:O; cbn [negb]; apply lsum_ext; intros b _; apply lsum_ext; intros a _;
      rewrite IH, (r_sym a i), (T_sym b a), (e_sym a i); ring.
Qed.

Variables (y : I -> Z -> Z -> R) (j0 : I) (kappa : R) (sh D : Z).
Hypothesis y_zero : forall i p q, In i idx -> (p < 1 \/ q < 0)%Z -> y i p q = 0.
Hypothesis y_eq : forall i p q, In i idx -> (p + q <= D)%Z -> y i p q =
  kappa * (r i j0 * (at_ (p + sh =? e i j0)%Z * at_ (q =? 0)%Z)) + lsum (fun a => lsum (fun b => r i a * T a b * y b q (p - e i a)%Z) idx) idx.

Definition term (i : I) (p q : Z) (k : nat) : R :=
  if Nat.odd k then path k i j0 p (q + sh) else path k i j0 (p + sh) q.
Lemma term_S k i p q : lsum (fun a => lsum (fun b => r i a * T a b * term b q (p - e i a) k) idx) idx = term i p q (S k).
Proof.
  unfold term. assert (Hm : Nat.odd (S k) = negb (Nat.odd k)) by (rewrite Nat.odd_succ, <- Nat.negb_odd; reflexivity).
  rewrite Hm. destruct (Nat.odd k); cbn [negb path]; apply lsum_ext; intros a _; apply lsum_ext; intros b _.
  - replace (p - e i a + sh)%Z with (p + sh - e i a)%Z by lia. reflexivity.
  - reflexivity.
Qed.
Lemma y_paths K : forall i p q, In i idx -> (p + q <= D)%Z -> (p + q <= Z.of_nat K)%Z ->
  y i p q = kappa * lsum (term i p q) (seq 0 K).
Proof.
  induction K as [|K IH]; intros i p q Hi HD HK.
  - rewrite y_zero by (try exact Hi; lia). unfold lsum. cbn. ring.
  - rewrite y_eq by assumption. cbn [seq]. rewrite <- seq_shift.
    unfold lsum at 3. cbn [map fold_right]. rewrite map_map.
    change (fold_right Rplus 0 (map (fun x => term i p q (S x)) (seq 0 K))) with (lsum (fun x => term i p q (S x)) (seq 0 K)).
    rewrite Rmult_plus_distr_l. f_equal.
    transitivity (lsum (fun a => lsum (fun b => lsum (fun k => kappa * (r i a * T a b * term b q (p - e i a) k)) (seq 0 K)) idx) idx).
    { apply lsum_ext. intros a Ha. apply lsum_ext. intros b Hb. pose proof (e_pos i a). rewrite IH by (try exact Hb; lia).
      rewrite lsum_mul_l, lsum_mul_l. ring. }
    rewrite (lsum_ext _ (fun a => lsum (fun k => lsum (fun b => kappa * (r i a * T a b * term b q (p - e i a) k)) idx) (seq 0 K)))
      by (intros a _; apply lsum_swap).
    rewrite lsum_swap, <- lsum_mul_l. apply lsum_ext. intros k _. rewrite <- term_S, <- lsum_mul_l. apply lsum_ext. intros a _.
    rewrite <- lsum_mul_l. reflexivity.
Qed.
Theorem reversal p q : In j0 idx -> (p + q <= D)%Z -> Z.odd (p + q + sh) = false -> y j0 p q = y j0 (q + sh)%Z (p - sh)%Z.
Proof.
  intros Hj HD Ho. rewrite !(y_paths (Z.to_nat (p + q))) by (try exact Hj; lia). f_equal. apply lsum_ext. intros k _.
  unfold term. destruct (Nat.odd k) eqn:O.
  - rewrite (path_reverse k j0 j0 p), O. f_equal. lia.
  - assert (Ok : Z.odd (Z.of_nat k) = false).
    { destruct (Z.odd (Z.of_nat k)) eqn:E; [|reflexivity]. apply Zodd_bool_iff, Zodd_ex in E. destruct E as [m Em].
      assert (Nat.odd k = true) by (apply Nat.odd_spec; exists (Z.to_nat m); lia). congruence. }
    rewrite !path_parity; [reflexivity| |]; rewrite Ok, <- Ho; f_equal; lia.
Qed.
End Paths.

(** ** Indices (n, component), 1 <= n <= N *)
Section Family.
Variables (C : nat) (rr : nat -> nat -> nat -> R) (TT : nat -> nat -> nat -> nat -> R) (ee : nat -> nat -> nat -> Z).
Hypotheses (rr_sym : forall n c c', rr n c c' = rr n c' c) (ee_sym : forall n c c', ee n c c' = ee n c' c)
  (TT_sym : forall n c s b, TT n c s b = TT s b n c)
  (ee_odd : forall n c c', Z.odd (ee n c c') = true) (ee_pos : forall n c c', (1 <= n)%nat -> (1 <= ee n c c')%Z).
Variables (y : nat -> nat -> Z -> Z -> R) (n0 c0 : nat) (kappa : R) (sh : Z).
Hypotheses (Hn0 : (1 <= n0)%nat) (Hc0 : (c0 < C)%nat).
Hypothesis y_zero : forall n c p q, (1 <= n)%nat -> (c < C)%nat -> (p < Z.of_nat n \/ q < 0)%Z -> y n c p q = 0.
Hypothesis y_eq : forall n c p q, (1 <= n)%nat -> (c < C)%nat -> y n c p q =
  (if Nat.eqb n n0 then kappa * (rr n c c0 * (at_ (p + sh =? ee n c c0)%Z * at_ (q =? 0)%Z)) else 0)
  + lsum (fun a => rr n c a * lsum (fun s => lsum (fun b => TT n a s b * y s b q (p - ee n c a)%Z) (seq 0 C)) (range 1 (q + 1))) (seq 0 C).

Lemma lsum_prod {A B} (f : A -> B -> R) l m : lsum (fun t => f (fst t) (snd t)) (list_prod l m) = lsum (fun x => lsum (f x) m) l.
Proof.
  induction l as [|a l IH]; [reflexivity|]. cbn [list_prod]. rewrite lsum_app, IH. unfold lsum at 3. cbn [map fold_right]. f_equal.
  unfold lsum. rewrite map_map. reflexivity.
Qed.
Lemma lsum_single (f : nat -> R) n l : NoDup l -> In n l -> (forall m, In m l -> m <> n -> f m = 0) -> lsum f l = f n.
Proof.
  intros ND. induction ND as [|a l Ha ND IH]; [intros []|]. intros [->|Hn] Hf.
  - unfold lsum. cbn. fold (lsum f l). rewrite lsum_zero; [ring|]. intros m Hm. apply Hf; [right; exact Hm|]. intros ->. tauto.
  - change (f a + lsum f l = f n). rewrite (Hf a); [rewrite IH; [ring|exact Hn|]|left; reflexivity|intros ->; tauto].
    intros m Hm. apply Hf. right. exact Hm.
Qed.
(** more terms than needed *)
Lemma lsum_more (f : nat -> R) (q : Z) N : (q <= Z.of_nat N)%Z -> (forall s, (1 <= s)%nat -> (q < Z.of_nat s)%Z -> f s = 0) ->
  lsum f (range 1 (q + 1)) = lsum f (seq 1 N).
Proof.
  intros Hq Hf. unfold range. replace (Z.to_nat (q + 1 - 1)) with (Z.to_nat q) by lia. change (Z.to_nat 1) with 1%nat.
  replace N with (Z.to_nat q + (N - Z.to_nat q))%nat by lia. rewrite seq_app, lsum_app, (lsum_zero f (seq (1 + Z.to_nat q) _)); [ring|].
  intros s Hs. apply in_seq in Hs. apply Hf; lia.
Qed.

Theorem family_reversal p q : Z.odd (p + q + sh) = false -> y n0 c0 p q = y n0 c0 (q + sh)%Z (p - sh)%Z.
Proof.
  intros Ho. set (N := (n0 + Z.to_nat (p + q))%nat).
  set (idx := list_prod (seq 1 N) (seq 0 C)).
  assert (Hin : forall i, In i idx <-> (1 <= fst i <= N /\ snd i < C)%nat).
  { intros [n c]. unfold idx. rewrite in_prod_iff, !in_seq. cbn [fst snd]. lia. }
  refine (reversal (nat * nat) idx (fun i j => if Nat.eqb (fst i) (fst j) then rr (fst i) (snd i) (snd j) else 0)
    (fun i j => TT (fst i) (snd i) (fst j) (snd j)) (fun i j => if (Nat.eqb (fst i) (fst j) && Nat.leb 1 (fst i))%bool then ee (fst i) (snd i) (snd j) else 1%Z)
    _ _ _ _ _ (fun i => y (fst i) (snd i)) (n0, c0) kappa sh (Z.of_nat N) _ _ p q _ _ Ho).
  - intros [n c] [m d]. cbn [fst snd]. rewrite (Nat.eqb_sym m n). destruct (Nat.eqb_spec n m) as [->|]; [apply rr_sym|reflexivity].
  - intros i j. apply TT_sym.
  - intros [n c] [m d]. cbn [fst snd]. rewrite (Nat.eqb_sym m n). destruct (Nat.eqb_spec n m) as [->|]; [|reflexivity].
    destruct (true && (1 <=? m)%nat)%bool; [apply ee_sym|reflexivity].
  - intros i j. destruct (_ && _)%bool; [apply ee_odd|reflexivity].
  - intros i j. destruct (Nat.eqb_spec (fst i) (fst j)); cbn [andb]; [|lia]. destruct (Nat.leb_spec 1 (fst i)); [apply ee_pos; assumption|lia].
  - intros i a b Hi H. apply Hin in Hi. apply y_zero; lia.
  - intros [n c] p' q' Hi HD. apply Hin in Hi. cbn [fst snd] in *. rewrite y_eq by lia. f_equal.
    + destruct (Nat.eqb_spec n n0) as [->|]; [|ring]. cbn [andb]. destruct (Nat.leb_spec 1 n0); [reflexivity|lia].
    + symmetry. unfold idx.
      rewrite (lsum_ext _ (fun t => (if Nat.eqb n (fst t) then rr n c (snd t) else 0) *
        lsum (fun s => lsum (fun b => TT (fst t) (snd t) s b * y s b q' (p' - (if (Nat.eqb n (fst t) && Nat.leb 1 n)%bool then ee n c (snd t) else 1))%Z) (seq 0 C)) (seq 1 N))).
      2:{ intros t Ht. rewrite <- (lsum_prod (fun s b => TT (fst t) (snd t) s b * y s b q' (p' - (if (Nat.eqb n (fst t) && Nat.leb 1 n)%bool then ee n c (snd t) else 1))%Z)).
          rewrite <- lsum_mul_l. apply lsum_ext. intros u Hu. ring. }
      rewrite (lsum_prod (fun m a => (if Nat.eqb n m then rr n c a else 0) *
        lsum (fun s => lsum (fun b => TT m a s b * y s b q' (p' - (if (Nat.eqb n m && Nat.leb 1 n)%bool then ee n c a else 1))%Z) (seq 0 C)) (seq 1 N))).
      rewrite (lsum_single _ n (seq 1 N)); [|apply seq_NoDup|apply in_seq; lia|intros m Hm Hd; apply lsum_zero; intros a Ha;
        destruct (Nat.eqb_spec n m); [congruence|ring]].
      apply lsum_ext. intros a Ha. rewrite Nat.eqb_refl. destruct (Nat.leb_spec 1 n); [|lia]. cbn [andb]. f_equal.
      destruct (Z_le_gt_dec q' (Z.of_nat N)) as [Hq|Hq].
      * symmetry. apply lsum_more; [exact Hq|]. intros s Hs Hsq. apply lsum_zero. intros b Hb. apply in_seq in Hb.
        rewrite y_zero by lia. ring.
      * pose proof (ee_pos n c a ltac:(lia)).
        rewrite (lsum_zero _ (seq 1 N)), lsum_zero; [reflexivity| |]; intros s Hs; [in_rng|apply in_seq in Hs]; apply lsum_zero; intros b Hb; apply in_seq in Hb;
          rewrite y_zero by lia; ring.
  - apply Hin. cbn [fst snd]. lia.
  - lia.
Qed.
End Family.
