(** Moments of the reflections up to an order in 1/d. *)
From Coq Require Import Reals List Arith ZArith Bool Lra Lia.
From Verif Require Import Base Model_Mob Model_Close Model_Reflect Spec_Reflect Spec_Translate Spec_Recur Model_Nearfield Proof_Nearfield1 Proof_Nearfield2
  Proof_Reflect3 Proof_Recur1 Proof_Recur2 Proof_Recur3 Spec_Moments.
Local Open Scope R_scope.

(** ** Sums over triangles *)
Lemma rsum_rev n : forall f : nat -> R, rsum (S n) f = rsum (S n) (fun i => f (n - i)%nat).
Proof.
  induction n as [|n IH]; intros f; [cbn [rsum]; rewrite Nat.sub_0_r; ring|].
  rewrite (rsum_first (S n) f). change (rsum (S (S n)) (fun i => f (S n - i)%nat)) with (rsum (S n) (fun i => f (S n - i)%nat) + f (S n - S n)%nat).
  rewrite Nat.sub_diag, Rplus_comm. f_equal. rewrite IH. apply rsum_ext. intros i Hi. f_equal. lia.
Qed.
Lemma triangle (t : nat -> nat -> R) M : rsum M (fun p => rsum (M - p) (t p)) = rsum M (fun l => rsum (S l) (fun q => t (l - q)%nat q)).
Proof.
  induction M as [|M IH]; [reflexivity|].
  change (rsum (S M) (fun l => rsum (S l) (fun q => t (l - q)%nat q))) with (rsum M (fun l => rsum (S l) (fun q => t (l - q)%nat q)) + rsum (S M) (fun q => t (M - q)%nat q)).
  rewrite <- IH.
  replace (rsum (S M) (fun p => rsum (S M - p) (t p))) with (rsum (S M) (fun p => rsum (M - p) (t p) + t p (M - p)%nat)).
  2:{ apply rsum_ext. intros p Hp. replace (S M - p)%nat with (S (M - p)) by lia. reflexivity. }
  rewrite rsum_plus. f_equal.
  - change (rsum (S M) (fun p => rsum (M - p) (t p))) with (rsum M (fun p => rsum (M - p) (t p)) + rsum (M - M) (t M)). rewrite Nat.sub_diag. cbn [rsum]. ring.
  - rewrite (rsum_rev M (fun q => t (M - q)%nat q)). apply rsum_ext. intros i Hi. f_equal. lia.
Qed.
Lemma rsum_cut M n (h : nat -> R) : (n <= M)%nat -> rsum M (fun i => if Nat.ltb i n then h i else 0) = rsum n h.
Proof.
  intros Hn. replace M with (n + (M - n))%nat by lia. rewrite rsum_app.
  rewrite (rsum_zero (M - n)), Rplus_0_r.
  - apply rsum_ext. intros i Hi. destruct (Nat.ltb_spec i n); [reflexivity|lia].
  - intros i Hi. destruct (Nat.ltb_spec (n + i) n); [lia|reflexivity].
Qed.
Lemma rsum_longer M n (h : nat -> R) : (n <= M)%nat -> (forall i, (n <= i < M)%nat -> h i = 0) -> rsum M h = rsum n h.
Proof.
  intros Hn Hz. replace M with (n + (M - n))%nat by lia. rewrite rsum_app, (rsum_zero (M - n)); [ring|]. intros i Hi. apply Hz. lia.
Qed.
Lemma rsum_abs_le n f g : (forall i, (i < n)%nat -> Rabs (f i) <= g i) -> Rabs (rsum n f) <= rsum n g.
Proof.
  induction n as [|n IH]; intros Hf; [cbn [rsum]; rewrite Rabs_R0; lra|]. cbn [rsum]. eapply Rle_trans; [apply Rabs_triang|].
  apply Rplus_le_compat; [apply IH; intros; apply Hf; lia|apply Hf; lia].
Qed.

(** The part of a polynomial up to the order K *)
Definition order_sum (K : nat) (c : Z -> Z -> R) (x y : R) : R :=
  rsum (S K) (fun l => rsum (S l) (fun q => c (Z.of_nat l - Z.of_nat q)%Z (Z.of_nat q) * x ^ (l - q) * y ^ q)).
Lemma pow_le_1 z n : 0 <= z <= 1 -> z ^ n <= 1.
Proof. intros Hz. rewrite <- (pow1 n). apply pow_incr. lra. Qed.
Lemma pow_le_ord z n K : 0 <= z <= 1 -> (K <= n)%nat -> z ^ n <= z ^ K.
Proof.
  intros Hz Hn. replace n with (K + (n - K))%nat by lia. rewrite pow_add. rewrite <- (Rmult_1_r (z ^ K)) at 2.
  apply Rmult_le_compat_l; [apply pow_le; lra|]. apply pow_le_1. exact Hz.
Qed.
Lemma poly_order B K c : vanish B c -> exists E, 0 <= E /\ forall x y, 0 <= x -> 0 <= y -> x + y <= 1 ->
  Rabs (poly B c x y - order_sum K c x y) <= E * (x + y) ^ S K.
Proof.
  intros Hv. set (M := S (B + K)). set (E := rsum M (fun p => rsum M (fun q => Rabs (c (Z.of_nat p) (Z.of_nat q))))).
  exists E. split.
  { apply rsum_nonneg. intros p Hp. apply rsum_nonneg. intros q Hq. apply Rabs_pos. }
  intros x y Hx Hy Hxy. set (t p q := c (Z.of_nat p) (Z.of_nat q) * x ^ p * y ^ q).
  assert (EP : poly B c x y = rsum M (fun p => rsum M (t p))).
  { unfold poly. symmetry. rewrite (rsum_longer M (S B)); [|unfold M; lia|].
    - apply rsum_ext. intros p Hp. apply rsum_longer; [unfold M; lia|]. intros q Hq. unfold t. rewrite Hv by lia. ring.
    - intros p Hp. apply rsum_zero. intros q Hq. unfold t. rewrite Hv by lia. ring. }
  assert (EO : order_sum K c x y = rsum M (fun p => rsum M (fun q => if Nat.ltb q (S K - p) then t p q else 0))).
  { transitivity (rsum (S K) (fun p => rsum (S K - p) (t p))).
    - rewrite triangle. unfold order_sum. apply rsum_ext. intros l Hl. apply rsum_ext. intros q Hq. unfold t. rewrite Nat2Z.inj_sub by lia. reflexivity.
    - symmetry. rewrite (rsum_longer M (S K)); [|unfold M; lia|].
      + apply rsum_ext. intros p Hp. apply rsum_cut. unfold M. lia.
      + intros p Hp. apply rsum_zero. intros q Hq. destruct (Nat.ltb_spec q (S K - p)); [lia|reflexivity]. }
  rewrite EP, EO, <- rsum_minus. unfold E. rewrite <- rsum_scal_r. apply rsum_abs_le. intros p Hp.
  rewrite <- rsum_minus, <- rsum_scal_r. apply rsum_abs_le. intros q Hq.
  destruct (Nat.ltb_spec q (S K - p)) as [L|L].
  { unfold Rminus. rewrite Rplus_opp_r, Rabs_R0. apply Rmult_le_pos; [apply Rabs_pos|apply pow_le; lra]. }
  rewrite Rminus_0_r. unfold t. rewrite Rmult_assoc, Rabs_mult. apply Rmult_le_compat_l; [apply Rabs_pos|].
  rewrite Rabs_pos_eq by (apply Rmult_le_pos; apply pow_le; assumption).
  apply Rle_trans with ((x + y) ^ p * (x + y) ^ q).
  - apply Rmult_le_compat; try (apply pow_le; assumption); apply pow_incr; lra.
  - rewrite <- pow_add. apply pow_le_ord; [lra|lia].
Qed.

(** ** One degree of all reflections *)
Lemma picked T own P (w : nat -> R) l : (l <= T)%nat -> P = rsum (S l) w -> (forall k, (l < k)%nat -> w k = 0) ->
  rsum (S T) (fun k => if Bool.eqb (Nat.even k) own then w k else 0) = rsum (S l) (fun k => if Bool.eqb (Nat.even k) own then w k else 0).
Proof. intros HT _ Hz. apply rsum_longer; [lia|]. intros k Hk. rewrite Hz by lia. destruct (Bool.eqb _ _); reflexivity. Qed.
Lemma odd_even k : Z.odd (Z.of_nat k) = negb (Nat.even k).
Proof.
  induction k as [|k IH]; [reflexivity|]. rewrite Nat2Z.inj_succ, Z.odd_succ, <- Z.negb_odd, IH, Nat.even_succ, <- Nat.negb_even. reflexivity.
Qed.
(** powers l of the parity ev come from the reflections that leave the own sphere *)
Definition parity_of (own e : bool) (n : nat) : bool := xorb (xorb own (negb (Nat.even n))) e.
Lemma degree_sum_order N n e P (w : nat -> Z -> Z -> R) (B : nat -> nat) own ev K T :
  (K <= N)%nat -> (K <= T)%nat -> (forall k, vanish (B k) (w k)) -> ev = parity_of own e n ->
  (forall p q, (p + q <= Z.of_nat N)%Z -> P p q = rsum (S (Z.to_nat (p + q))) (fun k => w k p q) /\
     forall k, (p + q < Z.of_nat k)%Z \/ Z.odd (p + q + Z.of_nat n + Z.of_nat k) <> e -> w k p q = 0) ->
  exists E, 0 <= E /\ forall x y, 0 <= x -> 0 <= y -> x + y <= 1 ->
  Rabs (rsum (S T) (fun k => if Bool.eqb (Nat.even k) own then poly (B k) (w k) x y else 0)
        - rsum (S K) (fun l => if Bool.eqb (Nat.even l) ev then rsum (S l) (fun q => P (Z.of_nat l - Z.of_nat q)%Z (Z.of_nat q) * x ^ (l - q) * y ^ q) else 0))
  <= E * (x + y) ^ S K.
Proof.
  intros HK HT Hv Hev Hc.
  assert (Each : forall T, exists E, 0 <= E /\ forall x y, 0 <= x -> 0 <= y -> x + y <= 1 ->
    Rabs (rsum (S T) (fun k => if Bool.eqb (Nat.even k) own then poly (B k) (w k) x y else 0)
          - rsum (S T) (fun k => if Bool.eqb (Nat.even k) own then order_sum K (w k) x y else 0)) <= E * (x + y) ^ S K).
  { clear HT. induction T0 as [|T0 IH].
    - destruct (poly_order (B 0%nat) K (w 0%nat) (Hv 0%nat)) as (E & E0 & HE). exists E. split; [exact E0|]. intros x y Hx Hy Hxy. cbn [rsum].
      destruct (Bool.eqb (Nat.even 0) own).
      + replace (0 + poly (B 0%nat) (w 0%nat) x y - (0 + order_sum K (w 0%nat) x y)) with (poly (B 0%nat) (w 0%nat) x y - order_sum K (w 0%nat) x y) by ring. apply HE; assumption.
      + replace (0 + 0 - (0 + 0)) with 0 by ring. rewrite Rabs_R0. apply Rmult_le_pos; [exact E0|apply pow_le; lra].
    - destruct IH as (E1 & E10 & H1). destruct (poly_order (B (S T0)) K (w (S T0)) (Hv (S T0))) as (E & E0 & HE). exists (E1 + E). split; [lra|].
      intros x y Hx Hy Hxy. specialize (H1 x y Hx Hy Hxy). specialize (HE x y Hx Hy Hxy).
      change (rsum (S (S T0))) with (fun f : nat -> R => rsum (S T0) f + f (S T0)). cbv beta.
      set (A := rsum (S T0) (fun k => if Bool.eqb (Nat.even k) own then poly (B k) (w k) x y else 0)) in *.
      set (A' := rsum (S T0) (fun k => if Bool.eqb (Nat.even k) own then order_sum K (w k) x y else 0)) in *. clearbody A A'. rewrite (Rmult_plus_distr_r E1 E).
      destruct (Bool.eqb (Nat.even (S T0)) own).
      + replace (A + poly (B (S T0)) (w (S T0)) x y - (A' + order_sum K (w (S T0)) x y)) with ((A - A') + (poly (B (S T0)) (w (S T0)) x y - order_sum K (w (S T0)) x y)) by ring.
        eapply Rle_trans; [apply Rabs_triang|]. apply Rplus_le_compat; [exact H1|exact HE].
      + replace (A + 0 - (A' + 0)) with (A - A') by ring. pose proof (pow_le (x + y) (S K) ltac:(lra)). pose proof (Rmult_le_pos E _ E0 H). lra. }
  destruct (Each T) as (E & E0 & HE). exists E. split; [exact E0|]. intros x y Hx Hy Hxy. specialize (HE x y Hx Hy Hxy).
  match goal with |- Rabs (_ - ?s) <= _ => replace s with (rsum (S T) (fun k => if Bool.eqb (Nat.even k) own then order_sum K (w k) x y else 0)); [exact HE|] end.
  unfold order_sum.
  transitivity (rsum (S T) (fun k => rsum (S K) (fun l => rsum (S l) (fun q => (if Bool.eqb (Nat.even k) own then w k (Z.of_nat l - Z.of_nat q)%Z (Z.of_nat q) else 0) * x ^ (l - q) * y ^ q)))).
  { apply rsum_ext. intros k _. destruct (Bool.eqb (Nat.even k) own); [reflexivity|]. symmetry. apply rsum_zero. intros l _. apply rsum_zero. intros q _. ring. }
  rewrite rsum_swap. apply rsum_ext. intros l Hl. rewrite rsum_swap.
  transitivity (rsum (S l) (fun q => (if Bool.eqb (Nat.even l) ev then P (Z.of_nat l - Z.of_nat q)%Z (Z.of_nat q) else 0) * x ^ (l - q) * y ^ q)).
  2:{ destruct (Bool.eqb (Nat.even l) ev); [reflexivity|]. apply rsum_zero. intros q _. ring. }
  apply rsum_ext. intros q Hq. rewrite !rsum_scal_r. f_equal. f_equal.
  destruct (Hc (Z.of_nat l - Z.of_nat q)%Z (Z.of_nat q) ltac:(lia)) as (EP & Z0).
  replace (Z.of_nat l - Z.of_nat q + Z.of_nat q)%Z with (Z.of_nat l) in * by lia. rewrite Nat2Z.id in EP.
  rewrite (picked T own _ (fun k => w k (Z.of_nat l - Z.of_nat q)%Z (Z.of_nat q)) l ltac:(lia) EP) by (intros k Hk; apply Z0; left; lia).
  rewrite EP. destruct (Bool.eqb_spec (Nat.even l) ev) as [Ee|Ee].
  - apply rsum_ext. intros k Hk. destruct (Bool.eqb_spec (Nat.even k) own) as [Ek|Ek]; [reflexivity|]. symmetry. apply Z0. right.
    rewrite !Z.odd_add, !odd_even. rewrite Ee, Hev. unfold parity_of. destruct (Nat.even n), (Nat.even k), own, e; cbn in *; congruence.
  - apply rsum_zero. intros k Hk. destruct (Bool.eqb_spec (Nat.even k) own) as [Ek|Ek]; [|reflexivity]. apply Z0. right.
    rewrite !Z.odd_add, !odd_even. rewrite Hev in Ee. unfold parity_of in Ee. destruct (Nat.even n), (Nat.even k), (Nat.even l), own, e; cbn in *; congruence.
Qed.

(** ** The series *)
Lemma order_term P n l e a b d : 0 < a -> 0 < b -> 0 < d ->
  2 ^ l * diagonal P n l e (b / a) / ((1 + b / a) * (2 * d / (a + b))) ^ l
  = (b / a) ^ e * rsum (S l) (fun q => P n (Z.of_nat l - Z.of_nat q)%Z (Z.of_nat q) * (a / d) ^ (l - q) * (b / d) ^ q).
Proof.
  intros Ha Hb Hd. unfold diagonal, range. replace (Z.to_nat 0) with 0%nat by reflexivity. replace (Z.to_nat (Z.of_nat l + 1 - 0)) with (S l) by lia.
  rewrite lsum_seq. replace ((1 + b / a) * (2 * d / (a + b))) with (2 * (d / a)) by (field; split; lra).
  rewrite Rpow_mult_distr. assert (P2 : 2 ^ l <> 0) by (apply pow_nonzero; lra). assert (P3 : (d / a) ^ l <> 0) by (apply pow_nonzero; unfold Rdiv; apply Rmult_integral_contrapositive_currified; [lra|apply Rinv_neq_0_compat; lra]).
  transitivity (/ (d / a) ^ l * rsum (S l) (fun i => P n (Z.of_nat l - Z.of_nat (0 + i))%Z (Z.of_nat (0 + i)) * (b / a) ^ (0 + i + e))).
  { field. split; assumption. }
  rewrite <- !rsum_scal_l. apply rsum_ext. intros q Hq. cbn [Nat.add]. rewrite pow_add.
  assert (El : (d / a) ^ l = (d / a) ^ (l - q) * (d / a) ^ q) by (rewrite <- pow_add; f_equal; lia). rewrite El. clear El P3. unfold Rdiv. rewrite !Rpow_mult_distr, !pow_inv.
  assert (A1 : a ^ q <> 0) by (apply pow_nonzero; lra). assert (A2 : a ^ (l - q) <> 0) by (apply pow_nonzero; lra).
  assert (D1 : d ^ q <> 0) by (apply pow_nonzero; lra). assert (D2 : d ^ (l - q) <> 0) by (apply pow_nonzero; lra). assert (Ae : a ^ e <> 0) by (apply pow_nonzero; lra).
  field. repeat split; assumption.
Qed.
Lemma assemble own ev K T n P (w : nat -> Z -> Z -> R) (B : nat -> nat) E phi eps F a b d Y X (mom : nat -> R) u :
  (forall x y, 0 <= x -> 0 <= y -> x + y <= 1 ->
    Rabs (rsum (S T) (fun k => if Bool.eqb (Nat.even k) own then poly (B k) (w k) x y else 0)
        - rsum (S K) (fun l => if Bool.eqb (Nat.even l) ev then rsum (S l) (fun q => P n (Z.of_nat l - Z.of_nat q)%Z (Z.of_nat q) * x ^ (l - q) * y ^ q) else 0))
    <= E * (x + y) ^ S K) ->
  0 <= E -> 0 < a -> 0 < b -> a + b <= d -> (eps <= 1)%nat ->
  (forall l, Nat.even l = ev -> F l (b / a) = phi * (2 ^ l * diagonal P n l eps (b / a))) ->
  (forall k, Nat.even k = own -> mom k = X * poly (B k) (w k) (a / d) (b / d)) ->
  X = Y * phi * (b / a) ^ eps -> Rabs Y = u ->
  Rabs (rsum (S T) (fun k => if Bool.eqb (Nat.even k) own then mom k else 0) - Y * series ev K F (b / a) (2 * d / (a + b)))
  <= E * Rabs phi * (u * (1 + b / a)) * ((a + b) / d) ^ S K.
Proof.
  intros HE E0 Ha Hb Hd He HF Hm HX HY. assert (Hd0 : 0 < d) by lra. pose proof (Rdiv_lt_0_compat a d Ha Hd0) as Px. pose proof (Rdiv_lt_0_compat b d Hb Hd0) as Py.
  pose proof (Rdiv_lt_0_compat b a Hb Ha) as Pl.
  assert (Sxy : a / d + b / d = (a + b) / d) by (field; lra).
  assert (L1 : (a + b) / d <= 1) by (apply (Rmult_le_reg_r d); [exact Hd0|]; unfold Rdiv; rewrite Rmult_assoc, Rinv_l by lra; lra).
  specialize (HE (a / d) (b / d) ltac:(lra) ltac:(lra) ltac:(lra)). rewrite Sxy in HE.
  set (s1 := rsum (S T) (fun k => if Bool.eqb (Nat.even k) own then poly (B k) (w k) (a / d) (b / d) else 0)) in HE.
  set (s2 := rsum (S K) _) in HE.
  assert (E1 : rsum (S T) (fun k => if Bool.eqb (Nat.even k) own then mom k else 0) = X * s1).
  { unfold s1. rewrite <- rsum_scal_l. apply rsum_ext. intros k _. destruct (Bool.eqb_spec (Nat.even k) own) as [Ek|_]; [apply Hm; exact Ek|ring]. }
  assert (E2 : Y * series ev K F (b / a) (2 * d / (a + b)) = X * s2).
  { unfold series, s2. rewrite <- !rsum_scal_l. apply rsum_ext. intros l _. destruct (Bool.eqb_spec (Nat.even l) ev) as [El|_]; [|ring].
    rewrite (HF l El). unfold Rdiv at 1. rewrite Rmult_assoc. change (2 ^ l * diagonal P n l eps (b / a) * / ((1 + b / a) * (2 * d / (a + b))) ^ l) with (2 ^ l * diagonal P n l eps (b / a) / ((1 + b / a) * (2 * d / (a + b))) ^ l).
    rewrite order_term by lra. rewrite HX. ring. }
  rewrite E1, E2. replace (X * s1 - X * s2) with (X * (s1 - s2)) by ring. rewrite Rabs_mult.
  assert (BX : Rabs X <= Rabs phi * (u * (1 + b / a))).
  { rewrite HX, !Rabs_mult, HY. rewrite (Rabs_pos_eq ((b / a) ^ eps)) by (apply pow_le; lra).
    assert ((b / a) ^ eps <= 1 + b / a) by (destruct eps as [|[|eps]]; [cbn [pow]; lra|cbn [pow]; lra|lia]).
    pose proof (Rabs_pos phi). assert (0 <= u) by (rewrite <- HY; apply Rabs_pos).
    replace (Rabs phi * (u * (1 + b / a))) with (u * Rabs phi * (1 + b / a)) by ring. apply Rmult_le_compat_l; [apply Rmult_le_pos; assumption|assumption]. }
  apply Rle_trans with (Rabs X * (E * ((a + b) / d) ^ S K)); [apply Rmult_le_compat_l; [apply Rabs_pos|exact HE]|].
  replace (E * Rabs phi * (u * (1 + b / a)) * ((a + b) / d) ^ S K) with ((Rabs phi * (u * (1 + b / a))) * (E * ((a + b) / d) ^ S K)) by ring.
  apply Rmult_le_compat_r; [|exact BX]. apply Rmult_le_pos; [exact E0|]. apply pow_le. apply Rlt_le, Rdiv_lt_0_compat; lra.
Qed.

(** ** The first flows *)
Lemma only_kron n0 v n : only n0 v n = v * kron n0 n.
Proof. unfold only, kron. destruct (Nat.eqb n0 n); ring. Qed.
Lemma starts_carries N m j c D E f kappa stP stQ : (j = 1 \/ j = 2)%nat -> 0 < c -> starts N m j c D E f ->
  (forall n, (lowest m <= n <= N)%nat -> D n * H n m * (INR n * (2 * INR n - 1) * (2 * INR n + 1) / (INR n + 1)) * c ^ (2 * n - 1) = kappa * c ^ n * stP n) ->
  (forall n, (lowest m <= n <= N)%nat -> E n * H n m * c ^ n = - (part_sign j * IZR (Z.sgn m) * unit_Q m * kappa * stQ n)) ->
  carries N m j kappa 0 c stP stP stQ f.
Proof.
  intros Hj Hc Hs HD HE n Hn. assert (H1 : (1 <= n)%nat) by (unfold lowest in Hn; lia). destruct (Hs n Hn) as (C1 & C2).
  destruct (cancels_unique n c _ _ _ _ _ _ H1 Hc C1) as (EA & _ & EC). destruct (cancels_unique n c _ _ _ _ _ _ H1 Hc C2) as (_ & EB & _).
  rewrite EA, EB, EC. unfold invert_A, invert_C, mirror, side. cbn [Nat.even]. clear EA EB EC C1 C2 Hs.
  pose proof (HD n Hn) as ED. specialize (HE n Hn). clear HD.
  assert (P : c ^ (2 * n + 1) = c ^ (2 * n - 1) * c ^ 2) by (rewrite <- pow_add; f_equal; lia).
  assert (P1 : c ^ (2 * n + 1) = c ^ n * c ^ (n + 1)) by (rewrite <- pow_add; f_equal; lia).
  assert (P2 : c ^ (n + 2) = c ^ n * c ^ 2) by apply pow_add.
  pose proof (INR_1 n H1) as I1. split; [|split].
  - transitivity (D n * H n m * (INR n * (2 * INR n - 1) * (2 * INR n + 1) / (INR n + 1)) * c ^ (2 * n - 1)); [field; lra|]. rewrite ED. ring.
  - rewrite P, P2. transitivity (D n * H n m * (INR n * (2 * INR n - 1) * (2 * INR n + 1) / (INR n + 1)) * c ^ (2 * n - 1) * (c ^ 2 / (2 * (2 * INR n + 1)))); [field; lra|].
    rewrite ED. field. lra.
  - rewrite P1. transitivity (E n * H n m * c ^ n * c ^ (n + 1)); [ring|]. rewrite HE. ring.
Qed.
Lemma moves_carries N m j c U f : (j = 1 \/ j = 2)%nat -> 0 < c -> moves N m j c U f -> carries N m j (3 / 2 * U) 0 c (kron 1) (kron 1) (fun _ => 0) f.
Proof.
  intros Hj Hc Hs. apply (starts_carries N m j c _ _ f _ _ _ Hj Hc Hs).
  - intros n Hn. rewrite only_kron. unfold kron. destruct (Nat.eqb_spec 1 n) as [<-|_]; [|ring]. pose proof (H_pos 1 m). cbn [INR pow Nat.mul Nat.add Nat.sub]. field. lra.
  - intros n Hn. ring.
Qed.
Lemma sign_sq j m : (j = 1 \/ j = 2)%nat -> Z.abs m = 1%Z -> (part_sign j * IZR (Z.sgn m)) * (part_sign j * IZR (Z.sgn m)) = 1.
Proof.
  intros Hj Hm. transitivity (part_sign j * part_sign j * (IZR (Z.sgn m) * IZR (Z.sgn m))); [ring|]. rewrite part_sq.
  destruct m as [|[p|p|]|[p|p|]]; cbn in Hm; try discriminate; cbn [Z.sgn]; ring.
Qed.
Lemma unit_Q_1 m : Z.abs m = 1%Z -> unit_Q m = 2 / 3.
Proof. intros Hm. unfold unit_Q. rewrite Hm. reflexivity. Qed.
Lemma turns_carries N m j c U f : (j = 1 \/ j = 2)%nat -> Z.abs m = 1%Z -> 0 < c -> turns N m j c U f ->
  carries N m j (- (3 / 2 * U * c)) 0 c (fun _ => 0) (fun _ => 0) (kron 1) f.
Proof.
  intros Hj Hm Hc Hs. apply (starts_carries N m j c _ _ f _ _ _ Hj Hc Hs).
  - intros n Hn. ring.
  - intros n Hn. rewrite only_kron, unit_Q_1 by exact Hm. unfold kron. destruct (Nat.eqb_spec 1 n) as [<-|_]; [|ring].
    pose proof (H_pos 1 m). set (z := IZR (Z.sgn m)). cbn [pow]. field. lra.
Qed.
Lemma strains_carries N m j c U f : (j = 1 \/ j = 2)%nat -> 0 < c -> strains N m j c U f -> carries N m j (5 * U * c) 0 c (kron 2) (kron 2) (fun _ => 0) f.
Proof.
  intros Hj Hc Hs. apply (starts_carries N m j c _ _ f _ _ _ Hj Hc Hs).
  - intros n Hn. rewrite only_kron. unfold kron. destruct (Nat.eqb_spec 2 n) as [<-|_]; [|ring]. pose proof (H_pos 2 m). cbn [INR pow Nat.mul Nat.add Nat.sub]. field. lra.
  - intros n Hn. ring.
Qed.

(** ** Totals *)
Definition mir (own : bool) (n : nat) (m : Z) : R := mirror (if own then 0 else 1) n m.
Lemma mirror_mir k own n m : Nat.even k = own -> mirror k n m = mir own n m.
Proof. intros <-. unfold mir, mirror. destruct (Nat.even k); reflexivity. Qed.
Lemma side_own k own (a b : R) : Nat.even k = own -> side k (mover_radius own a b) (mover_radius own b a) = a /\ side (S k) (mover_radius own a b) (mover_radius own b a) = b.
Proof. intros <-. unfold side, mover_radius. rewrite Nat.even_succ, <- Nat.negb_even. destruct (Nat.even k); split; reflexivity. Qed.
Lemma mover_pos own a b : 0 < a -> 0 < b -> 0 < mover_radius own a b.
Proof. destruct own; cbn [mover_radius]; auto. Qed.
Section Totals.
Variables (N K T : nat) (m : Z) (stP stQ : nat -> R) (e : bool) (n : nat) (own : bool) (P : nat -> Z -> Z -> R).
Hypotheses (HK : (K <= N)%nat) (HT : (K <= T)%nat) (Hn : (lowest m <= n <= N)%nat).
Let L1 : (1 <= lowest m)%nat. Proof. unfold lowest. lia. Qed.
Let w (k : nat) := W (phys m) (lowest m) N stP stQ k.
Variables (phi : R) (ev : bool) (F : nat -> R -> R) (eps : nat).
Hypothesis Heps : (eps <= 1)%nat.
Hypothesis HF : forall l lam, Nat.even l = ev -> F l lam = phi * (2 ^ l * diagonal P n l eps lam).
Lemma total_P : collects N e P (fun k => aP (w k)) -> ev = parity_of own e n ->
  exists E, forall j a b d f kappa c0 Y, (j = 1 \/ j = 2)%nat -> 0 < a -> 0 < b -> a + b <= d ->
  carries N m j kappa 0 (mover_radius own a b) stP stP stQ (f 0%nat) -> exchange N m own a b d f ->
  c0 * (kappa * mir own n m * a ^ n) = Y * phi * (b / a) ^ eps ->
  Rabs (total_on own T (fun g => c0 * (cC g j n m * H n m)) f - Y * series ev K F (b / a) (2 * d / (a + b))) <= E * (Rabs Y * (1 + b / a)) * ((a + b) / d) ^ S K.
Proof.
  intros Hc Hev.
  destruct (degree_sum_order N n e (P n) (fun k => aP (w k) n) (bound N) own ev K T HK HT) as (E & E0 & HE).
  - intros k p q Hpq. apply (W_supported (phys m) (lowest m) N L1 stP stQ k); [lia|exact Hpq].
  - exact Hev.
  - intros p q Hpq. apply Hc; [lia|exact Hpq].
  - exists (E * Rabs phi). intros j a b d f kappa c0 Y Hj Ha Hb Hd H0 Hr HX.
    refine (assemble own ev K T n P (fun k => aP (w k) n) (bound N) E phi eps F a b d Y _ _ (Rabs Y) HE E0 Ha Hb Hd Heps (fun l => HF l (b / a)) _ HX eq_refl).
    intros k Hk. destruct (chain N m j kappa (mover_radius own a b) (mover_radius own b a) d stP stQ f Hj (mover_pos own a b Ha Hb) (mover_pos own b a Hb Ha) ltac:(lra) H0 Hr k n Hn) as (EC & _).
    destruct (side_own k own a b Hk) as (S1 & S2). rewrite S1, S2 in EC. rewrite EC, (mirror_mir k own n m Hk). unfold w. ring.
Qed.
Lemma total_Q : collects N e P (fun k => aQ (w k)) -> ev = parity_of own e n ->
  exists E, forall j a b d f kappa c0 Y, (j = 1 \/ j = 2)%nat -> 0 < a -> 0 < b -> a + b <= d ->
  carries N m j kappa 0 (mover_radius own a b) stP stP stQ (f 0%nat) -> exchange N m own a b d f ->
  c0 * (- (part_sign j * IZR (Z.sgn m) * (if own then 1 else - (1)) * unit_Q m * kappa * mir own n m * a ^ (n + 1))) = Y * phi * (b / a) ^ eps ->
  Rabs (total_on own T (fun g => c0 * (cB g (other j) n m * H n m)) f - Y * series ev K F (b / a) (2 * d / (a + b))) <= E * (Rabs Y * (1 + b / a)) * ((a + b) / d) ^ S K.
Proof.
  intros Hc Hev.
  destruct (degree_sum_order N n e (P n) (fun k => aQ (w k) n) (bound N) own ev K T HK HT) as (E & E0 & HE).
  - intros k p q Hpq. apply (W_supported (phys m) (lowest m) N L1 stP stQ k); [lia|exact Hpq].
  - exact Hev.
  - intros p q Hpq. apply Hc; [lia|exact Hpq].
  - exists (E * Rabs phi). intros j a b d f kappa c0 Y Hj Ha Hb Hd H0 Hr HX.
    refine (assemble own ev K T n P (fun k => aQ (w k) n) (bound N) E phi eps F a b d Y _ _ (Rabs Y) HE E0 Ha Hb Hd Heps (fun l => HF l (b / a)) _ HX eq_refl).
    intros k Hk. destruct (chain N m j kappa (mover_radius own a b) (mover_radius own b a) d stP stQ f Hj (mover_pos own a b Ha Hb) (mover_pos own b a Hb Ha) ltac:(lra) H0 Hr k n Hn) as (_ & _ & EB).
    destruct (side_own k own a b Hk) as (S1 & S2). rewrite S1, S2 in EB. rewrite EB, (mirror_mir k own n m Hk). unfold side. rewrite Hk. unfold w. ring.
Qed.
End Totals.
