(** C77: the near-field recurrences and the reflections between two spheres. *)
From Coq Require Import Reals List ZArith Arith Bool Lra Lia.
From Verif Require Import Base Model_Mob Model_Close Model_Reflect Spec_Reflect Spec_Translate Spec_Recur Model_Nearfield
  Proof_Nearfield1 Proof_Nearfield2 Proof_Reflect3 Proof_Translate Proof_Recur1 Proof_Recur2 Proof_Recur3.
Import ListNotations.
Local Open Scope R_scope.

Lemma collected N m stP stQ e (A : arr -> nat -> Z -> Z -> R) P :
  (forall k n p q, (1 <= n)%nat -> (p + q < Z.of_nat k)%Z -> A (W (phys m) (lowest m) N stP stQ k) n p q = 0) ->
  (forall k n p q, odd_at k n p q <> e -> A (W (phys m) (lowest m) N stP stQ k) n p q = 0) ->
  (forall n p q, (1 <= n)%nat -> (p + q <= Z.of_nat N)%Z -> P n p q = rsum (S (Z.to_nat (p + q))) (fun k => A (W (phys m) (lowest m) N stP stQ k) n p q)) ->
  collects N e P (fun k n p q => A (W (phys m) (lowest m) N stP stQ k) n p q).
Proof.
  intros L O T n p q Hn HN. split; [apply T; assumption|]. intros k [Hk|Hk]; [apply L; assumption|apply O; exact Hk].
Qed.
Lemma start_0 (st : nat -> R) (e : bool) : (forall n, st n <> 0 -> Z.odd (Z.of_nat n) = e) -> forall n, Z.odd (Z.of_nat n) <> e -> st n = 0.
Proof. intros A n Hn. destruct (Req_dec (st n) 0) as [E|E]; [exact E|]. exfalso. apply Hn, A, E. Qed.
Lemma start_1 (st : nat -> R) (e : bool) : (forall n, st n <> 0 -> Z.odd (Z.of_nat n) = negb e) -> forall n, Z.odd (Z.of_nat n) = e -> st n = 0.
Proof. intros A n Hn. destruct (Req_dec (st n) 0) as [E|E]; [exact E|]. exfalso. specialize (A n E). rewrite Hn in A. destruct e; discriminate. Qed.

(** Motions along the line of centres (XA, XG and XM: start = kron 1, kron 2): up
    to the order N the recurrences P, V collect the reflections of all orders. *)
Theorem C77_x N start e : (forall n, start n <> 0 -> Z.odd (Z.of_nat n) = e) ->
  exists B wP wV wQ, reflections N 0 start (fun _ => 0) B wP wV wQ /\
  collects N e (fun n p q => Px start (enough p q) n p q) wP /\ collects N e (fun n p q => Vx start (enough p q) n p q) wV.
Proof.
  intros Hs. set (w k := W (phys 0) (lowest 0) N start (fun _ => 0) k).
  exists (bound N), (fun k => aP (w k)), (fun k => aV (w k)), (fun k => aQ (w k)).
  assert (L1 : (1 <= lowest 0)%nat) by (unfold lowest; lia).
  pose proof (W_parity (phys 0) (lowest 0) N L1 start (fun _ => 0) e (start_0 _ _ Hs) (fun _ _ => eq_refl)) as Pa.
  split; [|split].
  - intros j kappa a b d f Hj Ha Hb Hd H0 Hr k. exact (chain N 0 j kappa a b d start (fun _ => 0) f Hj Ha Hb Hd H0 Hr k).
  - apply (collected N 0 start (fun _ => 0) e aP); intros.
    + apply W_low; assumption.
    + apply Pa. assumption.
    + apply (proj1 (total_X N start n p q ltac:(assumption) ltac:(assumption))).
  - apply (collected N 0 start (fun _ => 0) e aV); intros.
    + apply W_low; assumption.
    + apply Pa. assumption.
    + apply (proj2 (total_X N start n p q ltac:(assumption) ltac:(assumption))).
Qed.
Print Assumptions C77_x.

(** Motions across it, of first order (YA, YB, YC, YG, YH and YM). *)
Theorem C77_y N m start startQ e : Z.abs m = 1%Z ->
  (forall n, start n <> 0 -> Z.odd (Z.of_nat n) = e) -> (forall n, startQ n <> 0 -> Z.odd (Z.of_nat n) = negb e) ->
  exists B wP wV wQ, reflections N m start startQ B wP wV wQ /\
  collects N e (fun n p q => Py start startQ (enough p q) n p q) wP /\ collects N e (fun n p q => Vy start startQ (enough p q) n p q) wV /\
  collects N (negb e) (fun n p q => Qy start startQ (enough p q) n p q) wQ.
Proof.
  intros Hm Hs HQ. set (w k := W (phys m) (lowest m) N start startQ k). assert (Lm : lowest m = 1%nat) by (unfold lowest; lia).
  exists (bound N), (fun k => aP (w k)), (fun k => aV (w k)), (fun k => aQ (w k)).
  assert (L1 : (1 <= lowest m)%nat) by (unfold lowest; lia).
  pose proof (W_parity (phys m) (lowest m) N L1 start startQ e (start_0 _ _ Hs) (start_1 _ _ HQ)) as Pa.
  split; [|split; [|split]].
  - intros j kappa a b d f Hj Ha Hb Hd H0 Hr k. exact (chain N m j kappa a b d start startQ f Hj Ha Hb Hd H0 Hr k).
  - apply (collected N m start startQ e aP); intros.
    + apply W_low; assumption.
    + apply Pa. assumption.
    + rewrite Lm. apply (total_Y N start startQ m n p q Hm ltac:(assumption) ltac:(assumption)).
  - apply (collected N m start startQ e aV); intros.
    + apply W_low; assumption.
    + apply Pa. assumption.
    + rewrite Lm. apply (total_Y N start startQ m n p q Hm ltac:(assumption) ltac:(assumption)).
  - apply (collected N m start startQ (negb e) aQ); intros.
    + apply W_low; assumption.
    + apply Pa. destruct (odd_at k n p q), e; cbn [negb] in *; congruence.
    + rewrite Lm. apply (total_Y N start startQ m n p q Hm ltac:(assumption) ltac:(assumption)).
Qed.
Print Assumptions C77_y.

(** Straining across it, of second order (ZM). *)
Theorem C77_z N m : Z.abs m = 2%Z ->
  exists B wP wV wQ, reflections N m (kron 2) (fun _ => 0) B wP wV wQ /\
  collects N false (fun n p q => Pz (enough p q) n p q) wP /\ collects N false (fun n p q => Vz (enough p q) n p q) wV /\
  collects N true (fun n p q => Qz (enough p q) n p q) wQ.
Proof.
  intros Hm. set (w k := W (phys m) (lowest m) N (kron 2) (fun _ => 0) k). assert (Lm : lowest m = 2%nat) by (unfold lowest; lia).
  exists (bound N), (fun k => aP (w k)), (fun k => aV (w k)), (fun k => aQ (w k)).
  assert (L1 : (1 <= lowest m)%nat) by (unfold lowest; lia).
  assert (Hs : forall n, Z.odd (Z.of_nat n) <> false -> kron 2 n = 0).
  { intros n Hn. unfold kron. destruct (Nat.eqb_spec 2 n) as [<-|_]; [exfalso; apply Hn; reflexivity|reflexivity]. }
  pose proof (W_parity (phys m) (lowest m) N L1 (kron 2) (fun _ => 0) false Hs (fun _ _ => eq_refl)) as Pa.
  split; [|split; [|split]].
  - intros j kappa a b d f Hj Ha Hb Hd H0 Hr k. exact (chain N m j kappa a b d (kron 2) (fun _ => 0) f Hj Ha Hb Hd H0 Hr k).
  - apply (collected N m (kron 2) (fun _ => 0) false aP); intros.
    + apply W_low; assumption.
    + apply Pa. assumption.
    + rewrite Lm. apply (total_Z N m n p q Hm ltac:(assumption) ltac:(assumption)).
  - apply (collected N m (kron 2) (fun _ => 0) false aV); intros.
    + apply W_low; assumption.
    + apply Pa. assumption.
    + rewrite Lm. apply (total_Z N m n p q Hm ltac:(assumption) ltac:(assumption)).
  - apply (collected N m (kron 2) (fun _ => 0) true aQ); intros.
    + apply W_low; assumption.
    + apply Pa. destruct (odd_at k n p q); congruence.
    + rewrite Lm. apply (total_Z N m n p q Hm ltac:(assumption) ltac:(assumption)).
Qed.
Print Assumptions C77_z.

(** Whatever flow leaves sphere 1 first, there are such reflections, and only one
    of each order (in the order m and the degrees up to N). *)
Definition answer (N : nat) (a r : R) (f : six) : six :=
  mkSix (fun j n m => - invert_A a n (translate_D N r f j n m) (translate_F N r f j n m))
        (fun j n m => - (a ^ (2 * n + 1) * translate_E N r f j n m))
        (fun j n m => - invert_C a n (translate_D N r f j n m) (translate_F N r f j n m)) zero_coef zero_coef zero_coef.
Lemma no_slip' n a d e f : (1 <= n)%nat -> 0 < a -> cancels n a (- invert_A a n d f) (- (a ^ (2 * n + 1) * e)) (- invert_C a n d f) d e f.
Proof.
  intros Hn Ha h g x i Hi Hx. unfold outside, inside. rewrite cross_far by exact Hi. rewrite Hx. unfold far_grad, invert_A, invert_C.
  assert (P : a ^ (2 * n + 1) = a ^ (2 * n - 1) * a ^ 2) by (rewrite <- pow_add; f_equal; lia).
  assert (P3 : a ^ (2 * n + 3) = a ^ (2 * n - 1) * a ^ 4) by (rewrite <- pow_add; f_equal; lia).
  assert (Q : 0 < a ^ (2 * n - 1)) by (apply pow_lt; exact Ha). rewrite P, P3. set (q := a ^ (2 * n - 1)) in *. clearbody q.
  assert (1 <= INR n) by (change 1 with (INR 1); apply le_INR; exact Hn). set (M := INR n) in *. clearbody M.
  field. repeat split; lra.
Qed.
Lemma answered N m a r f : 0 < a -> reflected N m a r f (answer N a r f).
Proof. intros Ha j n Hj Hn. apply no_slip'; [unfold lowest in Hn; lia|exact Ha]. Qed.
Theorem C77_exist N m a b d f0 : 0 < a -> 0 < b ->
  (exists f : nat -> six, f 0%nat = f0 /\ forall k, reflected N m (side (S k) a b) (side k d (- d)) (f k) (f (S k))) /\
  forall r f f' f'' j n, reflected N m a r f f' -> reflected N m a r f f'' -> (j = 1 \/ j = 2)%nat -> (lowest m <= n <= N)%nat ->
  cA f' j n m = cA f'' j n m /\ cB f' j n m = cB f'' j n m /\ cC f' j n m = cC f'' j n m.
Proof.
  intros Ha Hb. split.
  - exists (fun k => nat_rect (fun _ => six) f0 (fun k f => answer N (side (S k) a b) (side k d (- d)) f) k). split; [reflexivity|].
    intros k. cbn [nat_rect]. apply answered. unfold side. destruct (Nat.even (S k)); assumption.
  - intros r f f' f'' j n R1 R2 Hj Hn. assert (H1 : (1 <= n)%nat) by (unfold lowest in Hn; lia).
    destruct (cancels_unique n a _ _ _ _ _ _ H1 Ha (R1 j n Hj Hn)) as (A1 & B1 & C1).
    destruct (cancels_unique n a _ _ _ _ _ _ H1 Ha (R2 j n Hj Hn)) as (A2 & B2 & C2).
    rewrite A1, A2, B1, B2, C1, C2. repeat split; reflexivity.
Qed.
Print Assumptions C77_exist.

(** The first flows: a sphere moving with velocity (2/3) kappa u (start P = kron 1),
    turning (start Q = kron 1) and straining with S kappa / (5 a) (kron 2). *)
Theorem C77_first N m j kappa a f u S x i :
  (lowest m <= 2)%nat -> (2 <= N)%nat -> 0 < a -> dot3 x x = a ^ 2 -> (i < 3)%nat -> (j = 1 \/ j = 2)%nat ->
  let h1 := H 1 m * dot3 u x in let g1 := vscal (H 1 m) u in
  let h2 := H 2 m * quadratic S x in let g2 := vscal (H 2 m) (fun i => 2 * rsum 3 (fun k => S i k * x k)) in
  ((Z.abs m <= 1)%Z -> carries N m j kappa 0 a (kron 1) (kron 1) (fun _ => 0) f ->
     outside 1 (cA f j 1%nat m) 0 (cC f j 1%nat m) a h1 g1 x i = 2 / 3 * kappa * u i) /\
  ((Z.abs m <= 1)%Z -> carries N m j kappa 0 a (fun _ => 0) (fun _ => 0) (kron 1) f ->
     outside 1 0 (cB f (other j) 1%nat m) 0 a h1 g1 x i = - (part_sign j * IZR (Z.sgn m) * (2 / 3) * kappa / a) * cross u x i) /\
  (carries N m j kappa 0 a (kron 2) (kron 2) (fun _ => 0) f ->
     outside 2 (cA f j 2%nat m) 0 (cC f j 2%nat m) a h2 g2 x i = kappa / (5 * a) * rsum 3 (fun k => S i k * x k)).
Proof.
  intros Hm N2 Ha Hx Hi Hj h1 g1 h2 g2. split; [|split].
  - intros Hm1 Hc. destruct (Hc 1%nat ltac:(unfold lowest in *; lia)) as (EC & EA & _). unfold mirror, kron in EC, EA. cbn [Nat.even Nat.eqb INR Nat.add] in EC, EA.
    unfold outside. rewrite Hx. unfold far_grad, h1, g1, vscal. cbn [Nat.mul Nat.add INR].
    set (C := cC f j 1%nat m) in *. set (A := cA f j 1%nat m) in *. set (q := H 1 m) in *. set (z := dot3 u x). clearbody C A q z.
    transitivity (((A * q) / a ^ 3 + (C * q) / (2 * a)) * u i + (- (3) * (A * q) / a ^ 5 + (C * q) / (2 * a ^ 3)) * z * x i); [field; lra|].
    rewrite EC, EA. field. lra.
  - intros Hm1 Hc. destruct (Hc 1%nat ltac:(unfold lowest in *; lia)) as (_ & _ & EB). unfold mirror, side, kron in EB. cbn [Nat.even Nat.eqb INR Nat.add] in EB.
    assert (UQ : unit_Q m = 2 / 3) by (unfold unit_Q; destruct (Z.eqb_spec (Z.abs m) 2); [lia|reflexivity]). rewrite UQ in EB.
    unfold outside. rewrite cross_far by exact Hi. set (B := cB f (other j) 1%nat m) in *.
    replace (cross g1 x i) with (H 1 m * cross u x i) by (unfold g1, cross, vscal, v3; destruct i as [|[|[|i]]]; [| | |lia]; ring).
    cbn [Nat.mul Nat.add]. transitivity ((B * H 1 m) * cross u x i / a ^ 3); [unfold Rdiv; ring|]. rewrite EB. field. lra.
  - intros Hc. destruct (Hc 2%nat ltac:(lia)) as (EC & EA & _). unfold mirror, kron in EC, EA. cbn [Nat.even Nat.eqb INR Nat.add] in EC, EA.
    unfold outside. rewrite Hx. unfold far_grad, h2, g2, vscal. cbn [Nat.mul Nat.add INR].
    set (C := cC f j 2%nat m) in *. set (A := cA f j 2%nat m) in *. set (q := H 2 m) in *. set (z := quadratic S x). set (y := rsum 3 _). clearbody C A q z y.
    transitivity ((A * q) / a ^ 5 * (2 * y) + (- (5) * (A * q) / a ^ 7 + (C * q) / (2 * a ^ 5)) * z * x i); [field; lra|].
    rewrite EC, EA. field. lra.
Qed.
Print Assumptions C77_first.

(** Force, torque and first moment of every reflected flow. *)
Theorem C77_moments N m j kappa k b P V Q f u S x r i :
  (lowest m <= 2)%nat -> (2 <= N)%nat -> 0 < r -> dot3 x x = r ^ 2 -> (i < 3)%nat -> carries N m j kappa k b P V Q f ->
  let h1 := H 1 m * dot3 u x in let g1 := vscal (H 1 m) u in
  let h2 := H 2 m * quadratic S x in let g2 := vscal (H 2 m) (fun i => 2 * rsum 3 (fun k => S i k * x k)) in
  ((Z.abs m <= 1)%Z ->
     outside 1 0 0 (cC f j 1%nat m) r h1 g1 x i = stokeslet (vscal (4 * PI * kappa * mirror k 1 m * b * P 1%nat) u) x r i /\
     outside 1 0 (cB f (other j) 1%nat m) 0 r h1 g1 x i =
       rotlet (vscal (- (16 / 3 * PI * part_sign j * IZR (Z.sgn m) * side k 1 (- (1)) * kappa * mirror k 1 m * b ^ 2 * Q 1%nat)) u) x r i) /\
  outside 2 0 0 (cC f j 2%nat m) r h2 g2 x i = stresslet (fun i k' => 4 / 3 * PI * kappa * mirror k 2 m * b ^ 2 * P 2%nat * S i k') x r i.
Proof.
  intros Hm N2 Hr Hx Hi Hc h1 g1 h2 g2. pose proof PI_RGT_0 as Pp. split.
  - intros Hm1. destruct (Hc 1%nat ltac:(unfold lowest in *; lia)) as (EC & _ & EB). split.
    + unfold outside. rewrite Hx. unfold far_grad, h1, g1, stokeslet, vscal. cbn [Nat.mul Nat.add INR].
      set (C := cC f j 1%nat m) in *. set (q := H 1 m) in *.
      replace (dot3 (fun i0 => 4 * PI * kappa * mirror k 1 m * b * P 1%nat * u i0) x) with (4 * PI * (kappa * mirror k 1 m * b ^ 1 * P 1%nat) * dot3 u x) by (unfold dot3; ring).
      replace (4 * PI * kappa * mirror k 1 m * b * P 1%nat * u i) with (4 * PI * (kappa * mirror k 1 m * b ^ 1 * P 1%nat) * u i) by ring.
      rewrite <- EC. field. lra.
    + assert (UQ : unit_Q m = 2 / 3) by (unfold unit_Q; destruct (Z.eqb_spec (Z.abs m) 2); [lia|reflexivity]). rewrite UQ in EB.
      unfold outside. rewrite cross_far by exact Hi. set (B := cB f (other j) 1%nat m) in *.
      replace (cross g1 x i) with (H 1 m * cross u x i) by (unfold g1, cross, vscal, v3; destruct i as [|[|[|i]]]; [| | |lia]; ring).
      unfold rotlet. set (t := - (16 / 3 * _ * _ * _ * _ * _ * _ * _ * _)).
      replace (cross (vscal t u) x i) with (t * cross u x i) by (unfold cross, vscal, v3; destruct i as [|[|[|i]]]; [| | |lia]; ring).
      cbn [Nat.mul Nat.add]. transitivity ((B * H 1 m) * cross u x i / r ^ 3); [unfold Rdiv; ring|]. rewrite EB. unfold t. change (b ^ (1 + 1)) with (b ^ 2).
      set (ps := part_sign j). set (sg := IZR (Z.sgn m)). set (sd := side k 1 (- (1))). clearbody ps sg sd. field. lra.
  - destruct (Hc 2%nat ltac:(lia)) as (EC & _).
    unfold outside. rewrite Hx. unfold far_grad, h2, g2, stresslet, vscal. cbn [Nat.mul Nat.add INR].
    set (C := cC f j 2%nat m) in *. set (q := H 2 m) in *.
    replace (quadratic (fun i k' => 4 / 3 * PI * kappa * mirror k 2 m * b ^ 2 * P 2%nat * S i k') x) with (4 / 3 * PI * (kappa * mirror k 2 m * b ^ 2 * P 2%nat) * quadratic S x) by (unfold quadratic; cbn [rsum]; ring).
    rewrite <- EC. field. lra.
Qed.
Print Assumptions C77_moments.

(** The sums of one order in 1/d: lambda = b/a and s' = 2 d/(a + b). *)
Theorem C77_orders P n l e a b d : 0 < a -> 0 < b -> 0 < d ->
  2 ^ l * diagonal P n l e (b / a) / ((1 + b / a) * (2 * d / (a + b))) ^ l
  = (b / a) ^ e * rsum (S l) (fun q => P n (Z.of_nat l - Z.of_nat q)%Z (Z.of_nat q) * (a / d) ^ (l - q) * (b / d) ^ q).
Proof.
  intros Ha Hb Hd. unfold diagonal, range. replace (Z.to_nat 0) with 0%nat by reflexivity. replace (Z.to_nat (Z.of_nat l + 1 - 0)) with (S l) by lia.
  rewrite lsum_seq. replace ((1 + b / a) * (2 * d / (a + b))) with (2 * (d / a)) by (field; split; lra).
  rewrite Rpow_mult_distr. assert (P2 : 2 ^ l <> 0) by (apply pow_nonzero; lra). assert (P3 : (d / a) ^ l <> 0) by (apply pow_nonzero; unfold Rdiv; apply Rmult_integral_contrapositive_currified; [lra|apply Rinv_neq_0_compat; lra]).
  transitivity (/ (d / a) ^ l * rsum (S l) (fun i => P n (Z.of_nat l - Z.of_nat (0 + i))%Z (Z.of_nat (0 + i)) * (b / a) ^ (0 + i + e))).
  { field. split; assumption. }
  rewrite <- !rsum_scal_l. apply rsum_ext. intros q Hq. cbn [Nat.add]. rewrite pow_add.
  assert (El : (d / a) ^ l = (d / a) ^ (l - q) * (d / a) ^ q) by (rewrite <- pow_add; f_equal; lia). rewrite El. clear El P3. unfold Rdiv. rewrite !Rpow_mult_distr, !pow_inv. 
  assert (A1 : a ^ q <> 0) by (apply pow_nonzero; lra). assert (A2 : a ^ (l - q) <> 0) by (apply pow_nonzero; lra).
  assert (D1 : d ^ q <> 0) by (apply pow_nonzero; lra). assert (D2 : d ^ (l - q) <> 0) by (apply pow_nonzero; lra). assert (Ae : a ^ e <> 0) by (apply pow_nonzero; lra).
  field. repeat split; assumption.
Qed.
Print Assumptions C77_orders.

(** A sphere of radius 1 moving towards a fixed one of radius 2, at distance 4. *)
Definition mover : six :=
  mkSix (fun j n m => (if Nat.eqb n 1 then / 6 else 0) / H n m) zero_coef (fun j n m => kron 1 n / H n m) zero_coef zero_coef zero_coef.
Lemma mover_carries N : carries N 0 1 1 0 1 (kron 1) (kron 1) (fun _ => 0) mover.
Proof.
  intros n Hn. pose proof (H_pos n 0) as Hp. unfold mirror, mover, zero_coef. cbn [cA cB cC Nat.even Z.sgn other]. rewrite !pow1.
  pose proof (pos_INR n) as Pn. set (q := H n 0) in *. clearbody q. split; [field; lra|]. split; [|ring].
  unfold kron. rewrite (Nat.eqb_sym 1 n). destruct (Nat.eqb_spec n 1) as [->|_]; cbn [INR]; field; lra.
Qed.
Example C77_example : exists f : nat -> six,
  carries 3 0 1 1 0 1 (kron 1) (kron 1) (fun _ => 0) (f 0%nat) /\
  (forall k, reflected 3 0 (side (S k) 1 2) (side k 4 (- (4))) (f k) (f (S k))) /\
  Pxa 1 0 1 = 3 / 2 /\ Pxa 1 1 1 = 9 / 4.
Proof.
  destruct (C77_exist 3 0 1 2 4 mover ltac:(lra) ltac:(lra)) as [[f [E0 Hf]] _]. exists f. rewrite E0. split; [apply mover_carries|]. split; [exact Hf|].
  split; cbv -[Rplus Rmult Rminus Ropp Rinv Rdiv pow INR IZR]; cbn [INR pow]; field.
Qed.
(** The force on it to the second order in 1/d: 6 pi (1 + (9/4) (1/4) (2/4)). *)
Example C77_example_orders : 2 ^ 2 * diagonal Pxa 1 2 0 2 / ((1 + 2) * (8 / 3)) ^ 2 = 9 / 4 * (1 / 4) * (2 / 4).
Proof.
  pose proof (C77_orders Pxa 1 2 0 1 2 4 ltac:(lra) ltac:(lra) ltac:(lra)) as E.
  replace (2 / 1) with 2 in E by lra. replace (2 * 4 / (1 + 2)) with (8 / 3) in E by lra. rewrite E.
  cbv -[Rplus Rmult Rminus Ropp Rinv Rdiv pow INR IZR]. cbn [INR pow]. field.
Qed.
