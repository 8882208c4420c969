(** C90: the series of the near-field functions are the forces, torques and
    stresslets of two spheres one of which moves, turns or strains. *)
From Coq Require Import Reals List ZArith Arith Bool Lra Lia.
From Verif Require Import Base Model_Mob Model_Close Model_Reflect Spec_Reflect Spec_Translate Spec_Recur Spec_Moments Model_Nearfield
  Proof_Nearfield1 Proof_Nearfield2 Proof_Reflect3 Proof_Recur1 Proof_Recur2 Proof_Recur3 Proof_Moments Prop_Recur.
Import ListNotations.
Local Open Scope R_scope.

(** What the strengths of a flow are: those of a point force, a point torque and a
    symmetric moment. *)
Theorem C90_strengths f j m x r i : 0 < r -> dot3 x x = r ^ 2 -> (i < 3)%nat ->
  let u := axis j m in let u' := axis (other j) m in let S := sym_axis j m in
  outside 1 0 0 (cC f j 1%nat m) r (H 1 m * dot3 u x) (vscal (H 1 m) u) x i = stokeslet (vscal (force_of j m f) u) x r i /\
  ((j = 1 \/ j = 2)%nat -> Z.abs m = 1%Z ->
    outside 1 0 (cB f (other j) 1%nat m) 0 r (H 1 m * dot3 u' x) (vscal (H 1 m) u') x i = rotlet (vscal (torque_of j m f) (cross ex u)) x r i) /\
  outside 2 0 0 (cC f j 2%nat m) r (H 2 m * quadratic S x) (vscal (H 2 m) (fun i => 2 * rsum 3 (fun k => S i k * x k))) x i = stresslet (fun i k => stresslet_of j m f * S i k) x r i.
Proof.
  intros Hr Hx Hi u u' S. pose proof PI_RGT_0 as Pp. split; [|split].
  - unfold outside. rewrite Hx. unfold far_grad, stokeslet, vscal, force_of. cbn [Nat.mul Nat.add INR].
    set (C := cC f j 1%nat m). set (q := H 1 m).
    replace (dot3 (fun i0 => 4 * PI * (C * q) * u i0) x) with (4 * PI * (C * q) * dot3 u x) by (unfold dot3; ring).
    field. lra.
  - intros Hj Hm. unfold outside. rewrite cross_far by exact Hi. unfold rotlet, torque_of. set (B := cB f (other j) 1%nat m). set (q := H 1 m).
    assert (Eu : forall l, (l < 3)%nat -> u' l = part_sign j * IZR (Z.sgn m) * cross ex u l).
    { intros l Hl. unfold u, u'. destruct m as [|[p|p|]|[p|p|]]; cbn in Hm; try discriminate; destruct Hj as [-> | ->]; cbn [axis other Nat.eqb part_sign Z.sgn]; unfold cross, ex, v3; destruct l as [|[|[|l]]]; try lia; cbn; ring. }
    assert (Ec : cross (vscal q u') x i = q * (part_sign j * IZR (Z.sgn m)) * cross (cross ex u) x i).
    { unfold cross at 1 2, vscal, v3. rewrite !Eu by lia. destruct i as [|[|[|i]]]; [| | |lia]; ring. }
    assert (Et : forall t, cross (vscal t (cross ex u)) x i = t * cross (cross ex u) x i).
    { intros t. unfold cross at 1 3, vscal, v3. destruct i as [|[|[|i]]]; [| | |lia]; ring. }
    rewrite Ec, Et. cbn [Nat.mul Nat.add]. set (z := IZR (Z.sgn m)). set (y := part_sign j). clearbody z y. change (INR 1) with 1. field. repeat split; lra.
  - unfold outside. rewrite Hx. unfold far_grad, stresslet, vscal, stresslet_of. cbn [Nat.mul Nat.add INR].
    set (C := cC f j 2%nat m). set (q := H 2 m).
    replace (quadratic (fun i k' => 4 / 3 * PI * (C * q) * S i k') x) with (4 / 3 * PI * (C * q) * quadratic S x) by (unfold quadratic; cbn [rsum]; ring).
    field. lra.
Qed.
Print Assumptions C90_strengths.

(** What the first flows are on the surface of the sphere of radius c: a velocity,
    a rotation, a straining motion. *)
Theorem C90_motions N m j c U f x i : (j = 1 \/ j = 2)%nat -> (lowest m <= 2 <= N)%nat -> 0 < c -> dot3 x x = c ^ 2 -> (i < 3)%nat ->
  let u := axis j m in let u' := axis (other j) m in let S := sym_axis j m in
  (moves N m j c U f -> (Z.abs m <= 1)%Z -> outside 1 (cA f j 1%nat m) 0 (cC f j 1%nat m) c (H 1 m * dot3 u x) (vscal (H 1 m) u) x i = U * u i) /\
  (turns N m j c U f -> Z.abs m = 1%Z -> outside 1 0 (cB f (other j) 1%nat m) 0 c (H 1 m * dot3 u' x) (vscal (H 1 m) u') x i = U * cross (cross ex u) x i) /\
  (strains N m j c U f -> outside 2 (cA f j 2%nat m) 0 (cC f j 2%nat m) c (H 2 m * quadratic S x) (vscal (H 2 m) (fun i => 2 * rsum 3 (fun k => S i k * x k))) x i
     = U * rsum 3 (fun k => S i k * x k)).
Proof.
  intros Hj Hn Hc Hx Hi u u' S. split; [|split].
  - intros Hs Hm. destruct (Hs 1%nat ltac:(unfold lowest in *; lia)) as (C1 & _). specialize (C1 (H 1 m * dot3 u x) (vscal (H 1 m) u) x i Hi Hx).
    pose proof (H_pos 1 m) as Hp. apply Rplus_opp_r_uniq in C1. rewrite <- (Ropp_involutive (outside 1 _ _ _ _ _ _ _ _)), <- C1.
    unfold inside, only, vscal. cbn [Nat.eqb INR]. field. repeat split; lra.
  - intros Hs Hm. destruct (Hs 1%nat ltac:(unfold lowest in *; lia)) as (_ & C2). specialize (C2 (H 1 m * dot3 u' x) (vscal (H 1 m) u') x i Hi Hx).
    pose proof (H_pos 1 m) as Hp. apply Rplus_opp_r_uniq in C2. rewrite <- (Ropp_involutive (outside 1 _ _ _ _ _ _ _ _)), <- C2.
    assert (Eu : forall l, (l < 3)%nat -> u' l = part_sign j * IZR (Z.sgn m) * cross ex u l).
    { intros l Hl. unfold u, u'. destruct m as [|[p|p|]|[p|p|]]; cbn in Hm; try discriminate; destruct Hj as [-> | ->]; cbn [axis other Nat.eqb part_sign Z.sgn]; unfold cross, ex, v3; destruct l as [|[|[|l]]]; try lia; cbn; ring. }
    assert (Ec : cross (vscal (H 1 m) u') x i = H 1 m * (part_sign j * IZR (Z.sgn m)) * cross (cross ex u) x i).
    { unfold cross at 1 2, vscal, v3. rewrite !Eu by lia. destruct i as [|[|[|i]]]; [| | |lia]; ring. }
    unfold inside, only. cbn [Nat.eqb INR]. rewrite Ec. pose proof (sign_sq j m Hj Hm) as Q. set (t := part_sign j * IZR (Z.sgn m)) in *. clearbody t.
    transitivity (t * t * U * cross (cross ex u) x i); [field; repeat split; lra|]. rewrite Q. ring.
  - intros Hs. destruct (Hs 2%nat ltac:(lia)) as (C1 & _). specialize (C1 (H 2 m * quadratic S x) (vscal (H 2 m) (fun i => 2 * rsum 3 (fun k => S i k * x k))) x i Hi Hx).
    pose proof (H_pos 2 m) as Hp. apply Rplus_opp_r_uniq in C1. rewrite <- (Ropp_involutive (outside 2 _ _ _ _ _ _ _ _)), <- C1.
    unfold inside, only, vscal. cbn [Nat.eqb INR]. set (y := rsum 3 _). field. repeat split; lra.
Qed.
Print Assumptions C90_motions.

(** Those are the harmonics of degrees 1 and 2 about the line of centres. *)
Theorem C90_axes h j m x : first_harmonics H h -> (j = 1 \/ j = 2)%nat ->
  ((Z.abs m <= 1)%Z -> hv h j 1%nat m x = H 1 m * dot3 (axis j m) x) /\ ((Z.abs m <= 2)%Z -> hv h j 2%nat m x = H 2 m * quadratic (sym_axis j m) x).
Proof.
  intros Hh Hj. destruct (Hh x) as ((A0 & A0') & _ & (A1 & A1') & _ & (A2 & A2') & _ & (B0 & B0') & _ & (B1 & B1') & _ & (B2 & B2') & _ & (B3 & B3') & _ & (B4 & B4') & _).
  split; intros Hm.
  - assert (M : (m = 0 \/ m = 1 \/ m = -1)%Z) by lia.
    destruct M as [-> |[-> | ->]]; destruct Hj as [-> | ->]; (rewrite A0 || rewrite A0' || rewrite A1 || rewrite A1' || rewrite A2 || rewrite A2'); cbn [axis Nat.eqb]; unfold dot3, ex, v3; ring.
  - assert (M : (m = 0 \/ m = 1 \/ m = -1 \/ m = 2 \/ m = -2)%Z) by lia.
    destruct M as [-> |[-> |[-> |[-> | ->]]]]; destruct Hj as [-> | ->]; (rewrite B0 || rewrite B0' || rewrite B1 || rewrite B1' || rewrite B2 || rewrite B2' || rewrite B3 || rewrite B3' || rewrite B4 || rewrite B4');
      cbn [sym_axis axis Nat.eqb]; unfold quadratic, traceless, ex, v3; cbn [rsum]; field.
Qed.
Print Assumptions C90_axes.

(** ** The recurrences as sums over the reflections *)
Lemma kron_1 n : kron 1 n <> 0 -> Z.odd (Z.of_nat n) = true.
Proof. unfold kron. destruct (Nat.eqb_spec 1 n) as [<-|_]; [reflexivity|]. intros Hk. exfalso. apply Hk. reflexivity. Qed.
Lemma kron_2 n : kron 2 n <> 0 -> Z.odd (Z.of_nat n) = false.
Proof. unfold kron. destruct (Nat.eqb_spec 2 n) as [<-|_]; [reflexivity|]. intros Hk. exfalso. apply Hk. reflexivity. Qed.
Lemma none n b : (fun _ : nat => 0) n <> 0 -> Z.odd (Z.of_nat n) = b. Proof. intros Hn. exfalso. apply Hn. reflexivity. Qed.
Lemma coll_X N start e : (forall n, start n <> 0 -> Z.odd (Z.of_nat n) = e) ->
  collects N e (fun n p q => Px start (enough p q) n p q) (fun k => aP (W (phys 0) (lowest 0) N start (fun _ => 0) k)).
Proof.
  intros Hs. assert (L1 : (1 <= lowest 0)%nat) by (unfold lowest; lia).
  pose proof (W_parity (phys 0) (lowest 0) N L1 start (fun _ => 0) e (start_0 _ _ Hs) (fun _ _ => eq_refl)) as Pa.
  apply (collected N 0 start (fun _ => 0) e aP); intros.
  - apply W_low; assumption.
  - apply Pa. assumption.
  - apply (proj1 (total_X N start n p q ltac:(assumption) ltac:(assumption))).
Qed.
Lemma coll_Y N m start startQ e : Z.abs m = 1%Z -> (forall n, start n <> 0 -> Z.odd (Z.of_nat n) = e) -> (forall n, startQ n <> 0 -> Z.odd (Z.of_nat n) = negb e) ->
  collects N e (fun n p q => Py start startQ (enough p q) n p q) (fun k => aP (W (phys m) (lowest m) N start startQ k)) /\
  collects N (negb e) (fun n p q => Qy start startQ (enough p q) n p q) (fun k => aQ (W (phys m) (lowest m) N start startQ k)).
Proof.
  intros Hm Hs HQ. assert (L1 : (1 <= lowest m)%nat) by (unfold lowest; lia). assert (Lm : lowest m = 1%nat) by (unfold lowest; lia).
  pose proof (W_parity (phys m) (lowest m) N L1 start startQ e (start_0 _ _ Hs) (start_1 _ _ HQ)) as Pa. split.
  - apply (collected N m start startQ e aP); intros.
    + apply W_low; assumption.
    + apply Pa. assumption.
    + rewrite Lm. apply (total_Y N start startQ m n p q Hm ltac:(assumption) ltac:(assumption)).
  - apply (collected N m start startQ (negb e) aQ); intros.
    + apply W_low; assumption.
    + apply Pa. destruct (odd_at k n p q), e; cbn [negb] in *; congruence.
    + rewrite Lm. apply (total_Y N start startQ m n p q Hm ltac:(assumption) ltac:(assumption)).
Qed.
Lemma coll_Z N m : Z.abs m = 2%Z -> collects N false (fun n p q => Pz (enough p q) n p q) (fun k => aP (W (phys m) (lowest m) N (kron 2) (fun _ => 0) k)).
Proof.
  intros Hm. assert (L1 : (1 <= lowest m)%nat) by (unfold lowest; lia). assert (Lm : lowest m = 2%nat) by (unfold lowest; lia).
  pose proof (W_parity (phys m) (lowest m) N L1 (kron 2) (fun _ => 0) false (start_0 _ _ kron_2) (fun _ _ => eq_refl)) as Pa.
  apply (collected N m (kron 2) (fun _ => 0) false aP); intros.
  - apply W_low; assumption.
  - apply Pa. assumption.
  - rewrite Lm. apply (total_Z N m n p q Hm ltac:(assumption) ltac:(assumption)).
Qed.

(** ** The moments.  [own = true]: of the sphere that moves; [false]: of the other
    one.  a is the radius of the sphere the moment is of, b that of the other. *)
Lemma bound_fit sign ua U : 0 < ua -> Rabs sign = 1 -> Rabs (sign * ua * U) = ua * Rabs U.
Proof. intros Ha Hs. rewrite !Rabs_mult, (Rabs_pos_eq ua), Hs by lra. ring. Qed.
Lemma P_is (motion : nat -> Z -> nat -> R -> R -> six -> Prop) (kap : R -> R -> R) N K m stP stQ e n own ev P phi F eps c0 unit sign :
  (K <= N)%nat -> (lowest m <= n <= N)%nat -> (eps <= 1)%nat -> Rabs sign = 1 -> (forall a, 0 < a -> 0 < unit a) ->
  (forall l lam, Nat.even l = ev -> F l lam = phi * (2 ^ l * diagonal P n l eps lam)) ->
  collects N e P (fun k => aP (W (phys m) (lowest m) N stP stQ k)) -> ev = parity_of own e n ->
  (forall j c U f, (j = 1 \/ j = 2)%nat -> 0 < c -> motion N m j c U f -> carries N m j (kap U c) 0 c stP stP stQ f) ->
  (forall a b U, 0 < a -> 0 < b -> c0 * (kap U (mover_radius own a b) * mir own n m * a ^ n) = sign * unit a * U * phi * (b / a) ^ eps) ->
  moment_is motion (fun j m g => c0 * (cC g j n m * H n m)) N K m own ev F unit sign.
Proof.
  intros HK Hn He Hs Hu HF Hc Hev Hm Hx T HT. destruct (total_P N K T m stP stQ e n own P HK HT Hn phi ev F eps He HF Hc Hev) as (E & HE).
  exists E. intros j a b d U f Hj Ha Hb Hd H0 Hr. rewrite <- (bound_fit sign (unit a) U (Hu a Ha) Hs).
  apply (HE j a b d f (kap U (mover_radius own a b)) c0 (sign * unit a * U) Hj Ha Hb Hd); [|exact Hr|apply Hx; assumption].
  apply Hm; [exact Hj|apply mover_pos; assumption|exact H0].
Qed.
Lemma Q_is (motion : nat -> Z -> nat -> R -> R -> six -> Prop) (kap : R -> R -> R) N K m stP stQ e n own ev P phi F eps c0 unit sign :
  (K <= N)%nat -> (lowest m <= n <= N)%nat -> (eps <= 1)%nat -> Rabs sign = 1 -> (forall a, 0 < a -> 0 < unit a) -> Z.abs m = 1%Z ->
  (forall l lam, Nat.even l = ev -> F l lam = phi * (2 ^ l * diagonal P n l eps lam)) ->
  collects N e P (fun k => aQ (W (phys m) (lowest m) N stP stQ k)) -> ev = parity_of own e n ->
  (forall j c U f, (j = 1 \/ j = 2)%nat -> 0 < c -> motion N m j c U f -> carries N m j (kap U c) 0 c stP stP stQ f) ->
  (forall a b U, 0 < a -> 0 < b -> - c0 * ((if own then 1 else - (1)) * (2 / 3) * kap U (mover_radius own a b) * mir own n m * a ^ (n + 1)) = sign * unit a * U * phi * (b / a) ^ eps) ->
  moment_is motion (fun j m g => c0 * (part_sign j * IZR (Z.sgn m) * (cB g (other j) n m * H n m))) N K m own ev F unit sign.
Proof.
  intros HK Hn He Hs Hu Hm1 HF Hc Hev Hm Hx T HT. destruct (total_Q N K T m stP stQ e n own P HK HT Hn phi ev F eps He HF Hc Hev) as (E & HE).
  exists E. intros j a b d U f Hj Ha Hb Hd H0 Hr. rewrite <- (bound_fit sign (unit a) U (Hu a Ha) Hs).
  replace (total_on own T (fun g => c0 * (part_sign j * IZR (Z.sgn m) * (cB g (other j) n m * H n m))) f)
    with (total_on own T (fun g => c0 * (part_sign j * IZR (Z.sgn m)) * (cB g (other j) n m * H n m)) f).
  2:{ unfold total_on. apply rsum_ext. intros k _. destruct (Bool.eqb _ _); [ring|reflexivity]. }
  apply (HE j a b d f (kap U (mover_radius own a b)) (c0 * (part_sign j * IZR (Z.sgn m))) (sign * unit a * U) Hj Ha Hb Hd); [|exact Hr|].
  - apply Hm; [exact Hj|apply mover_pos; assumption|exact H0].
  - rewrite <- (Hx a b U Ha Hb), (unit_Q_1 m Hm1). pose proof (sign_sq j m Hj Hm1) as Q. set (t := part_sign j * IZR (Z.sgn m)) in *.
    set (o := if own then 1 else - (1)). set (kk := kap U (mover_radius own a b)). clearbody t o kk.
    transitivity (- c0 * (t * t) * (o * (2 / 3) * kk * mir own n m * a ^ (n + 1))); [ring|]. rewrite Q. ring.
Qed.
Lemma abs_1 : Rabs 1 = 1. Proof. apply Rabs_R1. Qed.
Lemma abs_m1 : Rabs (- (1)) = 1. Proof. rewrite Rabs_Ropp. apply Rabs_R1. Qed.
Lemma even_mod l : Nat.even l = true -> (l mod 2 = 0)%nat.
Proof. intros E. apply Nat.even_spec in E. destruct E as [q ->]. rewrite Nat.mul_comm. apply Nat.mod_mul. lia. Qed.
Lemma odd_mod l : Nat.even l = false -> (l mod 2 = 1)%nat.
Proof. intros E. rewrite <- Nat.negb_odd in E. apply Bool.negb_false_iff in E. apply Nat.odd_spec in E. destruct E as [q ->]. rewrite (Nat.mul_comm 2 q), Nat.add_comm, Nat.mod_add by lia. reflexivity. Qed.
Lemma abs_nat_1 m : Z.abs m = 1%Z -> Z.abs_nat m = 1%nat /\ Z.eqb m 0 = false.
Proof. intros Hm. split; [lia|]. apply Z.eqb_neq. lia. Qed.
Lemma abs_nat_2 m : Z.abs m = 2%Z -> Z.abs_nat m = 2%nat /\ Z.eqb m 0 = false.
Proof. intros Hm. split; [lia|]. apply Z.eqb_neq. lia. Qed.
Ltac unit_pos := let p := fresh in let Hp := fresh in intros a Ha; pose proof PI_RGT_0 as Hp; set (p := PI) in *; clearbody p; repeat apply Rmult_lt_0_compat; try lra; apply pow_lt; exact Ha.
Ltac values := intros a b U Ha Hb; cbn [mover_radius]; unfold mir, mirror; change (Z.abs_nat 0) with 0%nat; cbn [Nat.even Nat.add pow Z.eqb]; field; lra.

(** Motion along the line of centres: force 6 pi a U X11A and 6 pi a U X12A (C78:
    X11A is the sum over even powers, X12A minus that over odd ones). *)
Theorem C90_XA N K : (1 <= N)%nat -> (K <= N)%nat -> 
  moment_is moves force_of N K 0 true true Fxa (fun a => 6 * PI * a) 1 /\ moment_is moves force_of N K 0 false false Fxa (fun a => 6 * PI * a) (- (1)).
Proof.
  intros HN HK. assert (Hn : (lowest 0 <= 1 <= N)%nat) by (unfold lowest; lia). split.
  - refine (P_is moves (fun U _ => 3 / 2 * U) N K 0 (kron 1) (fun _ => 0) true 1 true true Pxa 1 Fxa 0 (4 * PI) _ 1 HK Hn (Nat.le_0_l 1) abs_1 _ _ (coll_X N (kron 1) true kron_1) eq_refl (moves_carries N 0) _).
    + unit_pos.
    + intros l lam Hl. unfold Fxa. first [ring|field].
    + values.
  - refine (P_is moves (fun U _ => 3 / 2 * U) N K 0 (kron 1) (fun _ => 0) true 1 false false Pxa 1 Fxa 0 (4 * PI) _ (- (1)) HK Hn (Nat.le_0_l 1) abs_m1 _ _ (coll_X N (kron 1) true kron_1) eq_refl (moves_carries N 0) _).
    + unit_pos.
    + intros l lam Hl. unfold Fxa. first [ring|field].
    + values.
Qed.
Print Assumptions C90_XA.

(** Motion across it: likewise Y11A, Y12A. *)
Theorem C90_YA N K m : (1 <= N)%nat -> (K <= N)%nat -> Z.abs m = 1%Z -> 
  moment_is moves force_of N K m true true Fya (fun a => 6 * PI * a) 1 /\ moment_is moves force_of N K m false false Fya (fun a => 6 * PI * a) (- (1)).
Proof.
  intros HN HK Hm. assert (Hn : (lowest m <= 1 <= N)%nat) by (unfold lowest; lia). destruct (abs_nat_1 m Hm) as (M1 & M0). split.
  - refine (P_is moves (fun U _ => 3 / 2 * U) N K m (kron 1) (fun _ => 0) true 1 true true Pya 1 Fya 0 (4 * PI) _ 1 HK Hn (Nat.le_0_l 1) abs_1 _ _ (proj1 (coll_Y N m (kron 1) (fun _ => 0) true Hm kron_1 (fun n => none n _))) eq_refl (moves_carries N m) _).
    + unit_pos.
    + intros l lam Hl. unfold Fya. first [ring|field].
    + intros a b U Ha Hb; cbn [mover_radius]; unfold mir, mirror; rewrite ?M1, ?M0; cbn [Nat.even Nat.add pow]; field; lra.
  - refine (P_is moves (fun U _ => 3 / 2 * U) N K m (kron 1) (fun _ => 0) true 1 false false Pya 1 Fya 0 (4 * PI) _ (- (1)) HK Hn (Nat.le_0_l 1) abs_m1 _ _ (proj1 (coll_Y N m (kron 1) (fun _ => 0) true Hm kron_1 (fun n => none n _))) eq_refl (moves_carries N m) _).
    + unit_pos.
    + intros l lam Hl. unfold Fya. first [ring|field].
    + intros a b U Ha Hb; cbn [mover_radius]; unfold mir, mirror; rewrite ?M1, ?M0; cbn [Nat.even Nat.add pow]; field; lra.
Qed.
Print Assumptions C90_YA.

(** Motion across it: torque 4 pi a^2 U Y11B and Y12B about u x t, where t points from
    the sphere the torque is of to the other one (ex, - ex) and Y12B is minus the sum over even powers. *)
Theorem C90_YB N K m : (1 <= N)%nat -> (K <= N)%nat -> Z.abs m = 1%Z -> 
  moment_is moves torque_of N K m true false Fyb (fun a => 4 * PI * a ^ 2) (- (1)) /\ moment_is moves torque_of N K m false true Fyb (fun a => 4 * PI * a ^ 2) (- (1)).
Proof.
  intros HN HK Hm. assert (Hn : (lowest m <= 1 <= N)%nat) by (unfold lowest; lia). destruct (abs_nat_1 m Hm) as (M1 & M0). split.
  - refine (Q_is moves (fun U _ => 3 / 2 * U) N K m (kron 1) (fun _ => 0) false 1 true false Qya 2 Fyb 0 (8 * PI) _ (- (1)) HK Hn (Nat.le_0_l 1) abs_m1 _ Hm _ (proj2 (coll_Y N m (kron 1) (fun _ => 0) true Hm kron_1 (fun n => none n _))) eq_refl (moves_carries N m) _).
    + unit_pos.
    + intros l lam Hl. unfold Fyb. first [ring|field].
    + intros a b U Ha Hb; cbn [mover_radius]; unfold mir, mirror; rewrite ?M1, ?M0; cbn [Nat.even Nat.add pow]; field; lra.
  - refine (Q_is moves (fun U _ => 3 / 2 * U) N K m (kron 1) (fun _ => 0) false 1 false true Qya 2 Fyb 0 (8 * PI) _ (- (1)) HK Hn (Nat.le_0_l 1) abs_m1 _ Hm _ (proj2 (coll_Y N m (kron 1) (fun _ => 0) true Hm kron_1 (fun n => none n _))) eq_refl (moves_carries N m) _).
    + unit_pos.
    + intros l lam Hl. unfold Fyb. first [ring|field].
    + intros a b U Ha Hb; cbn [mover_radius]; unfold mir, mirror; rewrite ?M1, ?M0; cbn [Nat.even Nat.add pow]; field; lra.
Qed.
Print Assumptions C90_YB.

(** Turning about an axis across it: torque 8 pi a^3 U Y11C, Y12C. *)
Theorem C90_YC N K m : (1 <= N)%nat -> (K <= N)%nat -> Z.abs m = 1%Z -> 
  moment_is turns torque_of N K m true true Fyc (fun a => 8 * PI * a ^ 3) 1 /\ moment_is turns torque_of N K m false false Fyc (fun a => 8 * PI * a ^ 3) 1.
Proof.
  intros HN HK Hm. assert (Hn : (lowest m <= 1 <= N)%nat) by (unfold lowest; lia). destruct (abs_nat_1 m Hm) as (M1 & M0). split.
  - refine (Q_is turns (fun U c => - (3 / 2 * U * c)) N K m (fun _ => 0) (kron 1) true 1 true true Qyc 1 Fyc 0 (8 * PI) _ 1 HK Hn (Nat.le_0_l 1) abs_1 _ Hm _ (proj2 (coll_Y N m (fun _ => 0) (kron 1) false Hm (fun n => none n _) kron_1)) eq_refl (fun j c U f Hj => turns_carries N m j c U f Hj Hm) _).
    + unit_pos.
    + intros l lam Hl. unfold Fyc. rewrite (even_mod l Hl). first [ring|field].
    + intros a b U Ha Hb; cbn [mover_radius]; unfold mir, mirror; rewrite ?M1, ?M0; cbn [Nat.even Nat.add pow]; field; lra.
  - refine (Q_is turns (fun U c => - (3 / 2 * U * c)) N K m (fun _ => 0) (kron 1) true 1 false false Qyc 1 Fyc 1 (8 * PI) _ 1 HK Hn (le_n 1) abs_1 _ Hm _ (proj2 (coll_Y N m (fun _ => 0) (kron 1) false Hm (fun n => none n _) kron_1)) eq_refl (fun j c U f Hj => turns_carries N m j c U f Hj Hm) _).
    + unit_pos.
    + intros l lam Hl. unfold Fyc. rewrite (odd_mod l Hl). first [ring|field].
    + intros a b U Ha Hb; cbn [mover_radius]; unfold mir, mirror; rewrite ?M1, ?M0; cbn [Nat.even Nat.add pow]; field; lra.
Qed.
Print Assumptions C90_YC.

(** Motion along it: stresslet 4 pi a^2 (t t - 1/3) (t . U) X11G, X12G; sym_axis is
    3/2 (ex ex - 1/3). *)
Theorem C90_XG N K : (2 <= N)%nat -> (K <= N)%nat -> 
  moment_is moves stresslet_of N K 0 true false Fxg (fun a => 8 / 3 * PI * a ^ 2) 1 /\ moment_is moves stresslet_of N K 0 false true Fxg (fun a => 8 / 3 * PI * a ^ 2) 1.
Proof.
  intros HN HK. assert (Hn : (lowest 0 <= 2 <= N)%nat) by (unfold lowest; lia). split.
  - refine (P_is moves (fun U _ => 3 / 2 * U) N K 0 (kron 1) (fun _ => 0) true 2 true false Pxa (3 / 4) Fxg 0 (4 / 3 * PI) _ 1 HK Hn (Nat.le_0_l 1) abs_1 _ _ (coll_X N (kron 1) true kron_1) eq_refl (moves_carries N 0) _).
    + unit_pos.
    + intros l lam Hl. unfold Fxg. first [ring|field].
    + values.
  - refine (P_is moves (fun U _ => 3 / 2 * U) N K 0 (kron 1) (fun _ => 0) true 2 false true Pxa (3 / 4) Fxg 0 (4 / 3 * PI) _ 1 HK Hn (Nat.le_0_l 1) abs_1 _ _ (coll_X N (kron 1) true kron_1) eq_refl (moves_carries N 0) _).
    + unit_pos.
    + intros l lam Hl. unfold Fxg. first [ring|field].
    + values.
Qed.
Print Assumptions C90_XG.

(** Motion across it: stresslet 4 pi a^2 (t u + u t) U Y11G, Y12G; sym_axis is
    3/2 (ex u + u ex). *)
Theorem C90_YG N K m : (2 <= N)%nat -> (K <= N)%nat -> Z.abs m = 1%Z -> 
  moment_is moves stresslet_of N K m true false Fyg (fun a => 8 / 3 * PI * a ^ 2) 1 /\ moment_is moves stresslet_of N K m false true Fyg (fun a => 8 / 3 * PI * a ^ 2) 1.
Proof.
  intros HN HK Hm. assert (Hn : (lowest m <= 2 <= N)%nat) by (unfold lowest; lia). destruct (abs_nat_1 m Hm) as (M1 & M0). split.
  - refine (P_is moves (fun U _ => 3 / 2 * U) N K m (kron 1) (fun _ => 0) true 2 true false Pya (3 / 4) Fyg 0 (4 / 3 * PI) _ 1 HK Hn (Nat.le_0_l 1) abs_1 _ _ (proj1 (coll_Y N m (kron 1) (fun _ => 0) true Hm kron_1 (fun n => none n _))) eq_refl (moves_carries N m) _).
    + unit_pos.
    + intros l lam Hl. unfold Fyg. first [ring|field].
    + intros a b U Ha Hb; cbn [mover_radius]; unfold mir, mirror; rewrite ?M1, ?M0; cbn [Nat.even Nat.add pow]; field; lra.
  - refine (P_is moves (fun U _ => 3 / 2 * U) N K m (kron 1) (fun _ => 0) true 2 false true Pya (3 / 4) Fyg 0 (4 / 3 * PI) _ 1 HK Hn (Nat.le_0_l 1) abs_1 _ _ (proj1 (coll_Y N m (kron 1) (fun _ => 0) true Hm kron_1 (fun n => none n _))) eq_refl (moves_carries N m) _).
    + unit_pos.
    + intros l lam Hl. unfold Fyg. first [ring|field].
    + intros a b U Ha Hb; cbn [mover_radius]; unfold mir, mirror; rewrite ?M1, ?M0; cbn [Nat.even Nat.add pow]; field; lra.
Qed.
Print Assumptions C90_YG.

(** Turning about w across it: stresslet 8 pi a^3 (t (w x t) + (w x t) t) U Y11H, Y12H. *)
Theorem C90_YH N K m : (2 <= N)%nat -> (K <= N)%nat -> Z.abs m = 1%Z -> 
  moment_is turns stresslet_of N K m true true Fyh (fun a => 16 / 3 * PI * a ^ 3) 1 /\ moment_is turns stresslet_of N K m false false Fyh (fun a => 16 / 3 * PI * a ^ 3) 1.
Proof.
  intros HN HK Hm. assert (Hn : (lowest m <= 2 <= N)%nat) by (unfold lowest; lia). destruct (abs_nat_1 m Hm) as (M1 & M0). split.
  - refine (P_is turns (fun U c => - (3 / 2 * U * c)) N K m (fun _ => 0) (kron 1) false 2 true true Pyc (- (3) / 8) Fyh 0 (4 / 3 * PI) _ 1 HK Hn (Nat.le_0_l 1) abs_1 _ _ (proj1 (coll_Y N m (fun _ => 0) (kron 1) false Hm (fun n => none n _) kron_1)) eq_refl (fun j c U f Hj => turns_carries N m j c U f Hj Hm) _).
    + unit_pos.
    + intros l lam Hl. unfold Fyh. rewrite (even_mod l Hl). first [ring|field].
    + intros a b U Ha Hb; cbn [mover_radius]; unfold mir, mirror; rewrite ?M1, ?M0; cbn [Nat.even Nat.add pow]; field; lra.
  - refine (P_is turns (fun U c => - (3 / 2 * U * c)) N K m (fun _ => 0) (kron 1) false 2 false false Pyc (- (3) / 8) Fyh 1 (4 / 3 * PI) _ 1 HK Hn (le_n 1) abs_1 _ _ (proj1 (coll_Y N m (fun _ => 0) (kron 1) false Hm (fun n => none n _) kron_1)) eq_refl (fun j c U f Hj => turns_carries N m j c U f Hj Hm) _).
    + unit_pos.
    + intros l lam Hl. unfold Fyh. rewrite (odd_mod l Hl). first [ring|field].
    + intros a b U Ha Hb; cbn [mover_radius]; unfold mir, mirror; rewrite ?M1, ?M0; cbn [Nat.even Nat.add pow]; field; lra.
Qed.
Print Assumptions C90_YH.

(** Straining: stresslet 20/3 pi a^3 U times X11M, X12M (axisymmetric), ... *)
Theorem C90_XM N K : (2 <= N)%nat -> (K <= N)%nat -> 
  moment_is strains stresslet_of N K 0 true true Fxm (fun a => 20 / 3 * PI * a ^ 3) 1 /\ moment_is strains stresslet_of N K 0 false false Fxm (fun a => 20 / 3 * PI * a ^ 3) 1.
Proof.
  intros HN HK. assert (Hn : (lowest 0 <= 2 <= N)%nat) by (unfold lowest; lia). split.
  - refine (P_is strains (fun U c => 5 * U * c) N K 0 (kron 2) (fun _ => 0) false 2 true true Pxm 1 Fxm 0 (4 / 3 * PI) _ 1 HK Hn (Nat.le_0_l 1) abs_1 _ _ (coll_X N (kron 2) false kron_2) eq_refl (strains_carries N 0) _).
    + unit_pos.
    + intros l lam Hl. unfold Fxm. rewrite (even_mod l Hl). first [ring|field].
    + values.
  - refine (P_is strains (fun U c => 5 * U * c) N K 0 (kron 2) (fun _ => 0) false 2 false false Pxm 1 Fxm 1 (4 / 3 * PI) _ 1 HK Hn (le_n 1) abs_1 _ _ (coll_X N (kron 2) false kron_2) eq_refl (strains_carries N 0) _).
    + unit_pos.
    + intros l lam Hl. unfold Fxm. rewrite (odd_mod l Hl). first [ring|field].
    + values.
Qed.
Print Assumptions C90_XM.

(** ... Y11M, Y12M (along and across) ... *)
Theorem C90_YM N K m : (2 <= N)%nat -> (K <= N)%nat -> Z.abs m = 1%Z -> 
  moment_is strains stresslet_of N K m true true Fym (fun a => 20 / 3 * PI * a ^ 3) 1 /\ moment_is strains stresslet_of N K m false false Fym (fun a => 20 / 3 * PI * a ^ 3) 1.
Proof.
  intros HN HK Hm. assert (Hn : (lowest m <= 2 <= N)%nat) by (unfold lowest; lia). destruct (abs_nat_1 m Hm) as (M1 & M0). split.
  - refine (P_is strains (fun U c => 5 * U * c) N K m (kron 2) (fun _ => 0) false 2 true true Pym 1 Fym 0 (4 / 3 * PI) _ 1 HK Hn (Nat.le_0_l 1) abs_1 _ _ (proj1 (coll_Y N m (kron 2) (fun _ => 0) false Hm kron_2 (fun n => none n _))) eq_refl (strains_carries N m) _).
    + unit_pos.
    + intros l lam Hl. unfold Fym. rewrite (even_mod l Hl). first [ring|field].
    + intros a b U Ha Hb; cbn [mover_radius]; unfold mir, mirror; rewrite ?M1, ?M0; cbn [Nat.even Nat.add pow]; field; lra.
  - refine (P_is strains (fun U c => 5 * U * c) N K m (kron 2) (fun _ => 0) false 2 false false Pym 1 Fym 1 (4 / 3 * PI) _ 1 HK Hn (le_n 1) abs_1 _ _ (proj1 (coll_Y N m (kron 2) (fun _ => 0) false Hm kron_2 (fun n => none n _))) eq_refl (strains_carries N m) _).
    + unit_pos.
    + intros l lam Hl. unfold Fym. rewrite (odd_mod l Hl). first [ring|field].
    + intros a b U Ha Hb; cbn [mover_radius]; unfold mir, mirror; rewrite ?M1, ?M0; cbn [Nat.even Nat.add pow]; field; lra.
Qed.
Print Assumptions C90_YM.

(** ... Z11M, Z12M (across); Z12M is minus the sum over odd powers. *)
Theorem C90_ZM N K m : (2 <= N)%nat -> (K <= N)%nat -> Z.abs m = 2%Z -> 
  moment_is strains stresslet_of N K m true true Fzm (fun a => 20 / 3 * PI * a ^ 3) 1 /\ moment_is strains stresslet_of N K m false false Fzm (fun a => 20 / 3 * PI * a ^ 3) (- (1)).
Proof.
  intros HN HK Hm. assert (Hn : (lowest m <= 2 <= N)%nat) by (unfold lowest; lia). destruct (abs_nat_2 m Hm) as (M1 & M0). split.
  - refine (P_is strains (fun U c => 5 * U * c) N K m (kron 2) (fun _ => 0) false 2 true true Pzm 1 Fzm 0 (4 / 3 * PI) _ 1 HK Hn (Nat.le_0_l 1) abs_1 _ _ (coll_Z N m Hm) eq_refl (strains_carries N m) _).
    + unit_pos.
    + intros l lam Hl. unfold Fzm. rewrite (even_mod l Hl). first [ring|field].
    + intros a b U Ha Hb; cbn [mover_radius]; unfold mir, mirror; rewrite ?M1, ?M0; cbn [Nat.even Nat.add pow]; field; lra.
  - refine (P_is strains (fun U c => 5 * U * c) N K m (kron 2) (fun _ => 0) false 2 false false Pzm 1 Fzm 1 (4 / 3 * PI) _ (- (1)) HK Hn (le_n 1) abs_m1 _ _ (coll_Z N m Hm) eq_refl (strains_carries N m) _).
    + unit_pos.
    + intros l lam Hl. unfold Fzm. rewrite (odd_mod l Hl). first [ring|field].
    + intros a b U Ha Hb; cbn [mover_radius]; unfold mir, mirror; rewrite ?M1, ?M0; cbn [Nat.even Nat.add pow]; field; lra.
Qed.
Print Assumptions C90_ZM.

(** For every motion of the one sphere there are such flows. *)
Theorem C90_exist N m j own a b d D E : 0 < a -> 0 < b ->
  exists f, starts N m j (mover_radius own a b) D E (f 0%nat) /\ exchange N m own a b d f.
Proof.
  intros Ha Hb. set (c := mover_radius own a b). assert (Hc : 0 < c) by (apply mover_pos; assumption).
  set (f0 := mkSix (fun j n m => - invert_A c n (- D n) 0) (fun j n m => - (c ^ (2 * n + 1) * - E n)) (fun j n m => - invert_C c n (- D n) 0) zero_coef zero_coef zero_coef).
  assert (C1 : 0 < mover_radius own b a) by (apply mover_pos; assumption).
  destruct (C77_exist N m c (mover_radius own b a) d f0 Hc C1) as [[f [E0 Hf]] _]. exists f. split; [|exact Hf].
  rewrite E0. intros n Hn. assert (H1 : (1 <= n)%nat) by (unfold lowest in Hn; lia). split.
  - pose proof (no_slip' n c (- D n) 0 0 H1 Hc) as S. replace (- (c ^ (2 * n + 1) * 0)) with 0 in S by ring. exact S.
  - pose proof (no_slip' n c 0 (- E n) 0 H1 Hc) as S.
    replace (- invert_A c n 0 0) with 0 in S by (unfold invert_A; ring). replace (- invert_C c n 0 0) with 0 in S by (unfold invert_C; ring). exact S.
Qed.
Print Assumptions C90_exist.

(** A sphere of radius 1 turning at unit speed about z, 4 from a fixed one of
    radius 2. *)
Example C90_example : exists f, turns 4 (-1) 1 1 1 (f 0%nat) /\ exchange 4 (-1) true 1 2 4 f /\
  exists E, Rabs (total_on true 5 (torque_of 1 (-1)) f - 8 * PI * (series true 4 Fyc 2 (8 / 3))) <= E * (24 * PI) * (3 / 4) ^ 5.
Proof.
  destruct (C90_exist 4 (-1) 1 true 1 2 4 (fun _ => 0) (only 1 (part_sign 1 * IZR (Z.sgn (-1)) * 1 / H 1 (-1))) ltac:(lra) ltac:(lra)) as (f & Hs & He).
  exists f. split; [exact Hs|]. split; [exact He|].
  destruct (C90_YC 4 4 (-1) ltac:(lia) ltac:(lia) eq_refl) as [M _]. destruct (M 5%nat ltac:(lia)) as (E & HE). exists E.
  specialize (HE 1%nat 1 2 4 1 f (or_introl eq_refl) ltac:(lra) ltac:(lra) ltac:(lra) Hs He).
  replace (2 / 1) with 2 in HE by lra. replace (2 * 4 / (1 + 2)) with (8 / 3) in HE by lra. rewrite Rabs_R1 in HE.
  replace (1 * (8 * PI * 1 ^ 3) * 1 * series true 4 Fyc 2 (8 / 3)) with (8 * PI * series true 4 Fyc 2 (8 / 3)) in HE by ring.
  replace (E * (8 * PI * 1 ^ 3 * 1 * (1 + 2)) * ((1 + 2) / 4) ^ 5) with (E * (24 * PI) * (3 / 4) ^ 5) in HE by (replace ((1 + 2) / 4) with (3 / 4) by lra; ring).
  exact HE.
Qed.
(** The first terms are those of Jeffrey & Onishi 1984 and Jeffrey 1992. *)
Ltac coefficients := cbv -[Rplus Rmult Rminus Ropp Rinv Rdiv pow INR IZR]; cbn [INR pow]; field.
Example C90_coefficients lam :
  Fxa 1 lam = 3 * lam /\ Fxa 2 lam = 9 * lam /\ Fxa 3 lam = - (4) * lam + 27 * lam ^ 2 - 4 * lam ^ 3 /\ Fya 3 lam = 2 * lam + 27 / 8 * lam ^ 2 + 2 * lam ^ 3 /\
  Fyb 2 lam = - (6) * lam /\ Fyb 3 lam = - (9) * lam /\ Fyc 3 lam = 4 * lam ^ 3 /\ Fxg 2 lam = 15 * lam /\ Fyg 4 lam = 12 * lam + 20 * lam ^ 3 /\
  Fyh 3 lam = 10 * lam ^ 3 /\ Fxm 3 lam = 40 * lam ^ 3 /\ Fym 3 lam = - (20) * lam ^ 3.
Proof. repeat split; coefficients. Qed.
