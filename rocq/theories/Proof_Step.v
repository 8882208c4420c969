(** The orientation update is a rotation. *)
From Coq Require Import Reals Arith Bool List Lia Lra FunctionalExtensionality.
From Verif Require Import Base Model_Mob Model_Close Model_Step Spec_Step Proof_Close.
Local Open Scope R_scope.

Lemma Reqb_spec x y : Reqb x y = true <-> x = y.
Proof. unfold Reqb. destruct (Req_EM_T x y); split; congruence || auto. Qed.

Lemma speed_norm O : speed O = norm O. Proof. reflexivity. Qed.
Lemma speed_sq O : speed O * speed O = O 0%nat ^ 2 + O 1%nat ^ 2 + O 2%nat ^ 2.
Proof. unfold speed. apply sqrt_sqrt. nra. Qed.

Lemma zero3_spec O : is_zero3 O = true <-> (forall l, (l < 3)%nat -> O l = 0).
Proof.
  unfold is_zero3. rewrite !andb_true_iff, !Reqb_spec. split.
  - intros [[H0 H1] H2] l Hl. idx3 Hl; assumption.
  - intros H. repeat split; apply H; lia.
Qed.
Lemma speed_pos O : is_zero3 O = false -> 0 < speed O.
Proof.
  intros H. unfold speed. apply sqrt_lt_R0.
  destruct (Rlt_dec 0 (O 0%nat ^ 2 + O 1%nat ^ 2 + O 2%nat ^ 2)) as [G|G]; [exact G|].
  exfalso. assert (is_zero3 O = true); [|congruence]. apply zero3_spec. intros l Hl.
  idx3 Hl; nra.
Qed.

(** atan2 *)
Lemma sqrt_cos_atan t : cos (atan t) = / sqrt (1 + t ^ 2).
Proof. rewrite cos_atan. rewrite <- Rsqr_pow2. unfold Rdiv. ring. Qed.
Lemma sqrt_sin_atan t : sin (atan t) = t / sqrt (1 + t ^ 2).
Proof. rewrite sin_atan. rewrite <- Rsqr_pow2. reflexivity. Qed.

Lemma hyp_pos x y : 0 < x -> sqrt (x ^ 2 + y ^ 2) = x * sqrt (1 + (y / x) ^ 2).
Proof.
  intros H. replace (x ^ 2 + y ^ 2) with (x * x * (1 + (y / x) ^ 2)) by (field; lra).
  rewrite sqrt_mult by nra. rewrite sqrt_square by lra. reflexivity.
Qed.
Lemma hyp_neg x y : x < 0 -> sqrt (x ^ 2 + y ^ 2) = - x * sqrt (1 + (y / x) ^ 2).
Proof.
  intros H. replace (x ^ 2 + y ^ 2) with ((- x) * (- x) * (1 + (y / x) ^ 2)) by (field; lra).
  rewrite sqrt_mult by nra. rewrite sqrt_square by lra. reflexivity.
Qed.
Lemma hyp1_pos t : 0 < sqrt (1 + t ^ 2).
Proof. apply sqrt_lt_R0. nra. Qed.

Lemma polar x y : x <> 0 \/ y <> 0 ->
  sqrt (x ^ 2 + y ^ 2) * cos (arctan2 y x) = x /\ sqrt (x ^ 2 + y ^ 2) * sin (arctan2 y x) = y.
Proof.
  intros H. unfold arctan2.
  destruct (Rlt_dec 0 x) as [H1|H1].
  { rewrite hyp_pos, sqrt_cos_atan, sqrt_sin_atan by exact H1. pose proof (hyp1_pos (y / x)).
    split; field; lra. }
  destruct (Rlt_dec x 0) as [H2|H2].
  { pose proof (hyp1_pos (y / x)).
    assert (C : cos (atan (y / x) + PI) = - cos (atan (y / x))) by apply neg_cos.
    assert (S : sin (atan (y / x) + PI) = - sin (atan (y / x))) by apply neg_sin.
    assert (C' : cos (atan (y / x) - PI) = - cos (atan (y / x))).
    { rewrite cos_minus, cos_PI, sin_PI. ring. }
    assert (S' : sin (atan (y / x) - PI) = - sin (atan (y / x))).
    { rewrite sin_minus, cos_PI, sin_PI. ring. }
    rewrite hyp_neg by exact H2.
    destruct (Rle_dec 0 y); [rewrite C, S|rewrite C', S']; rewrite sqrt_cos_atan, sqrt_sin_atan; split; field; lra. }
  assert (x = 0) by lra. subst x.
  replace (0 ^ 2 + y ^ 2) with (Rsqr y) by (unfold Rsqr; ring). rewrite sqrt_Rsqr_abs.
  destruct (Rlt_dec 0 y) as [H3|H3].
  { rewrite cos_PI2, sin_PI2, Rabs_pos_eq by lra. split; ring. }
  destruct (Rlt_dec y 0) as [H4|H4].
  { rewrite cos_neg, sin_neg, cos_PI2, sin_PI2, Rabs_left by lra. split; ring. }
  lra.
Qed.

(** Spherical coordinates: rotating the azimuth. *)
Lemma spherical x0 y0 z0 a :
  let r0 := sqrt (x0 ^ 2 + y0 ^ 2 + z0 ^ 2) in
  let t0 := acos (z0 / r0) in
  let p0 := if (Reqb x0 0 && Reqb y0 0)%bool then 0 else arctan2 y0 x0 in
  0 < r0 ->
  r0 * sin t0 * cos (p0 + a) = cos a * x0 - sin a * y0 /\
  r0 * sin t0 * sin (p0 + a) = sin a * x0 + cos a * y0 /\
  r0 * cos t0 = z0.
Proof.
  intros r0 t0 p0 Hr.
  assert (Hrr : r0 * r0 = x0 ^ 2 + y0 ^ 2 + z0 ^ 2) by (apply sqrt_sqrt; nra).
  assert (Hq : (z0 / r0) * (z0 / r0) <= 1).
  { replace ((z0 / r0) * (z0 / r0)) with (z0 ^ 2 / (r0 * r0)) by (field; lra).
    apply Rmult_le_reg_r with (r0 * r0); [nra|]. unfold Rdiv. rewrite Rmult_assoc, Rinv_l by nra. nra. }
  assert (Hb : -1 <= z0 / r0 <= 1) by nra.
  assert (HC : r0 * cos t0 = z0) by (unfold t0; rewrite cos_acos by exact Hb; field; lra).
  assert (HS : r0 * sin t0 = sqrt (x0 ^ 2 + y0 ^ 2)).
  { unfold t0. rewrite sin_acos by exact Hb.
    rewrite <- (sqrt_square r0) at 1 by lra. rewrite <- sqrt_mult; [|nra|unfold Rsqr; lra].
    f_equal. transitivity (r0 * r0 - z0 ^ 2); [unfold Rsqr; field; lra|rewrite Hrr; ring]. }
  rewrite HS, HC. rewrite cos_plus, sin_plus.
  unfold p0. destruct (Reqb x0 0 && Reqb y0 0)%bool eqn:E.
  - apply andb_true_iff in E. destruct E as [E1 E2]. apply Reqb_spec in E1. apply Reqb_spec in E2. clearbody r0 t0. subst x0 y0.
    replace (0 ^ 2 + 0 ^ 2) with 0 by ring. rewrite sqrt_0. repeat split; ring.
  - assert (Hne : x0 <> 0 \/ y0 <> 0).
    { apply andb_false_iff in E. destruct E as [E|E]; [left|right]; intros ->;
      rewrite (proj2 (Reqb_spec 0 0)) in E by reflexivity; discriminate. }
    destruct (polar x0 y0 Hne) as [P1 P2].
    repeat split.
    + transitivity (cos a * (sqrt (x0 ^ 2 + y0 ^ 2) * cos (arctan2 y0 x0)) - sin a * (sqrt (x0 ^ 2 + y0 ^ 2) * sin (arctan2 y0 x0))); [ring|].
      rewrite P1, P2. reflexivity.
    + transitivity (sin a * (sqrt (x0 ^ 2 + y0 ^ 2) * cos (arctan2 y0 x0)) + cos a * (sqrt (x0 ^ 2 + y0 ^ 2) * sin (arctan2 y0 x0))); [ring|].
      rewrite P1, P2. reflexivity.
Qed.

(** Determinants. *)
Definition det3 (A : mat) : R :=
  A 0%nat 0%nat * (A 1%nat 1%nat * A 2%nat 2%nat - A 1%nat 2%nat * A 2%nat 1%nat)
  - A 0%nat 1%nat * (A 1%nat 0%nat * A 2%nat 2%nat - A 1%nat 2%nat * A 2%nat 0%nat)
  + A 0%nat 2%nat * (A 1%nat 0%nat * A 2%nat 1%nat - A 1%nat 1%nat * A 2%nat 0%nat).
Definition inv3 (A : mat) : mat :=
  let c := fun i j => match i, j with
    | 0%nat, 0%nat => A 1%nat 1%nat * A 2%nat 2%nat - A 1%nat 2%nat * A 2%nat 1%nat
    | 0%nat, 1%nat => A 0%nat 2%nat * A 2%nat 1%nat - A 0%nat 1%nat * A 2%nat 2%nat
    | 0%nat, _ => A 0%nat 1%nat * A 1%nat 2%nat - A 0%nat 2%nat * A 1%nat 1%nat
    | 1%nat, 0%nat => A 1%nat 2%nat * A 2%nat 0%nat - A 1%nat 0%nat * A 2%nat 2%nat
    | 1%nat, 1%nat => A 0%nat 0%nat * A 2%nat 2%nat - A 0%nat 2%nat * A 2%nat 0%nat
    | 1%nat, _ => A 0%nat 2%nat * A 1%nat 0%nat - A 0%nat 0%nat * A 1%nat 2%nat
    | _, 0%nat => A 1%nat 0%nat * A 2%nat 1%nat - A 1%nat 1%nat * A 2%nat 0%nat
    | _, 1%nat => A 0%nat 1%nat * A 2%nat 0%nat - A 0%nat 0%nat * A 2%nat 1%nat
    | _, _ => A 0%nat 0%nat * A 1%nat 1%nat - A 0%nat 1%nat * A 1%nat 0%nat
    end in
  fun i j => c i j / det3 A.
Lemma inv3_ok A : det3 A <> 0 -> is_inv 3 A (inv3 A).
Proof.
  intros H i j Hi Hj. unfold mmul, inv3, delta. cbv zeta. cbn [rsum].
  split; idx3 Hi; idx3 Hj; cbn [Nat.eqb]; unfold det3 in *; field; exact H.
Qed.
Lemma det3_invertible A : det3 A <> 0 -> exists B, is_inv 3 A B.
Proof. intros H. exists (inv3 A). apply inv3_ok. exact H. Qed.

Lemma det3_mul A B : det3 (mmul 3 A B) = det3 A * det3 B.
Proof. unfold det3, mmul. cbn [rsum]. ring. Qed.
Lemma invertible_det3 A : (exists B, is_inv 3 A B) -> det3 A <> 0.
Proof.
  intros [B H] E. pose proof (det3_mul A B) as M. rewrite E, Rmult_0_l in M.
  unfold det3 in M. rewrite !(fun i j Hi Hj => proj1 (H i j Hi Hj)) in M by lia.
  unfold delta in M. cbn [Nat.eqb] in M. lra.
Qed.
Lemma inv3_inverts : inverts inv3.
Proof. intros A H. apply inv3_ok, invertible_det3, H. Qed.

(** The basis built from the angular velocity. *)
Section Basis.
Variable O : vec.
Hypothesis HO : is_zero3 O = false.
Let k : vec := vscal (/ speed O) O.
Let p : vec := if allclose3 (fun l => Rabs (O l / speed O)) (v3 1 0 0) then v3 0 0 1 else v3 1 0 0.
Definition bX : vec := cross k p.
Definition bY : vec := cross k (cross k p).

Lemma k_unit : k 0%nat * k 0%nat + k 1%nat * k 1%nat + k 2%nat * k 2%nat = 1.
Proof.
  pose proof (speed_pos O HO) as Hs. pose proof (speed_sq O) as Hq. unfold k, vscal.
  apply Rmult_eq_reg_r with (speed O * speed O); [|nra]. rewrite Rmult_1_l. rewrite Hq at 2.
  field. lra.
Qed.

Lemma rot_cols l : (l < 3)%nat ->
  rot_matrix O l 0%nat = bX l /\ rot_matrix O l 1%nat = bY l /\ rot_matrix O l 2%nat = k l.
Proof.
  intros Hl. pose proof (speed_pos O HO) as Hs. unfold rot_matrix, bX, bY. rewrite HO. cbv zeta. fold p.
  generalize p. intros q. unfold k.
  repeat split; idx3 Hl; unfold cross, vscal, v3; field; lra.
Qed.

Lemma sigma_pos : 0 < dot3 bX bX.
Proof.
  assert (E : dot3 bX bX = 0 \/ dot3 bX bX <> 0) by (destruct (Req_dec (dot3 bX bX) 0); tauto).
  assert (P : 0 <= dot3 bX bX) by (unfold dot3; nra).
  destruct E as [E|E]; [|lra]. exfalso.
  assert (Hx0 : bX 0%nat = 0) by (unfold dot3 in E; nra).
  assert (Hx1 : bX 1%nat = 0) by (unfold dot3 in E; nra).
  assert (Hx2 : bX 2%nat = 0) by (unfold dot3 in E; nra).
  clear E P. pose proof k_unit as U.
  assert (K : forall l, Rabs (O l / speed O) = Rabs (k l)) by (intros l; unfold k, vscal; f_equal; unfold Rdiv; ring).
  revert Hx0 Hx1 Hx2. unfold bX, p.
  destruct (allclose3 _ _) eqn:A; unfold cross, v3; cbn; intros Hx0 Hx1 Hx2.
  - unfold allclose3 in A. rewrite !andb_true_iff, !Rleb_spec in A. destruct A as [[A0 _] _]. rewrite K in A0. cbn in A0.
    assert (k 0%nat = 0) by lra. rewrite H, Rabs_R0 in A0. rewrite (Rabs_left (0 - 1)) in A0 by lra. rewrite Rabs_R1 in A0. lra.
  - assert (H1 : k 1%nat = 0) by lra. assert (H2 : k 2%nat = 0) by lra.
    assert (Hk : k 0%nat * k 0%nat = 1) by nra.
    assert (Rabs (k 0%nat) = 1).
    { assert (k 0%nat = 1 \/ k 0%nat = -1) as [->| ->] by (assert ((k 0%nat - 1) * (k 0%nat + 1) = 0) as Z by lra;
        apply Rmult_integral in Z; destruct Z; [left|right]; lra).
      apply Rabs_R1. rewrite Rabs_left; lra. }
    enough (allclose3 (fun l => Rabs (O l / speed O)) (v3 1 0 0) = true) by congruence.
    unfold allclose3. rewrite !K, H, H1, H2. cbn. rewrite !andb_true_iff, !Rleb_spec, !Rabs_R0.
    rewrite Rabs_R1. replace (1 - 1) with 0 by ring. replace (0 - 0) with 0 by ring. rewrite Rabs_R0. lra.
Qed.
Lemma bXY : dot3 bY bY = dot3 bX bX.
Proof.
  unfold dot3, bY. fold bX. generalize (fun l => bX l). intros. unfold bX, cross, v3. generalize (p 0%nat), (p 1%nat), (p 2%nat).
  intros p0 p1 p2. pose proof k_unit as U. revert U. generalize (k 0%nat), (k 1%nat), (k 2%nat). intros k0 k1 k2 U.
  assert (E : k0 * k0 = 1 - k1 * k1 - k2 * k2) by lra. ring [E].
Qed.

Lemma rot_det : det3 (rot_matrix O) = dot3 bX bX.
Proof.
  unfold det3. 
  destruct (rot_cols 0 ltac:(lia)) as (-> & -> & ->).
  destruct (rot_cols 1 ltac:(lia)) as (-> & -> & ->).
  destruct (rot_cols 2 ltac:(lia)) as (-> & -> & ->).
  unfold dot3, bY, bX, cross, v3. generalize (p 0%nat), (p 1%nat), (p 2%nat).
  intros p0 p1 p2. pose proof k_unit as U. revert U. generalize (k 0%nat), (k 1%nat), (k 2%nat). intros k0 k1 k2 U.
  assert (E : k0 * k0 = 1 - k1 * k1 - k2 * k2) by lra. ring [E].
Qed.

Lemma rot_invertible : exists B, is_inv 3 (rot_matrix O) B.
Proof. apply det3_invertible. rewrite rot_det. pose proof sigma_pos. lra. Qed.

Lemma rodr_X a l : (l < 3)%nat -> rodrigues O a bX l = cos a * bX l + sin a * bY l.
Proof.
  intros Hl. unfold rodrigues. cbv zeta. change (vscal (/ norm O) O) with k. 
  assert (D : dot3 k bX = 0) by (unfold dot3, bX, cross, v3; ring). rewrite D.
  change (cross k bX) with bY. ring.
Qed.
Lemma rodr_Y a l : (l < 3)%nat -> rodrigues O a bY l = - sin a * bX l + cos a * bY l.
Proof.
  intros Hl. unfold rodrigues. cbv zeta. change (vscal (/ norm O) O) with k. 
  assert (D : dot3 k bY = 0) by (unfold dot3, bY, cross, v3; ring). rewrite D.
  assert (C : cross k bY l = - bX l).
  { pose proof k_unit as U. unfold bY, bX. revert U.
    generalize (p 0%nat), (p 1%nat), (p 2%nat). intros p0 p1 p2.
    assert (E : k 0%nat * k 0%nat = 1 - k 1%nat * k 1%nat - k 2%nat * k 2%nat) by (pose proof k_unit; lra).
    intros _. idx3 Hl; unfold cross, v3; revert E; generalize (k 0%nat), (k 1%nat), (k 2%nat); intros k0 k1 k2 E; ring [E]. }
  rewrite C. ring.
Qed.
Lemma rodr_Z a l : (l < 3)%nat -> rodrigues O a k l = k l.
Proof.
  intros Hl. unfold rodrigues. cbv zeta. change (vscal (/ norm O) O) with k. 
  assert (D : dot3 k k = 1) by exact k_unit. rewrite D.
  assert (C : cross k k l = 0) by (idx3 Hl; unfold cross, v3; ring). rewrite C. ring.
Qed.
Lemma rodr_lin a x y z l : (l < 3)%nat ->
  rodrigues O a (fun l => x * bX l + y * bY l + z * k l) l =
  x * rodrigues O a bX l + y * rodrigues O a bY l + z * rodrigues O a k l.
Proof. intros Hl. idx3 Hl; unfold rodrigues, cross, dot3, v3; ring. Qed.

Lemma rotate_rodrigues inv R0 Rn rb dt l : inverts inv -> (l < 3)%nat ->
  (exists l, (l < 3)%nat /\ rb l <> R0 l) ->
  rotate_point inv R0 Rn O rb dt l = Rn l + rodrigues O (norm O * dt) (vsub rb R0) l.
Proof.
  intros Hinv Hl Hne.
  pose proof (Hinv _ rot_invertible) as HI.
  set (b := mvec 3 (inv (rot_matrix O)) (vsub rb R0)).
  assert (Hv : forall l, (l < 3)%nat -> vsub rb R0 l = b 0%nat * bX l + b 1%nat * bY l + b 2%nat * k l).
  { intros m Hm. destruct (rot_cols m Hm) as (E0 & E1 & E2).
    rewrite <- (mvec_delta 3 (vsub rb R0) m Hm).
    rewrite (mvec_ext 3 delta (mmul 3 (rot_matrix O) (inv (rot_matrix O))) _ (vsub rb R0) m);
      [|intros j Hj; symmetry; apply HI; assumption|reflexivity].
    rewrite mvec_mmul. fold b. unfold mvec. cbn [rsum]. rewrite E0, E1, E2. ring. }
  assert (Hr : 0 < sqrt (b 0%nat ^ 2 + b 1%nat ^ 2 + b 2%nat ^ 2)).
  { apply sqrt_lt_R0. destruct (Rlt_dec 0 (b 0%nat ^ 2 + b 1%nat ^ 2 + b 2%nat ^ 2)) as [G|G]; [exact G|].
    exfalso. destruct Hne as (m & Hm & Hne). apply Hne.
    assert (b 0%nat = 0) by nra. assert (b 1%nat = 0) by nra. assert (b 2%nat = 0) by nra.
    specialize (Hv m Hm). unfold vsub in Hv. rewrite H, H0, H1 in Hv. lra. }
  unfold rotate_point. cbv zeta. fold b.
  destruct (spherical (b 0%nat) (b 1%nat) (b 2%nat) (dt * speed O) Hr) as (Ex & Ey & Ez).
  cbv zeta in Ex, Ey, Ez. rewrite Ex, Ey, Ez. f_equal.
  unfold mvec. cbn [rsum v3].
  destruct (rot_cols l Hl) as (-> & -> & ->).
  assert (RE : rodrigues O (norm O * dt) (vsub rb R0) l =
               rodrigues O (norm O * dt) (fun l => b 0%nat * bX l + b 1%nat * bY l + b 2%nat * k l) l).
  { unfold rodrigues. cbv zeta. unfold dot3. idx3 Hl; unfold cross, v3; rewrite !Hv by lia; reflexivity. }
  rewrite RE, rodr_lin, rodr_X, rodr_Y, rodr_Z by exact Hl.
  change (speed O) with (norm O). rewrite (Rmult_comm (norm O)). cbn. ring.
Qed.
End Basis.
