(** Nothing singular acts on two nearly touching spheres that move with a linear
    flow, but for one term of the stresslet. *)
From Coq Require Import Reals List Arith Lra Lia.
From Verif Require Import Base Model_Mob Model_Nearfield Spec_Scalars Spec_Nearfield Proof_Nearfield3.
Import ListNotations.
Local Open Scope R_scope.

Lemma reg_scal f c : reg f -> reg (fun xi => c * f xi).
Proof.
  intros (c0 & c1 & c2 & H). exists (c * c0), (c * c1), (c * c2). intros xi Hx. rewrite H by exact Hx. ring.
Qed.
Lemma dist_comm a b xi : centre_distance a b xi = centre_distance b a xi.
Proof. unfold centre_distance. ring. Qed.

Section Pair.
Variables (zeta : R -> R -> R) (a b : R) (d V w x0 : vec) (E : mat).
Hypotheses (Ha : 0 < a) (Hb : 0 < b) (HE : strain E) (Hd : rsum 3 (fun i => d i * d i) = 1).
Variables (F T : R -> nat -> vec) (S : R -> nat -> mat).
Hypothesis H : forall xi, 0 < xi -> held_in_flow zeta a b d V w x0 E xi (F xi) (T xi) (S xi).
Notation r xi := (centre_distance a b xi).
Notation s xi := (scalar (pair_scalars zeta a b xi)).

Lemma lin_flow p i : linear (fun xi => flow_at d V w x0 E (r xi) p i).
Proof.
  destruct p as [|p]; unfold flow_at, linear_flow, centre.
  - apply linear_const.
  - exists (V i + cross w (fun k => x0 k + (a + b) * d k) i + rsum 3 (fun j => E i j * (x0 j + (a + b) * d j))),
           (cross w (fun k => (a + b) / 2 * d k) i + rsum 3 (fun j => E i j * ((a + b) / 2 * d j))).
    intros xi. unfold centre_distance, cross. cbn [rsum].
    destruct i as [|[|[|i]]]; cbn [v3]; field.
Qed.
Lemma lin_dU p : linear (fun xi => dU d V w x0 E (r xi) p).
Proof.
  unfold dU. cbn [rsum]. repeat apply linear_plus; try apply linear_mul_l; try apply lin_flow. apply linear_const.
Qed.
Lemma lin_perp p i : linear (fun xi => flow_at d V w x0 E (r xi) p i - dU d V w x0 E (r xi) p * d i).
Proof. apply linear_minus; [apply lin_flow|apply linear_mul_r, lin_dU]. Qed.
Lemma lin_cross p i : linear (fun xi => cross (flow_at d V w x0 E (r xi) p) d i).
Proof.
  destruct i as [|[|[|i]]]; unfold cross; cbn [v3]; try apply linear_const;
    apply linear_minus; apply linear_mul_r, lin_flow.
Qed.

Ltac both Hp p := destruct p as [|[|p]]; [| |lia]; cbn [other toward].
Ltac pos L := eapply reg_ext; [|exact (L zeta a b Ha Hb)]; intros xi Hx; cbv beta;
  cbn [scalar pair_scalars scalar_unit odd_in_d Nat.mul Nat.add Nat.div Nat.modulo Nat.divmod fst snd Nat.sub near]; ring.
Ltac neg c L := eapply reg_ext; [|exact (reg_scal _ c (L zeta b a Hb Ha))]; intros xi Hx; cbv beta; rewrite ?(dist_comm a b);
  cbn [scalar pair_scalars scalar_unit odd_in_d Nat.mul Nat.add Nat.div Nat.modulo Nat.divmod fst snd Nat.sub near]; ring.

Lemma c_same p n : (p < 2)%nat -> In n [0; 1; 2; 3; 5; 6; 10]%nat -> reg (fun xi => s xi n p p + s xi n p (other p)).
Proof.
  intros Hp Hn. both Hp p.
  - eapply reg_ext; [|exact (rel_same zeta a b n Hn)]. intros xi Hx. cbv beta.
    repeat destruct Hn as [<-|Hn]; [..|destruct Hn]; reflexivity.
  - eapply reg_ext; [|exact (reg_scal _ (odd_in_d n) (rel_same zeta b a n Hn))]. intros xi Hx. cbv beta.
    repeat destruct Hn as [<-|Hn]; [..|destruct Hn];
    cbn [scalar pair_scalars scalar_unit odd_in_d Nat.mul Nat.add Nat.div Nat.modulo Nat.divmod fst snd Nat.sub near]; ring.
Qed.
Lemma c_F_rot p : (p < 2)%nat -> reg (fun xi => s xi 2 p p + s xi 2 (other p) p - toward p * (r xi * s xi 1 p (other p))).
Proof. intros Hp. both Hp p; [pos rel_F_rot|neg (- (1)) rel_F_rot]. Qed.
Lemma c_F_x p : (p < 2)%nat -> reg (fun xi => s xi 5 p p + s xi 5 (other p) p + toward p * (r xi * s xi 0 p (other p))).
Proof. intros Hp. both Hp p; [pos rel_F_strain_x|neg (- (1)) rel_F_strain_x]. Qed.
Lemma c_F_y p : (p < 2)%nat -> reg (fun xi => 2 * s xi 6 p p + 2 * s xi 6 (other p) p + toward p * (r xi * s xi 1 p (other p))).
Proof. intros Hp. both Hp p; [pos rel_F_strain_y|neg (- (1)) rel_F_strain_y]. Qed.
Lemma c_T_rot p : (p < 2)%nat -> reg (fun xi => s xi 4 p p + s xi 4 p (other p) - toward p * (r xi * s xi 2 p (other p))).
Proof. intros Hp. both Hp p; [pos rel_T_rot|neg 1 rel_T_rot]. Qed.
Lemma c_T_strain p : (p < 2)%nat -> reg (fun xi => 2 * s xi 7 p p + 2 * s xi 7 (other p) p - toward p * (r xi * s xi 2 p (other p))).
Proof. intros Hp. both Hp p; [pos rel_T_strain|neg 1 rel_T_strain]. Qed.
Lemma c_S_rot p : (p < 2)%nat -> reg (fun xi => s xi 7 p p + s xi 7 p (other p) + toward p * (r xi * s xi 6 p (other p))).
Proof. intros Hp. both Hp p; [pos rel_S_rot|neg 1 rel_S_rot]. Qed.
Lemma c_S_x p : (p < 2)%nat -> reg (fun xi => 3 / 2 * s xi 8 p p + 3 / 2 * s xi 8 p (other p) + toward p * (r xi * s xi 5 p (other p))).
Proof. intros Hp. both Hp p; [pos rel_S_strain_x|neg 1 rel_S_strain_x]. Qed.
Lemma c_S_y p : (p < 2)%nat -> reg (fun xi => s xi 9 p p + s xi 9 p (other p) + toward p * (r xi * s xi 6 p (other p)) - residue a b * (xi * ln (/ xi))).
Proof.
  intros Hp. both Hp p; [pos rel_S_strain_y|].
  assert (Hr : residue a b = residue b a) by (unfold residue; field; lra). rewrite Hr. neg 1 rel_S_strain_y.
Qed.

Ltac inl := cbn [In]; tauto.
Lemma F_regular p i : (p < 2)%nat -> (i < 3)%nat -> regular (fun xi => F xi p i).
Proof.
  intros Hp Hi. eapply regular_ext.
  { intros xi Hx. exact (F_flow _ d V w x0 E (r xi) HE _ _ _ (H xi Hx) p i Hp Hi). }
  cbv beta. repeat apply regular_plus; apply regular_prod;
    try (apply linear_mul_r; apply lin_dU); try apply lin_perp; try apply linear_const;
    [apply c_same; [exact Hp|inl]|apply c_same; [exact Hp|inl]|apply c_F_rot; exact Hp|apply c_F_x; exact Hp|apply c_F_y; exact Hp].
Qed.
Lemma T_regular p i : (p < 2)%nat -> (i < 3)%nat -> regular (fun xi => T xi p i).
Proof.
  intros Hp Hi. eapply regular_ext.
  { intros xi Hx. exact (T_flow _ d V w x0 E (r xi) HE Hd _ _ _ (H xi Hx) p i Hp Hi). }
  cbv beta. repeat apply regular_plus; apply regular_prod; try apply lin_cross; try apply linear_const;
    [apply c_same; [exact Hp|inl]|apply c_same; [exact Hp|inl]|apply c_T_rot; exact Hp|apply c_T_strain; exact Hp].
Qed.
Lemma S_regular p i j : (p < 2)%nat -> (i < 3)%nat -> (j < 3)%nat ->
  regular (fun xi => S xi p i j - residue a b * (d i * shear d E j + d j * shear d E i) * (xi * ln (/ xi))).
Proof.
  intros Hp Hi Hj.
  apply (regular_ext _ (fun xi => (s xi 5%nat p p + s xi 5%nat p (other p)) * ((d i * d j - delta i j / 3) * dU d V w x0 E (r xi) p)
    + (s xi 6%nat p p + s xi 6%nat p (other p)) * (d i * (flow_at d V w x0 E (r xi) p j - dU d V w x0 E (r xi) p * d j)
                                         + d j * (flow_at d V w x0 E (r xi) p i - dU d V w x0 E (r xi) p * d i))
    + (s xi 7%nat p p + s xi 7%nat p (other p) + toward p * (r xi * s xi 6%nat p (other p))) * (d i * cr d w j + d j * cr d w i)
    + (3 / 2 * s xi 8%nat p p + 3 / 2 * s xi 8%nat p (other p) + toward p * (r xi * s xi 5%nat p (other p))) * ((d i * d j - delta i j / 3) * dEd d E)
    + (s xi 9%nat p p + s xi 9%nat p (other p) + toward p * (r xi * s xi 6%nat p (other p)) - residue a b * (xi * ln (/ xi))) * (d i * shear d E j + d j * shear d E i)
    + (s xi 10%nat p p + s xi 10%nat p (other p)) * zpart d E i j)).
  { intros xi Hx. rewrite (S_flow _ d V w x0 E (r xi) HE _ _ _ (H xi Hx) p i j Hp Hi Hj). ring. }
  repeat apply regular_plus; apply regular_prod;
    try (apply linear_mul_l, lin_dU); try (apply linear_plus; apply linear_mul_l, lin_perp); try apply linear_const;
    [apply c_same; [exact Hp|inl]|apply c_same; [exact Hp|inl]|apply c_S_rot; exact Hp|apply c_S_x; exact Hp|apply c_S_y; exact Hp|apply c_same; [exact Hp|inl]].
Qed.
End Pair.

(** x log(1/x) is not regular. *)
Lemma ln_le_id x : 0 < x -> ln x <= x.
Proof.
  intros Hx. destruct (Rle_lt_dec (ln x) 0) as [L|L]; [lra|].
  pose proof (exp_ineq1 (ln x) ltac:(lra)) as E. rewrite exp_ln in E by exact Hx. lra.
Qed.
Lemma ab c t : 0 <= t <= 1 -> - Rabs c <= c * t <= Rabs c.
Proof.
  intros Ht. pose proof (Rle_abs c) as A. pose proof (Rle_abs (- c)) as B. rewrite Rabs_Ropp in B. nra.
Qed.
Lemma xl_not_regular c : c <> 0 -> ~ regular (fun xi => c * (xi * ln (/ xi))).
Proof.
  intros Hc (c0 & c1 & c2 & c3 & c4 & H).
  assert (B : forall xi, 0 < xi <= 1 -> 0 <= xi * ln (/ xi) <= 1).
  { intros xi [Hx Hx1]. pose proof (Rinv_0_lt_compat xi Hx) as Hi. split.
    - apply Rmult_le_pos; [lra|]. rewrite <- ln_1. destruct (Req_dec 1 (/ xi)) as [->|N]; [lra|].
      left. apply ln_increasing; [lra|]. pose proof (Rinv_le_contravar xi 1 Hx Hx1) as K. rewrite Rinv_1 in K. lra.
    - pose proof (Rmult_le_compat_l xi _ _ ltac:(lra) (ln_le_id (/ xi) Hi)) as K. rewrite Rinv_r in K by lra. exact K. }
  assert (Z : c0 = 0).
  { set (K := Rabs (2 * c) + Rabs c1 + Rabs c2 + Rabs (2 * c3) + Rabs (2 * c4)).
    assert (Kp : forall x, 1 <= x -> Rabs c0 * x <= K).
    { intros x Hx. pose proof (H (/ x * / x) ltac:(apply Rmult_lt_0_compat; apply Rinv_0_lt_compat; lra)) as E. cbv beta in E.
      set (y := / x) in *. assert (Hxy : x * y = 1) by (unfold y; field; lra).
      assert (Hy : 0 < y <= 1) by (unfold y; split; [apply Rinv_0_lt_compat; lra|rewrite <- Rinv_1; apply Rinv_le_contravar; lra]).
      assert (Hy2 : 0 < y * y <= 1) by nra.
      assert (El : ln (/ (y * y)) = 2 * ln (/ y)).
      { rewrite Rinv_mult_distr by lra. rewrite ln_mult by (apply Rinv_0_lt_compat; lra). ring. }
      rewrite El in E. pose proof (B y Hy) as [B1 B2]. set (m := y * ln (/ y)) in *.
      assert (E1 : c0 = y * (2 * c * m - c1 * y - c2 * (y * y * y) - 2 * ((c3 + c4 * (y * y)) * (y * y) * m))).
      { unfold m. lra. }
      rewrite E1. rewrite Rabs_mult, (Rabs_right y) by lra.
      replace (y * Rabs (2 * c * m - c1 * y - c2 * (y * y * y) - 2 * ((c3 + c4 * (y * y)) * (y * y) * m)) * x)
        with (Rabs (2 * c * m - c1 * y - c2 * (y * y * y) - 2 * ((c3 + c4 * (y * y)) * (y * y) * m)) * (x * y)) by ring.
      rewrite Hxy, Rmult_1_r. unfold K. clear E E1 El.
      assert (Hyy : 0 <= y * y * y <= 1) by nra. assert (Hm1 : 0 <= y * y * m <= 1) by nra. assert (Hm2 : 0 <= y * y * (y * y) * m <= 1) by nra.
      pose proof (ab (2 * c) m ltac:(lra)) as A0. pose proof (ab c1 y ltac:(lra)) as A1. pose proof (ab c2 (y * y * y) ltac:(lra)) as A2.
      pose proof (ab (2 * c3) (y * y * m) ltac:(lra)) as A3. pose proof (ab (2 * c4) (y * y * (y * y) * m) ltac:(lra)) as A4.
      apply Rabs_le. lra. }
    destruct (Req_dec c0 0) as [|N]; [assumption|exfalso].
    pose proof (Rabs_pos_lt c0 N) as P.
    assert (KP : 0 <= K) by (unfold K; pose proof (Rabs_pos (2 * c)); pose proof (Rabs_pos c1); pose proof (Rabs_pos c2); pose proof (Rabs_pos (2 * c3)); pose proof (Rabs_pos (2 * c4)); lra).
    pose proof (Kp ((K + 1) / Rabs c0 + 1)) as Q.
    assert (Q1 : 0 <= (K + 1) / Rabs c0) by (apply Rmult_le_pos; [lra|left; apply Rinv_0_lt_compat; exact P]).
    specialize (Q ltac:(lra)). replace (Rabs c0 * ((K + 1) / Rabs c0 + 1)) with (K + 1 + Rabs c0) in Q by (field; lra). lra. }
  set (K := Rabs c1 + Rabs c2 + Rabs c3 + Rabs c4).
  assert (Kp : forall t, 0 < t -> Rabs c * t <= K).
  { intros t Ht. pose proof (exp_pos (- t)) as Ep. pose proof (exp_increasing (- t) 0 ltac:(lra)) as E1. rewrite exp_0 in E1.
    pose proof (H (exp (- t)) Ep) as E. cbv beta in E. pose proof (B (exp (- t)) ltac:(lra)) as Bt.
    assert (El : ln (/ exp (- t)) = t) by (rewrite <- exp_Ropp, Ropp_involutive; apply ln_exp).
    rewrite El in E, Bt. set (x := exp (- t)) in *. rewrite Z in E.
    assert (E2 : c * t = c1 + c2 * x + c3 * (x * t) + c4 * (x * (x * t))).
    { apply (Rmult_eq_reg_l x); [lra|lra]. }
    assert (Hxx : 0 <= x * (x * t) <= 1) by nra.
    pose proof (ab c1 1 ltac:(lra)) as A1. pose proof (ab c2 x ltac:(lra)) as A2. pose proof (ab c3 _ Bt) as A3. pose proof (ab c4 _ Hxx) as A4.
    rewrite <- (Rabs_right t) by lra. rewrite <- Rabs_mult. rewrite E2. unfold K. apply Rabs_le. lra. }
  pose proof (Rabs_pos_lt c Hc) as P.
  assert (KP : 0 <= K) by (unfold K; pose proof (Rabs_pos c1); pose proof (Rabs_pos c2); pose proof (Rabs_pos c3); pose proof (Rabs_pos c4); lra).
  pose proof (Kp ((K + 1) / Rabs c) ltac:(apply Rmult_lt_0_compat; [lra|apply Rinv_0_lt_compat; exact P])) as Q.
  replace (Rabs c * ((K + 1) / Rabs c)) with (K + 1) in Q by (field; lra). lra.
Qed.
