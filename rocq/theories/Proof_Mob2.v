(** Symmetries, exchange of particles and Faxén's laws for the pair mobilities. *)
From Coq Require Import Reals Lra Lia Arith Bool.
From Verif Require Import Base Model_Pack Model_Mob Spec_Calc Proof_Calc Proof_Mob.
Local Open Scope R_scope.

Lemma tiny_pos : 0 < tiny.
Proof. unfold tiny. apply Rinv_0_lt_compat. apply pow_lt. lra. Qed.

Lemma nonzero_norm r : tiny < norm r -> nonzero r.
Proof.
  intros H. pose proof tiny_pos. rewrite norm_len in H. unfold nonzero.
  pose proof (len_sq r) as Hq. rewrite <- Hq. nra.
Qed.

Definition L1 (r : vec) : R := Rabs (r 0%nat) + Rabs (r 1%nat) + Rabs (r 2%nat).
Lemma nonzero_L1 r : tiny < L1 r -> nonzero r.
Proof.
  intros H. pose proof tiny_pos. unfold nonzero, dot3, L1 in *.
  destruct (Req_dec (r 0%nat) 0) as [E0|N0]; [|nra].
  destruct (Req_dec (r 1%nat) 0) as [E1|N1]; [|nra].
  destruct (Req_dec (r 2%nat) 0) as [E2|N2]; [|nra].
  rewrite E0, E1, E2, Rabs_R0 in H. lra.
Qed.
Lemma norm_le_L1 r : norm r <= L1 r.
Proof.
  rewrite norm_len. unfold len, L1.
  set (a := Rabs (r 0%nat)). set (b := Rabs (r 1%nat)). set (c := Rabs (r 2%nat)).
  assert (Ha : 0 <= a) by apply Rabs_pos. assert (Hb : 0 <= b) by apply Rabs_pos.
  assert (Hc : 0 <= c) by apply Rabs_pos.
  replace (dot3 r r) with (a * a + b * b + c * c).
  2:{ unfold dot3, a, b, c. rewrite <- !Rabs_mult. rewrite !(Rabs_pos_eq (_ * _)) by nra. reflexivity. }
  rewrite <- (sqrt_Rsqr (a + b + c)) by lra. apply sqrt_le_1_alt. unfold Rsqr. nra.
Qed.
Lemma norm_vopp r : norm (vopp r) = norm r.
Proof. unfold norm, vopp. f_equal. ring. Qed.
Lemma L1_vopp r : L1 (vopp r) = L1 r.
Proof. unfold L1, vopp. rewrite !Rabs_Ropp. reflexivity. Qed.

(** ** Parity *)
Lemma D_J_odd r s l i j : D_J (vopp r) s l i j = - D_J r s l i j.
Proof. unfold D_J, vopp, Rdiv. ring. Qed.
Lemma DD_J_even r s m l i j : DD_J (vopp r) s m l i j = DD_J r s m l i j.
Proof. unfold DD_J, vopp, Rdiv. ring. Qed.
Lemma DLap_J_odd r s l i j : DLap_J (vopp r) s l i j = - DLap_J r s l i j.
Proof. unfold DLap_J, vopp, Rdiv. ring. Qed.
Lemma DLap_K_even r s l i j k : DLap_K (vopp r) s l i j k = DLap_K r s l i j k.
Proof. unfold DLap_K, vopp, Rdiv. ring. Qed.
Lemma K_odd r s i j k : K (vopp r) s i j k = - K r s i j k.
Proof. unfold K. rewrite !D_J_odd. ring. Qed.
Lemma Rt_odd r s i j : Rt (vopp r) s i j = - Rt r s i j.
Proof.
  unfold Rt. rewrite Ropp_mult_distr_r. f_equal. unfold lsum2.
  rewrite <- rsum_opp. apply rsum_ext. intros k _.
  rewrite <- rsum_opp. apply rsum_ext. intros l _. rewrite D_J_odd. destruct (distinct3 j k l); ring.
Qed.
Lemma D_R_even r s l i j : D_R (vopp r) s l i j = D_R r s l i j.
Proof.
  unfold D_R. f_equal. unfold lsum2. apply rsum_ext. intros k _. apply rsum_ext. intros m _.
  rewrite DD_J_even. reflexivity.
Qed.
Lemma D_K_even r s l i j k : D_K (vopp r) s l i j k = D_K r s l i j k.
Proof. unfold D_K. rewrite !DD_J_even. reflexivity. Qed.

(** ** Index symmetries *)

Lemma DD_J_swap_d r s m l i j : DD_J r s m l i j = DD_J r s l m i j.
Proof. unfold DD_J, kronkron. rewrite (delta_sym l m). unfold Rdiv. ring. Qed.
Lemma DD_J_swap_ij r s m l i j : DD_J r s m l i j = DD_J r s m l j i.
Proof. unfold DD_J, kronkron. rewrite (delta_sym i j). unfold Rdiv. ring. Qed.
Lemma DLap_K_swap1 r s l i j k : DLap_K r s l i j k = DLap_K r s l j i k.
Proof. unfold DLap_K, kronkron. rewrite (delta_sym j i). unfold Rdiv. ring. Qed.
Lemma DLap_K_swap2 r s l i j k : DLap_K r s l i j k = DLap_K r s l i k j.
Proof. unfold DLap_K, kronkron. rewrite (delta_sym j k). unfold Rdiv. ring. Qed.
Lemma DLap_K_swap0 r s l i j k : DLap_K r s l i j k = DLap_K r s i l j k.
Proof.
  unfold DLap_K, kronkron. rewrite (delta_sym l i), (delta_sym l j), (delta_sym l k).
  rewrite (delta_sym j i), (delta_sym k i). unfold Rdiv. ring.
Qed.
Lemma D_K_sym r s l i j k : D_K r s l i j k = D_K r s l i k j.
Proof. unfold D_K. ring. Qed.
Lemma K_sym r s i j k : K r s i j k = K r s i k j.
Proof. unfold K. ring. Qed.

Lemma Lap_K_st r i : (i < 3)%nat -> nonzero r -> sym_traceless (fun j k => Lap_K r (norm r) i j k).
Proof.
  intros Hi Hr. split.
  - intros j k _ _. unfold Lap_K. apply (DLap_J_sym r (norm r)).
  - unfold Lap_K, DLap_J. tens; coords r Hr; field [H0]; lra.
Qed.
Lemma K_st r i : (i < 3)%nat -> nonzero r -> sym_traceless (fun j k => K r (norm r) i j k).
Proof.
  intros Hi Hr. split.
  - intros j k _ _. apply K_sym.
  - unfold K, D_J. tens; coords r Hr; field [H0]; lra.
Qed.
Lemma D_K_st r l i : (l < 3)%nat -> (i < 3)%nat -> nonzero r ->
  sym_traceless (fun j k => D_K r (norm r) l i j k).
Proof.
  intros Hl Hi Hr. split.
  - intros j k _ _. apply D_K_sym.
  - unfold D_K, DD_J, kronkron. tens; coords r Hr; field [H0]; lra.
Qed.
Lemma DLap_K_st r l i : (l < 3)%nat -> (i < 3)%nat -> nonzero r ->
  sym_traceless (fun j k => DLap_K r (norm r) l i j k).
Proof.
  intros Hl Hi Hr. split.
  - intros j k _ _. apply DLap_K_swap2.
  - unfold DLap_K, kronkron. tens; coords r Hr; field [H0]; lra.
Qed.
Lemma DLap_K_trace_li r j k : (j < 3)%nat -> (k < 3)%nat -> nonzero r ->
  DLap_K r (norm r) 0 0 j k + DLap_K r (norm r) 1 1 j k + DLap_K r (norm r) 2 2 j k = 0.
Proof.
  intros Hl Hi Hr. unfold DLap_K, kronkron. tens; coords r Hr; field [H0]; lra.
Qed.
Lemma D_K_trace_li r j k : (j < 3)%nat -> (k < 3)%nat -> nonzero r ->
  D_K r (norm r) 0 0 j k + D_K r (norm r) 1 1 j k + D_K r (norm r) 2 2 j k = 0.
Proof.
  intros Hl Hi Hr. unfold D_K, DD_J, kronkron. tens; coords r Hr; field [H0]; lra.
Qed.

Lemma st_lin f g c d : sym_traceless f -> sym_traceless g ->
  sym_traceless (fun j k => c * f j k + d * g j k).
Proof.
  intros [Sf Tf] [Sg Tg]. split.
  - intros j k Hj Hk. rewrite Sf, Sg by assumption. reflexivity.
  - transitivity (c * (f 0%nat 0%nat + f 1%nat 1%nat + f 2%nat 2%nat)
      + d * (g 0%nat 0%nat + g 1%nat 1%nat + g 2%nat 2%nat)); [ring|]. rewrite Tf, Tg. ring.
Qed.
Lemma st_ext f g : (forall j k, f j k = g j k) -> sym_traceless f -> sym_traceless g.
Proof.
  intros E [S T]. split.
  - intros; rewrite <- !E; apply S; assumption.
  - rewrite <- !E. exact T.
Qed.
Lemma st_zero : sym_traceless (fun _ _ => 0).
Proof. split; [reflexivity|ring]. Qed.
Lemma st_scal f c : sym_traceless f -> sym_traceless (fun j k => c * f j k).
Proof.
  intros H. apply (st_ext (fun j k => c * f j k + 0 * f j k)); [intros; ring|]. apply st_lin; exact H.
Qed.
Lemma st_rsum n (f : nat -> nat -> nat -> R) :
  (forall l, (l < n)%nat -> sym_traceless (f l)) -> sym_traceless (fun j k => rsum n (fun l => f l j k)).
Proof.
  induction n as [|n IH]; intros H; simpl.
  - exact st_zero.
  - apply (st_ext (fun j k => 1 * rsum n (fun l => f l j k) + 1 * f n j k)); [intros; ring|].
    apply st_lin; [apply IH; intros; apply H; lia|apply H; lia].
Qed.

Lemma M13_st r a1 a2 i c mu : (i < 3)%nat ->
  sym_traceless (fun j k => M13 r (norm r) a1 a2 i j k c mu).
Proof.
  intros Hi. unfold M13. destruct (Rlt_dec tiny (norm r)) as [H|H]; [|exact st_zero].
  pose proof (nonzero_norm r H) as Hr.
  apply (st_ext (fun j k => - c * K r (norm r) i j k + (- c * (a1 ^ 2 / 6 + a2 ^ 2 / 10)) * Lap_K r (norm r) i j k));
    [intros; ring|]. apply st_lin; [apply K_st|apply Lap_K_st]; assumption.
Qed.

Lemma M23_st r a1 a2 i c mu : (i < 3)%nat ->
  sym_traceless (fun j k => M23 r (norm r) a1 a2 i j k c mu).
Proof.
  intros Hi. unfold M23. fold (L1 r). destruct (Rlt_dec tiny (L1 r)) as [H|H]; [|exact st_zero].
  pose proof (nonzero_L1 r H) as Hr.
  apply st_scal. unfold lsum2.
  apply (st_rsum 3 (fun l j k => rsum 3 (fun m => if distinct3 i l m then levi i l m *
    (D_K r (norm r) l m j k + a2 ^ 2 / 6 * DLap_K r (norm r) l m j k) else 0))).
  intros l Hl.
  apply (st_rsum 3 (fun m j k => if distinct3 i l m then levi i l m *
    (D_K r (norm r) l m j k + a2 ^ 2 / 6 * DLap_K r (norm r) l m j k) else 0)).
  intros m Hm. destruct (distinct3 i l m); [|exact st_zero].
  apply st_scal.
  apply (st_ext (fun j k => 1 * D_K r (norm r) l m j k + a2 ^ 2 / 6 * DLap_K r (norm r) l m j k));
    [intros; ring|]. apply st_lin; [apply D_K_st|apply DLap_K_st]; assumption.
Qed.

Lemma M33_st_kl r a1 a2 i j c mu : (i < 3)%nat -> (j < 3)%nat -> nonzero r ->
  sym_traceless (fun k l => M33 r (norm r) a1 a2 i j k l c mu).
Proof.
  intros Hi Hj Hr. unfold M33. apply st_scal.
  apply (st_ext (fun k l => 1 * (1 * D_K r (norm r) j i k l + 1 * D_K r (norm r) i j k l)
    + (a1 ^ 2 + a2 ^ 2) / 10 * (1 * DLap_K r (norm r) j i k l + 1 * DLap_K r (norm r) i j k l)));
    [intros; ring|].
  apply st_lin; apply st_lin; first [apply D_K_st|apply DLap_K_st]; assumption.
Qed.

Lemma M33_st_ij r a1 a2 k l c mu : (k < 3)%nat -> (l < 3)%nat -> nonzero r ->
  sym_traceless (fun i j => M33 r (norm r) a1 a2 i j k l c mu).
Proof.
  intros Hi Hj Hr. split.
  - intros i j _ _. unfold M33. ring.
  - unfold M33.
    pose proof (DLap_K_trace_li r k l Hi Hj Hr) as H1.
    pose proof (D_K_trace_li r k l Hi Hj Hr) as H2.
    transitivity (- c * ((D_K r (norm r) 0 0 k l + D_K r (norm r) 1 1 k l + D_K r (norm r) 2 2 k l)
      + (a1 ^ 2 + a2 ^ 2) / 10 * (DLap_K r (norm r) 0 0 k l + DLap_K r (norm r) 1 1 k l + DLap_K r (norm r) 2 2 k l)));
      [field|]. rewrite H1, H2. ring.
Qed.

(** ** Exchange of the two particles *)
Lemma M11_exchange ri rj s a1 a2 i j c mu : tiny < s ->
  M11 (- rj) (- ri) s a2 a1 j i c mu = M11 ri rj s a1 a2 i j c mu.
Proof.
  intros H. unfold M11. destruct (Rlt_dec tiny s); [|contradiction].
  unfold J, Lap_J. rewrite (delta_sym j i). unfold Rdiv. ring.
Qed.

Lemma M12_radii r s a1 a2 b1 b2 i j c mu : (i < 3)%nat -> (j < 3)%nat ->
  M12 r s a1 a2 i j c mu = M12 r s b1 b2 i j c mu.
Proof. intros Hi Hj. unfold M12. rewrite Lap_R_zero by assumption. destruct (Rlt_dec tiny s); ring. Qed.

Lemma M12_odd r s a1 a2 i j c mu : (i < 3)%nat -> (j < 3)%nat ->
  M12 (vopp r) s a2 a1 i j c mu = - M12 r s a1 a2 i j c mu.
Proof.
  intros Hi Hj. unfold M12. rewrite !Lap_R_zero by assumption. rewrite Rt_odd.
  destruct (Rlt_dec tiny s); ring.
Qed.

Lemma Rt_antisym r s i j : (i < 3)%nat -> (j < 3)%nat -> 0 < s -> Rt r s j i = - Rt r s i j.
Proof.
  intros Hi Hj Hs. rewrite !Rt_closed by assumption. unfold eps, rsum. tens; simpl; field; lra.
Qed.

(** angular velocity due to a force seen from either particle *)
Lemma M12_transposed r s a1 a2 i j c mu : (i < 3)%nat -> (j < 3)%nat ->
  M12 (vopp r) s a2 a1 j i c mu = M12 r s a1 a2 i j c mu.
Proof.
  intros Hi Hj. rewrite M12_odd by assumption. unfold M12. rewrite !Lap_R_zero by assumption.
  destruct (Rlt_dec tiny s) as [H|H]; [|ring]. pose proof tiny_pos.
  rewrite (Rt_antisym r s i j) by (try assumption; lra). ring.
Qed.

Lemma M13_odd r s a1 a2 i j k c mu :
  M13 (vopp r) s a1 a2 i j k c mu = - M13 r s a1 a2 i j k c mu.
Proof.
  unfold M13, Lap_K. rewrite K_odd, DLap_J_odd. destruct (Rlt_dec tiny s); ring.
Qed.

Lemma M22_closed r s a1 a2 i j c mu : (i < 3)%nat -> (j < 3)%nat ->
  M22 r s a1 a2 i j c mu =
  if Rlt_dec tiny (L1 r) then
    c * (1/2) * (- (1/2) * rsum 3 (fun k => rsum 3 (fun l => rsum 3 (fun m => rsum 3 (fun n =>
       eps i k l * eps j m n * DD_J r s k m l n)))))
  else delta i j / (8 * PI * mu * a1 ^ 3).
Proof.
  intros Hi Hj. unfold M22. fold (L1 r). destruct (Rlt_dec tiny (L1 r)); [|reflexivity].
  rewrite (lsum2_levi _ i (fun k l => D_R r s k l j)); [|exact Hi|epsz].
  f_equal. rewrite <- rsum_scal_l. apply rsum_ext. intros k Hk.
  rewrite <- rsum_scal_l. apply rsum_ext. intros l Hl.
  rewrite D_R_eps by exact Hj.
  transitivity (- (1/2) * (eps i k l * rsum 3 (fun m => rsum 3 (fun n => eps j m n * DD_J r s k m l n)))); [ring|].
  f_equal. rewrite <- rsum_scal_l. apply rsum_ext. intros m Hm.
  rewrite <- rsum_scal_l. apply rsum_ext. intros n Hn. ring.
Qed.

Lemma M22_exchange r s a1 a2 i j c mu : (i < 3)%nat -> (j < 3)%nat -> tiny < L1 r ->
  M22 (vopp r) s a2 a1 j i c mu = M22 r s a1 a2 i j c mu.
Proof.
  intros Hi Hj H. rewrite !M22_closed by assumption. rewrite L1_vopp.
  destruct (Rlt_dec tiny (L1 r)); [|contradiction]. do 2 f_equal.
  (* swap (k,l) with (m,n) *)
  transitivity (rsum 3 (fun m => rsum 3 (fun n => rsum 3 (fun k => rsum 3 (fun l =>
       eps j k l * eps i m n * DD_J r s k m l n))))).
  - transitivity (rsum 3 (fun k => rsum 3 (fun m => rsum 3 (fun l => rsum 3 (fun n =>
       eps j k l * eps i m n * DD_J r s k m l n))))).
    + apply rsum_ext. intros k _.
      transitivity (rsum 3 (fun l => rsum 3 (fun m => rsum 3 (fun n =>
         eps j k l * eps i m n * DD_J r s k m l n)))).
      * apply rsum_ext; intros l _. apply rsum_ext; intros m _. apply rsum_ext; intros n _.
        rewrite DD_J_even. ring.
      * apply (rsum_swap 3 3 (fun l m => rsum 3 (fun n => eps j k l * eps i m n * DD_J r s k m l n))).
    + rewrite (rsum_swap 3 3 (fun k m => rsum 3 (fun l => rsum 3 (fun n =>
         eps j k l * eps i m n * DD_J r s k m l n)))).
      apply rsum_ext. intros m _.
      transitivity (rsum 3 (fun k => rsum 3 (fun n => rsum 3 (fun l =>
         eps j k l * eps i m n * DD_J r s k m l n)))).
      * apply rsum_ext. intros k _. apply rsum_swap.
      * apply (rsum_swap 3 3 (fun k n => rsum 3 (fun l => eps j k l * eps i m n * DD_J r s k m l n))).
  - apply rsum_ext; intros k _. apply rsum_ext; intros l _. apply rsum_ext; intros m _. apply rsum_ext; intros n _.
    rewrite (DD_J_swap_d r s m k n l), (DD_J_swap_ij r s k m n l). ring.
Qed.

Lemma M23_eps r s a1 a2 i j k c mu : (i < 3)%nat ->
  M23 r s a1 a2 i j k c mu =
  if Rlt_dec tiny (L1 r) then
    - (c * (1/2)) * rsum 3 (fun l => rsum 3 (fun m => eps i l m * D_K r s l m j k))
  else 0.
Proof.
  intros Hi. unfold M23. fold (L1 r). destruct (Rlt_dec tiny (L1 r)); [|reflexivity].
  rewrite (lsum2_levi _ i (fun l m => D_K r s l m j k + (a2 ^ 2 / 6) * DLap_K r s l m j k)); [|exact Hi|epsz].
  transitivity (- (c * (1/2)) * (rsum 3 (fun l => rsum 3 (fun m => eps i l m * D_K r s l m j k))
     + a2 ^ 2 / 6 * rsum 3 (fun l => rsum 3 (fun m => eps i l m * DLap_K r s l m j k)))).
  - replace (c * - (1/2)) with (- (c * (1/2))) by ring. f_equal.
    rewrite <- rsum_scal_l, <- rsum_plus. apply rsum_ext. intros l _.
    rewrite <- rsum_scal_l, <- rsum_plus. apply rsum_ext. intros m _. ring.
  - assert (E : rsum 3 (fun l => rsum 3 (fun m => eps i l m * DLap_K r s l m j k)) = 0).
    { unfold rsum, eps. rewrite (DLap_K_swap0 r s 1 0), (DLap_K_swap0 r s 2 0), (DLap_K_swap0 r s 2 1).
      idx3 Hi; simpl; field. }
    rewrite E. ring.
Qed.

Lemma M23_even r s a1 a2 b1 b2 i j k c mu : (i < 3)%nat ->
  M23 (vopp r) s b1 b2 i j k c mu = M23 r s a1 a2 i j k c mu.
Proof.
  intros Hi. rewrite !M23_eps by exact Hi. rewrite L1_vopp.
  destruct (Rlt_dec tiny (L1 r)); [|reflexivity]. f_equal.
  apply rsum_ext; intros l _. apply rsum_ext; intros m _. rewrite D_K_even. reflexivity.
Qed.

Lemma M33_exchange r s a1 a2 i j k l c mu :
  M33 (vopp r) s a2 a1 k l i j c mu = M33 r s a1 a2 i j k l c mu.
Proof.
  unfold M33. rewrite !D_K_even, !DLap_K_even. unfold D_K, DD_J, DLap_K, kronkron.
  rewrite (delta_sym j i), (delta_sym k i), (delta_sym l i), (delta_sym k j), (delta_sym l j), (delta_sym l k).
  unfold Rdiv. ring.
Qed.

(** ** Faxén's laws *)
(** Flow at displacement [q] from a sphere of radius [a] with unit force in
    direction [j], unit torque about [j], unit stresslet [jk] (times -1). *)
Definition flow_F (c a : R) (j i : nat) (q : vec) : R := c * (Jf i j q + a ^ 2 / 6 * LJf i j q).
Definition flow_T (c : R) (j i : nat) (q : vec) : R := c * Rt q (norm q) i j.
Definition flow_S (c a : R) (j k i : nat) (q : vec) : R :=
  - c * (K q (norm q) i j k + a ^ 2 / 10 * Lap_K q (norm q) i j k).

Lemma flow_F_laplacian c a j i q : (i < 3)%nat -> (j < 3)%nat -> nonzero q ->
  laplacian (flow_F c a j i) q (c * LJf i j q).
Proof.
  intros Hi Hj Hq. eapply laplacian_eq.
  - unfold flow_F. apply laplacian_scal. apply laplacian_plus.
    + apply Lap_J_laplacian; assumption.
    + apply laplacian_scal. apply LJ_harmonic; assumption.
  - unfold LJf. ring.
Qed.
Lemma flow_S_laplacian c a j k i q : (i < 3)%nat -> (j < 3)%nat -> (k < 3)%nat -> nonzero q ->
  laplacian (flow_S c a j k i) q (- c * Lap_K q (norm q) i j k).
Proof.
  intros Hi Hj Hk Hq. eapply laplacian_eq.
  - unfold flow_S. apply laplacian_scal.
    apply (laplacian_plus (fun q => K q (norm q) i j k)).
    + apply Lap_K_laplacian; assumption.
    + apply (laplacian_scal _ (fun q => Lap_K q (norm q) i j k)). apply Lap_K_harmonic; assumption.
  - ring.
Qed.

Lemma M11_faxen r a1 a2 i j c mu : (i < 3)%nat -> (j < 3)%nat -> tiny < norm r ->
  faxen_U a1 (flow_F c a2 j) r i (M11 (r i) (r j) (norm r) a1 a2 i j c mu).
Proof.
  intros Hi Hj H. pose proof (nonzero_norm r H) as Hr.
  exists (c * LJf i j r). split; [apply flow_F_laplacian; assumption|].
  unfold M11. destruct (Rlt_dec tiny (norm r)); [|contradiction].
  unfold flow_F, LJf, Jf. field.
Qed.

Lemma M12_faxen r a1 a2 i j c mu : (i < 3)%nat -> (j < 3)%nat -> tiny < norm r ->
  faxen_U a1 (flow_T c j) r i (M12 r (norm r) a1 a2 i j c mu).
Proof.
  intros Hi Hj H. pose proof (nonzero_norm r H) as Hr.
  exists (c * Lap_R r (norm r) i j). split.
  - unfold flow_T. apply (laplacian_scal c (fun q => Rt q (norm q) i j)). apply Lap_R_laplacian; assumption.
  - unfold M12. destruct (Rlt_dec tiny (norm r)); [|contradiction]. unfold flow_T. field.
Qed.

Lemma M13_faxen r a1 a2 i j k c mu : (i < 3)%nat -> (j < 3)%nat -> (k < 3)%nat -> tiny < norm r ->
  faxen_U a1 (flow_S c a2 j k) r i (M13 r (norm r) a1 a2 i j k c mu).
Proof.
  intros Hi Hj Hk H. pose proof (nonzero_norm r H) as Hr.
  exists (- c * Lap_K r (norm r) i j k). split; [apply flow_S_laplacian; assumption|].
  unfold M13. destruct (Rlt_dec tiny (norm r)); [|contradiction].
  unfold flow_S. field.
Qed.

Lemma flow_F_partial c a j i l r : (l < 3)%nat -> nonzero r ->
  partial l (flow_F c a j i) r (c * (D_J r (norm r) l i j + a ^ 2 / 6 * DLap_J r (norm r) l i j)).
Proof.
  intros Hl Hr. unfold flow_F. apply partial_scal. apply partial_plus; [apply D_J_partial; assumption|].
  apply partial_scal. apply LJ_partial; assumption.
Qed.
Lemma flow_S_partial c a j k i l r : (l < 3)%nat -> nonzero r ->
  partial l (flow_S c a j k i) r (- c * (D_K r (norm r) l i j k + a ^ 2 / 10 * DLap_K r (norm r) l i j k)).
Proof.
  intros Hl Hr. unfold flow_S. apply partial_scal.
  apply (partial_plus l (fun q => K q (norm q) i j k)); [apply D_K_partial; assumption|].
  apply (partial_scal l _ (fun q => Lap_K q (norm q) i j k)). apply DLap_K_partial; assumption.
Qed.

Lemma M21_faxen r a1 a2 i j c mu : (i < 3)%nat -> (j < 3)%nat -> tiny < norm r ->
  faxen_O (flow_F c a2 j) r i (M12 (vopp r) (norm r) a2 a1 j i c mu).
Proof.
  intros Hi Hj H. pose proof (nonzero_norm r H) as Hr.
  exists (fun k l => c * (D_J r (norm r) k l j + a2 ^ 2 / 6 * DLap_J r (norm r) k l j)). split.
  - intros k l Hk Hl. apply flow_F_partial; assumption.
  - rewrite M12_transposed by assumption.
    unfold M12. destruct (Rlt_dec tiny (norm r)); [|contradiction].
    rewrite Lap_R_zero by assumption. pose proof tiny_pos.
    rewrite Rt_closed by (try assumption; lra).
    unfold rsum, eps, D_J, DLap_J. tens; simpl; field; lra.
Qed.

Lemma M22_faxen r a1 a2 i j c mu : (i < 3)%nat -> (j < 3)%nat -> tiny < L1 r ->
  faxen_O (flow_T c j) r i (M22 r (norm r) a1 a2 i j c mu).
Proof.
  intros Hi Hj H. pose proof (nonzero_L1 r H) as Hr.
  exists (fun k l => c * D_R r (norm r) k l j). split.
  - intros k l Hk Hl. unfold flow_T. apply (partial_scal k c (fun q => Rt q (norm q) l j)).
    apply D_R_partial; assumption.
  - unfold M22. fold (L1 r). destruct (Rlt_dec tiny (L1 r)); [|contradiction].
    rewrite (lsum2_levi _ i (fun k l => D_R r (norm r) k l j)); [|exact Hi|epsz].
    transitivity (1/2 * (c * rsum 3 (fun k => rsum 3 (fun l => eps i k l * D_R r (norm r) k l j)))); [ring|].
    f_equal. rewrite <- rsum_scal_l. apply rsum_ext; intros k _.
    rewrite <- rsum_scal_l. apply rsum_ext; intros l _. ring.
Qed.

Lemma M23_faxen r a1 a2 i j k c mu : (i < 3)%nat -> (j < 3)%nat -> (k < 3)%nat -> tiny < L1 r ->
  faxen_O (flow_S c a2 j k) r i (M23 r (norm r) a1 a2 i j k c mu).
Proof.
  intros Hi Hj Hk H. pose proof (nonzero_L1 r H) as Hr.
  exists (fun l m => - c * (D_K r (norm r) l m j k + a2 ^ 2 / 10 * DLap_K r (norm r) l m j k)). split.
  - intros l m Hl Hm. apply flow_S_partial; assumption.
  - rewrite M23_eps by assumption. destruct (Rlt_dec tiny (L1 r)); [|contradiction].
    assert (E : rsum 3 (fun l => rsum 3 (fun m => eps i l m * DLap_K r (norm r) l m j k)) = 0).
    { unfold rsum, eps. rewrite (DLap_K_swap0 r (norm r) 1 0), (DLap_K_swap0 r (norm r) 2 0), (DLap_K_swap0 r (norm r) 2 1).
      idx3 Hi; simpl; field. }
    transitivity (1/2 * (- c * (rsum 3 (fun l => rsum 3 (fun m => eps i l m * D_K r (norm r) l m j k))
       + a2 ^ 2 / 10 * rsum 3 (fun l => rsum 3 (fun m => eps i l m * DLap_K r (norm r) l m j k))))).
    + rewrite E. ring.
    + f_equal. rewrite <- rsum_scal_l, <- rsum_plus, <- rsum_scal_l. apply rsum_ext; intros l _.
      rewrite <- rsum_scal_l, <- rsum_plus, <- rsum_scal_l. apply rsum_ext; intros m _. ring.
Qed.

Lemma M31_faxen r a1 a2 i j k c mu : (i < 3)%nat -> (j < 3)%nat -> (k < 3)%nat -> tiny < norm r ->
  faxen_E a1 (flow_F c a2 k) r i j (M13 (vopp r) (norm r) a2 a1 k i j c mu).
Proof.
  intros Hi Hj Hk H. pose proof (nonzero_norm r H) as Hr.
  exists (fun l q => c * LJf l k q),
    (fun l m => c * (D_J r (norm r) l m k + a2 ^ 2 / 6 * DLap_J r (norm r) l m k)),
    (fun l m => c * DLap_J r (norm r) l m k).
  split; [|split; [|split]].
  - intros l m Hl Hm. apply flow_F_partial; assumption.
  - intros l q Hl Hq. apply flow_F_laplacian; assumption.
  - intros l m Hl Hm. apply partial_scal. apply LJ_partial; assumption.
  - rewrite M13_odd. unfold M13. destruct (Rlt_dec tiny (norm r)); [|contradiction].
    unfold K, Lap_K, D_J, DLap_J.
    rewrite (delta_sym k i), (delta_sym k j), (delta_sym j i). unfold Rdiv. field.
    rewrite norm_len. pose proof (len_pos r Hr). lra.
Qed.

Lemma M32_faxen r a1 a2 i j k c mu : (i < 3)%nat -> (j < 3)%nat -> (k < 3)%nat -> tiny < norm r ->
  faxen_E a1 (flow_T c k) r i j (M23 (vopp r) (norm r) a2 a1 k i j c mu).
Proof.
  intros Hi Hj Hk H. pose proof (nonzero_norm r H) as Hr.
  exists (fun l q => 0),
    (fun l m => c * D_R r (norm r) l m k),
    (fun l m => 0).
  split; [|split; [|split]].
  - intros l m Hl Hm. unfold flow_T. apply (partial_scal l c (fun q => Rt q (norm q) m k)).
    apply D_R_partial; assumption.
  - intros l q Hl Hq. unfold flow_T. eapply laplacian_eq.
    + apply (laplacian_scal c (fun q => Rt q (norm q) l k)). apply Lap_R_laplacian; assumption.
    + rewrite Lap_R_zero by assumption. ring.
  - intros l m Hl Hm. apply partial_const.
  - rewrite (M23_even r (norm r) a1 a2) by assumption. rewrite M23_eps by assumption.
    destruct (Rlt_dec tiny (L1 r)) as [HL|HL].
    2:{ exfalso. apply HL. pose proof (norm_le_L1 r). lra. }
    rewrite !D_R_eps by assumption. unfold rsum, D_K, eps.
    unfold DD_J, kronkron.
    assert (Hp : norm r <> 0) by (rewrite norm_len; pose proof (len_pos r Hr); lra).
    tens; simpl; field; assumption.
Qed.

Lemma M33_faxen r a1 a2 i j k l c mu : (i < 3)%nat -> (j < 3)%nat -> (k < 3)%nat -> (l < 3)%nat -> nonzero r ->
  faxen_E a1 (flow_S c a2 k l) r i j (M33 r (norm r) a1 a2 i j k l c mu).
Proof.
  intros Hi Hj Hk Hl Hr.
  exists (fun m q => - c * Lap_K q (norm q) m k l),
    (fun n m => - c * (D_K r (norm r) n m k l + a2 ^ 2 / 10 * DLap_K r (norm r) n m k l)),
    (fun n m => - c * DLap_K r (norm r) n m k l).
  split; [|split; [|split]].
  - intros n m Hn Hm. apply flow_S_partial; assumption.
  - intros m q Hm Hq. apply flow_S_laplacian; assumption.
  - intros n m Hn Hm. apply (partial_scal n (- c) (fun q => Lap_K q (norm q) m k l)).
    apply DLap_K_partial; assumption.
  - unfold M33. field.
Qed.
