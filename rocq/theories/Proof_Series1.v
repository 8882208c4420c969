(** Power series of the logarithms of the near-field expansions. *)
From Coq Require Import Reals Arith Lra Lia.
From Verif Require Import Base.
Local Open Scope R_scope.

(** A function that starts at 0 and has a derivative between 0 and B. *)
Lemma bounded_by (h h' : R -> R) x B : 0 <= x -> h 0 = 0 -> (forall t, 0 <= t <= x -> derivable_pt_lim h t (h' t)) ->
  (forall t, 0 <= t <= x -> 0 <= h' t <= B) -> 0 <= h x <= B * x.
Proof.
  intros Hx H0 Hd HB. destruct (Rle_lt_or_eq_dec 0 x Hx) as [Lx|<-].
  - destruct (MVT_cor2 h h' 0 x Lx Hd) as (c & Ec & Hc). rewrite H0 in Ec. destruct (HB c ltac:(lra)) as [B0 B1].
    rewrite !Rminus_0_r in Ec. rewrite Ec. split; [apply Rmult_le_pos; lra|apply Rmult_le_compat_r; lra].
  - rewrite H0. lra.
Qed.
Lemma pow_between x K t : 0 <= t <= x -> 0 <= t ^ K <= x ^ K.
Proof. intros Ht. split; [apply pow_le; lra|apply pow_incr; lra]. Qed.

Lemma d_rsum (f f' : nat -> R -> R) t K : (forall j, (j < K)%nat -> derivable_pt_lim (f j) t (f' j t)) -> derivable_pt_lim (fun s => rsum K (fun j => f j s)) t (rsum K (fun j => f' j t)).
Proof.
  induction K as [|K IH]; intros Hf; [apply (derivable_pt_lim_const 0)|].
  change (derivable_pt_lim (plus_fct (fun s => rsum K (fun j => f j s)) (f K)) t (rsum K (fun j => f' j t) + f' K t)).
  apply derivable_pt_lim_plus; [apply IH; intros j Hj; apply Hf; lia|apply Hf; lia].
Qed.
Lemma d_monomial c n t : derivable_pt_lim (fun s => c * s ^ S n) t (c * (INR (S n) * t ^ n)).
Proof. change (derivable_pt_lim (mult_real_fct c (fun s => s ^ S n)) t (c * (INR (S n) * t ^ n))). apply derivable_pt_lim_scal. apply (derivable_pt_lim_pow t (S n)). Qed.
Lemma d_ln_lin e t : 0 < 1 + e * t -> derivable_pt_lim (fun s => ln (1 + e * s)) t (e / (1 + e * t)).
Proof.
  intros Hp. replace (e / (1 + e * t)) with (/ (1 + e * t) * e) by (unfold Rdiv; ring).
  change (derivable_pt_lim (comp ln (fun s => 1 + e * s)) t (/ (1 + e * t) * e)). apply derivable_pt_lim_comp.
  - enough (K : derivable_pt_lim (plus_fct (fct_cte 1) (mult_real_fct e id)) t (0 + e * 1)) by (rewrite Rplus_0_l, Rmult_1_r in K; exact K).
    apply derivable_pt_lim_plus; [apply derivable_pt_lim_const|apply derivable_pt_lim_scal, derivable_pt_lim_id].
  - apply derivable_pt_lim_ln. exact Hp.
Qed.

Lemma geometric y K : (1 - y) * rsum K (fun j => y ^ j) = 1 - y ^ K.
Proof. induction K as [|K IH]; cbn [rsum pow]; [ring|]. rewrite Rmult_plus_distr_l, IH. ring. Qed.

(** sum of y^(j+1)/(j+1) *)
Lemma log_part y K : 0 <= y < 1 -> 0 <= - ln (1 - y) - rsum K (fun j => y ^ S j / INR (S j)) <= y ^ K / (1 - y) * y.
Proof.
  intros Hy.
  pose proof (bounded_by (fun t => - ln (1 + - (1) * t) + - (1) * rsum K (fun j => / INR (S j) * t ^ S j)) (fun t => t ^ K / (1 - t)) y (y ^ K / (1 - y))) as B.
  cbv beta in B.
  replace (- ln (1 - y) - rsum K (fun j => y ^ S j / INR (S j))) with (- ln (1 + - (1) * y) + - (1) * rsum K (fun j => / INR (S j) * y ^ S j)).
  2:{ replace (1 + - (1) * y) with (1 - y) by ring. rewrite (rsum_ext K (fun j => y ^ S j / INR (S j)) (fun j => / INR (S j) * y ^ S j)) by (intros; unfold Rdiv; ring). ring. }
  apply B; [lra| | |].
  - replace (1 + - (1) * 0) with 1 by ring. rewrite ln_1. rewrite rsum_zero; [ring|]. intros j Hj. cbn [pow]. ring.
  - intros t Ht. 
    replace (t ^ K / (1 - t)) with (- (- (1) / (1 + - (1) * t)) + - (1) * rsum K (fun j => / INR (S j) * (INR (S j) * t ^ j))).
    2:{ rewrite (rsum_ext K _ (fun j => t ^ j)). 2:{ intros j Hj. rewrite <- Rmult_assoc, Rinv_l, Rmult_1_l; [reflexivity|]. apply not_0_INR. lia. }
        replace (t ^ K) with (1 - (1 - t) * rsum K (fun j => t ^ j)) by (rewrite geometric; ring). field. lra. }
    change (derivable_pt_lim (plus_fct (opp_fct (fun t => ln (1 + - (1) * t))) (mult_real_fct (- (1)) (fun t => rsum K (fun j => / INR (S j) * t ^ S j)))) t
       (- (- (1) / (1 + - (1) * t)) + - (1) * rsum K (fun j => / INR (S j) * (INR (S j) * t ^ j)))).
    apply derivable_pt_lim_plus.
    + apply derivable_pt_lim_opp, d_ln_lin. lra.
    + apply derivable_pt_lim_scal. apply (d_rsum (fun j t => / INR (S j) * t ^ S j) (fun j t => / INR (S j) * (INR (S j) * t ^ j))). intros j Hj. apply d_monomial.
  - intros t Ht. destruct (pow_between y K t Ht) as [P0 P1]. split.
    + apply Rmult_le_pos; [exact P0|left; apply Rinv_0_lt_compat; lra].
    + apply Rmult_le_compat; [exact P0|left; apply Rinv_0_lt_compat; lra|exact P1|]. apply Rinv_le_contravar; lra.
Qed.
(** sum of 2 x^(2j+1)/(2j+1) *)
Lemma artanh_part x K : 0 <= x < 1 -> 0 <= ln (1 + x) - ln (1 - x) - rsum K (fun j => 2 * x ^ (2 * j + 1) / INR (2 * j + 1)) <= 2 * x ^ (2 * K) / (1 - x ^ 2) * x.
Proof.
  intros Hx.
  pose proof (bounded_by (fun t => (ln (1 + 1 * t) + - ln (1 + - (1) * t)) + - (1) * rsum K (fun j => 2 * / INR (S (2 * j)) * t ^ S (2 * j)))
    (fun t => 2 * t ^ (2 * K) / (1 - t ^ 2)) x (2 * x ^ (2 * K) / (1 - x ^ 2))) as B.
  cbv beta in B.
  replace (ln (1 + x) - ln (1 - x) - rsum K (fun j => 2 * x ^ (2 * j + 1) / INR (2 * j + 1))) with
    (ln (1 + 1 * x) + - ln (1 + - (1) * x) + - (1) * rsum K (fun j => 2 * / INR (S (2 * j)) * x ^ S (2 * j))).
  2:{ replace (1 + - (1) * x) with (1 - x) by ring. replace (1 + 1 * x) with (1 + x) by ring.
      rewrite (rsum_ext K (fun j => 2 * x ^ (2 * j + 1) / INR (2 * j + 1)) (fun j => 2 * / INR (S (2 * j)) * x ^ S (2 * j))); [ring|].
      intros j Hj. replace (2 * j + 1)%nat with (S (2 * j)) by lia. unfold Rdiv. ring. }
  assert (Sq : forall t, 0 <= t <= x -> 0 < 1 - t ^ 2) by (intros t Ht; nra).
  apply B; [lra| | |].
  - replace (1 + - (1) * 0) with 1 by ring. replace (1 + 1 * 0) with 1 by ring. rewrite ln_1. rewrite rsum_zero; [ring|]. intros j Hj. rewrite <- tech_pow_Rmult. ring.
  - intros t Ht. pose proof (Sq t Ht) as St.
    replace (2 * t ^ (2 * K) / (1 - t ^ 2)) with ((1 / (1 + 1 * t) + - (- (1) / (1 + - (1) * t))) + - (1) * rsum K (fun j => 2 * / INR (S (2 * j)) * (INR (S (2 * j)) * t ^ (2 * j)))).
    2:{ rewrite (rsum_ext K _ (fun j => 2 * (t ^ 2) ^ j)).
        2:{ intros j Hj. rewrite <- pow_mult. rewrite Rmult_assoc. f_equal. rewrite <- Rmult_assoc, Rinv_l, Rmult_1_l; [reflexivity|]. apply not_0_INR. lia. }
        rewrite rsum_scal_l, pow_mult.
        replace ((t ^ 2) ^ K) with (1 - (1 - t ^ 2) * rsum K (fun j => (t ^ 2) ^ j)) by (rewrite geometric; ring).
        set (G := rsum K (fun j => (t ^ 2) ^ j)). clearbody G. field. repeat split; lra. }
    change (derivable_pt_lim (plus_fct (plus_fct (fun t => ln (1 + 1 * t)) (opp_fct (fun t => ln (1 + - (1) * t)))) (mult_real_fct (- (1)) (fun t => rsum K (fun j => 2 * / INR (S (2 * j)) * t ^ S (2 * j))))) t
       ((1 / (1 + 1 * t) + - (- (1) / (1 + - (1) * t))) + - (1) * rsum K (fun j => 2 * / INR (S (2 * j)) * (INR (S (2 * j)) * t ^ (2 * j))))).
    apply derivable_pt_lim_plus; [apply derivable_pt_lim_plus|].
    + apply (d_ln_lin 1). lra.
    + apply derivable_pt_lim_opp, d_ln_lin. lra.
    + apply derivable_pt_lim_scal. apply (d_rsum (fun j t => 2 * / INR (S (2 * j)) * t ^ S (2 * j)) (fun j t => 2 * / INR (S (2 * j)) * (INR (S (2 * j)) * t ^ (2 * j)))). intros j Hj. apply d_monomial.
  - intros t Ht. pose proof (Sq t Ht) as St. pose proof (Sq x ltac:(lra)) as Sx. destruct (pow_between x (2 * K) t Ht) as [P0 P1]. split.
    + apply Rmult_le_pos; [lra|left; apply Rinv_0_lt_compat; lra].
    + apply Rmult_le_compat; [lra|left; apply Rinv_0_lt_compat; lra|lra|]. apply Rinv_le_contravar; [lra|]. assert (t ^ 2 <= x ^ 2) by (apply pow_incr; lra). lra.
Qed.

(** ** Limits *)
Lemma cv_squeeze (u : nat -> R) l B y : 0 <= y < 1 -> (forall K, 0 <= l - u K <= B * y ^ K) -> Un_cv u l.
Proof.
  intros Hy Hu e He. destruct (Req_dec B 0) as [->|NB].
  - exists 0%nat. intros n _. unfold R_dist. rewrite Rabs_minus_sym. specialize (Hu n). rewrite Rmult_0_l in Hu. rewrite Rabs_right; lra.
  - assert (PB : 0 < B). { specialize (Hu 0%nat). cbn [pow] in Hu. lra. }
    destruct (pow_lt_1_zero y ltac:(rewrite Rabs_right; lra) (e / B) ltac:(apply Rdiv_lt_0_compat; lra)) as [n0 Hn].
    exists n0. intros n Hge. specialize (Hn n Hge). rewrite Rabs_right in Hn by (apply Rle_ge, pow_le; lra).
    unfold R_dist. rewrite Rabs_minus_sym. destruct (Hu n) as [H0 H1]. rewrite Rabs_right by lra. eapply Rle_lt_trans; [exact H1|].
    apply (Rmult_lt_compat_l B) in Hn; [|exact PB]. replace (B * (e / B)) with e in Hn by (field; lra). exact Hn.
Qed.
Lemma cv_ext (u v : nat -> R) l : (forall n, u n = v n) -> Un_cv u l -> Un_cv v l.
Proof. intros E Hu e He. destruct (Hu e He) as [n0 Hn]. exists n0. intros n Hg. rewrite <- E. apply Hn; exact Hg. Qed.
Lemma cv_scal c u l : Un_cv u l -> Un_cv (fun n => c * u n) (c * l).
Proof. intros Hu. apply (CV_mult (fun _ => c) u c l); [|exact Hu]. intros e He. exists 0%nat. intros n _. unfold R_dist. rewrite Rminus_diag_eq by reflexivity. rewrite Rabs_R0. exact He. Qed.
Lemma cv_const c : Un_cv (fun _ => c) c.
Proof. intros e He. exists 0%nat. intros n _. unfold R_dist. rewrite Rminus_diag_eq by reflexivity. rewrite Rabs_R0. exact He. Qed.
Lemma log_cv y : 0 <= y < 1 -> Un_cv (fun K => rsum K (fun j => y ^ S j / INR (S j))) (- ln (1 - y)).
Proof.
  intros Hy. apply (cv_squeeze _ _ (y / (1 - y)) y Hy). intros K. pose proof (log_part y K Hy) as P.
  replace (y / (1 - y) * y ^ K) with (y ^ K / (1 - y) * y) by (unfold Rdiv; ring). exact P.
Qed.
Lemma artanh_cv x : 0 <= x < 1 -> Un_cv (fun K => rsum K (fun j => 2 * x ^ (2 * j + 1) / INR (2 * j + 1))) (ln (1 + x) - ln (1 - x)).
Proof.
  intros Hx. apply (cv_squeeze _ _ (2 * x / (1 - x ^ 2)) (x ^ 2)); [nra|]. intros K. pose proof (artanh_part x K Hx) as P.
  rewrite <- pow_mult. replace (2 * x / (1 - x ^ 2) * x ^ (2 * K)) with (2 * x ^ (2 * K) / (1 - x ^ 2) * x) by (unfold Rdiv; ring). exact P.
Qed.
Lemma geometric_cv y : 0 <= y < 1 -> Un_cv (fun K => rsum K (fun j => y ^ j)) (/ (1 - y)).
Proof.
  intros Hy. apply (cv_squeeze _ _ (/ (1 - y)) y Hy). intros K.
  replace (/ (1 - y) - rsum K (fun j => y ^ j)) with (/ (1 - y) * y ^ K).
  2:{ replace (y ^ K) with (1 - (1 - y) * rsum K (fun j => y ^ j)) by (rewrite geometric; ring). field. lra. }
  split; [|lra]. apply Rmult_le_pos; [left; apply Rinv_0_lt_compat; lra|apply pow_le; lra].
Qed.
