(** The binomial series and the closed forms of the program's tables. *)
From Coq Require Import Reals ZArith Arith Lia Lra Bool.
From Verif Require Import Base Model_Mob Model_Close Model_Reflect Spec_Reflect Spec_Translate Proof_Reflect3.
Local Open Scope R_scope.

(** ** Coefficients of (1+t)^-q *)
Fixpoint bin (q : nat) : nat -> R :=
  match q with
  | O => fun k => match k with O => 1 | S _ => 0 end
  | S q' => fix go (k : nat) : R := match k with O => 1 | S k' => bin q' k - go k' end
  end.
Lemma bin_0 q : bin q 0 = 1.
Proof. destruct q; reflexivity. Qed.
Lemma bin_S q k : bin (S q) (S k) = bin q (S k) - bin (S q) k.
Proof. reflexivity. Qed.
Lemma bin_closed p : forall k, bin (S p) k * (INR (fact p) * INR (fact k)) = (- (1)) ^ k * INR (fact (p + k)).
Proof.
  induction p as [|p IHp]; intros k.
  - induction k as [|k IHk]; [cbn; ring|]. rewrite bin_S. change (bin 0 (S k)) with 0. change (0 + S k)%nat with (S k). change (0 + k)%nat with k in IHk.
    change (fact (S k)) with (S k * fact k)%nat. rewrite mult_INR.
    replace ((0 - bin 1 k) * (INR (fact 0) * (INR (S k) * INR (fact k)))) with (- INR (S k) * (bin 1 k * (INR (fact 0) * INR (fact k)))) by ring.
    rewrite IHk. cbn [pow]. ring.
  - induction k as [|k IHk].
    + rewrite bin_0, Nat.add_0_r. cbn [pow]. change (fact 0) with 1%nat. change (INR 1) with 1. ring.
    + rewrite bin_S. pose proof (IHp (S k)) as I. 
      replace (S p + S k)%nat with (S (S p + k)) by lia. replace (p + S k)%nat with (S p + k)%nat in I by lia.
      change (fact (S (S p + k))) with (S (S p + k) * fact (S p + k))%nat. 
      replace (fact (S k)) with (S k * fact k)%nat in * by reflexivity. replace (fact (S p)) with (S p * fact p)%nat in * by reflexivity.
      rewrite !mult_INR in *. rewrite !S_INR in *. rewrite plus_INR in *. rewrite S_INR in *.
      replace ((bin (S p) (S k) - bin (S (S p)) k) * ((INR p + 1) * INR (fact p) * ((INR k + 1) * INR (fact k))))
        with ((INR p + 1) * (bin (S p) (S k) * (INR (fact p) * ((INR k + 1) * INR (fact k)))) - (INR k + 1) * (bin (S (S p)) k * ((INR p + 1) * INR (fact p) * INR (fact k)))) by ring.
      rewrite I, IHk. cbn [pow]. ring.
Qed.
Lemma fact_nz n : INR (fact n) <> 0.
Proof. apply INR_fact_neq_0. Qed.
Lemma bin_val p k : bin (S p) k = (- (1)) ^ k * INR (fact (p + k)) / (INR (fact p) * INR (fact k)).
Proof.
  pose proof (bin_closed p k) as E. pose proof (fact_nz p). pose proof (fact_nz k).
  apply (Rmult_eq_reg_r (INR (fact p) * INR (fact k))); [|apply Rmult_integral_contrapositive; split; assumption].
  rewrite E. field. split; assumption.
Qed.
(** Neighbouring coefficients. *)
Lemma bin_next q k : (INR k + 1) * bin (S q) (S k) = - (INR q + INR k + 1) * bin (S q) k.
Proof.
  rewrite !bin_val. replace (q + S k)%nat with (S (q + k)) by lia.
  change (fact (S (q + k))) with (S (q + k) * fact (q + k))%nat. change (fact (S k)) with (S k * fact k)%nat.
  rewrite !mult_INR, !S_INR, plus_INR. pose proof (fact_nz q). pose proof (fact_nz k). pose proof (pos_INR k). cbn [pow]. field. repeat split; lra.
Qed.
Lemma bin_up q k : (INR q + 1) * bin (S (S q)) k = (INR q + 1 + INR k) * bin (S q) k.
Proof.
  rewrite !bin_val. replace (S q + k)%nat with (S (q + k)) by lia.
  change (fact (S (q + k))) with (S (q + k) * fact (q + k))%nat. change (fact (S q)) with (S q * fact q)%nat.
  rewrite !mult_INR, !S_INR, plus_INR. pose proof (fact_nz q). pose proof (fact_nz k). pose proof (pos_INR q). cbn [pow]. field. repeat split; lra.
Qed.

(** ** Convergence *)
Lemma bin_bound q : forall tau, 0 < tau < 1 -> exists M, 0 <= M /\ forall k, Rabs (bin q k) * tau ^ k <= M.
Proof.
  induction q as [|q IH]; intros tau Ht.
  - exists 1. split; [lra|]. intros [|k]; cbn [bin pow]; [rewrite Rabs_R1; lra|rewrite Rabs_R0; lra].
  - set (s := (1 + tau) / 2). assert (Hs : 0 < s < 1) by (unfold s; lra). destruct (IH s Hs) as (M & M0 & HM).
    assert (B : forall k, Rabs (bin (S q) k) * s ^ k <= M * rsum (S k) (fun i => s ^ i)).
    { intros k. induction k as [|k IHk].
      - cbn [rsum pow]. rewrite bin_0, Rabs_R1. pose proof (HM 0%nat) as h. rewrite bin_0, Rabs_R1 in h. cbn [pow] in h. lra.
      - rewrite bin_S. pose proof (HM (S k)) as h.
        assert (T : Rabs (bin q (S k) - bin (S q) k) <= Rabs (bin q (S k)) + Rabs (bin (S q) k)).
        { unfold Rminus. eapply Rle_trans; [apply Rabs_triang|]. rewrite Rabs_Ropp. lra. }
        assert (P : 0 < s ^ S k) by (apply pow_lt; lra).
        apply Rle_trans with ((Rabs (bin q (S k)) + Rabs (bin (S q) k)) * s ^ S k); [apply Rmult_le_compat_r; lra|].
        assert (E : rsum (S (S k)) (fun i => s ^ i) = 1 + s * rsum (S k) (fun i => s ^ i)).
        { clear. generalize (S k). intros n. induction n as [|n IHn]; [cbn; ring|]. change (rsum (S (S n)) (fun i => s ^ i)) with (rsum (S n) (fun i => s ^ i) + s ^ S n). rewrite IHn at 1.
          change (rsum (S n) (fun i => s ^ i)) with (rsum n (fun i => s ^ i) + s ^ n). cbn [pow]. ring. }
        rewrite E. rewrite Rmult_plus_distr_r. cbn [pow] in *. 
        assert (Q : Rabs (bin (S q) k) * (s * s ^ k) <= s * (M * rsum (S k) (fun i => s ^ i))).
        { replace (Rabs (bin (S q) k) * (s * s ^ k)) with (s * (Rabs (bin (S q) k) * s ^ k)) by ring. apply Rmult_le_compat_l; lra. }
        nra. }
    assert (G : forall n, rsum n (fun i => s ^ i) <= / (1 - s)).
    { intros n. assert (E : rsum n (fun i => s ^ i) * (1 - s) = 1 - s ^ n).
      { induction n as [|n IHn]; [cbn; ring|]. cbn [rsum pow]. rewrite Rmult_plus_distr_r, IHn. ring. }
      assert (0 < s ^ n) by (apply pow_lt; lra). apply (Rmult_le_reg_r (1 - s)); [lra|]. rewrite E. rewrite Rinv_l; lra. }
    exists (M * / (1 - s)). assert (0 < / (1 - s)) by (apply Rinv_0_lt_compat; lra). split; [apply Rmult_le_pos; lra|].
    intros k. apply Rle_trans with (Rabs (bin (S q) k) * s ^ k).
    + apply Rmult_le_compat_l; [apply Rabs_pos|]. apply pow_incr. unfold s; lra.
    + eapply Rle_trans; [apply B|]. apply Rmult_le_compat_l; [exact M0|apply G].
Qed.
Lemma bin_terms q t : Rabs t < 1 -> Un_cv (fun k => bin q k * t ^ k) 0.
Proof.
  intros Ht. set (s := (1 + Rabs t) / 2). pose proof (Rabs_pos t). assert (Hs : 0 < s < 1) by (unfold s; lra).
  destruct (bin_bound q s Hs) as (M & M0 & HM).
  assert (Hq : Rabs (Rabs t / s) < 1).
  { rewrite Rabs_pos_eq by (apply Rmult_le_pos; [lra|apply Rlt_le, Rinv_0_lt_compat; lra]). apply (Rmult_lt_reg_r s); [lra|]. unfold Rdiv. rewrite Rmult_assoc, Rinv_l, Rmult_1_r, Rmult_1_l by lra. unfold s. lra. }
  intros eps He. assert (Hd : 0 < eps / (M + 1)) by (apply Rdiv_lt_0_compat; lra).
  destruct (pow_lt_1_zero (Rabs t / s) Hq (eps / (M + 1)) Hd) as (n & Hn).
  exists n. intros k Hk. unfold R_dist. rewrite Rminus_0_r, Rabs_mult, <- RPow_abs.
  specialize (Hn k Hk). rewrite <- RPow_abs in Hn. rewrite (Rabs_pos_eq (Rabs t / s)) in Hn by (apply Rmult_le_pos; [lra|apply Rlt_le, Rinv_0_lt_compat; lra]).
  assert (P : 0 < s ^ k) by (apply pow_lt; lra).
  replace (Rabs t ^ k) with ((Rabs t / s) ^ k * s ^ k) by (rewrite <- Rpow_mult_distr; f_equal; field; lra).
  apply Rle_lt_trans with ((Rabs t / s) ^ k * M).
  - replace (Rabs (bin q k) * ((Rabs t / s) ^ k * s ^ k)) with ((Rabs t / s) ^ k * (Rabs (bin q k) * s ^ k)) by ring.
    apply Rmult_le_compat_l; [apply pow_le; apply Rmult_le_pos; [lra|apply Rlt_le, Rinv_0_lt_compat; lra]|apply HM].
  - apply Rle_lt_trans with ((Rabs t / s) ^ k * (M + 1)).
    + apply Rmult_le_compat_l; [apply pow_le; apply Rmult_le_pos; [lra|apply Rlt_le, Rinv_0_lt_compat; lra]|lra].
    + apply (Rmult_lt_compat_r (M + 1)) in Hn; [|lra]. replace (eps / (M + 1) * (M + 1)) with eps in Hn by (field; lra). exact Hn.
Qed.
Lemma partial_step q t K : (1 + t) * sum_f_R0 (fun k => bin (S q) k * t ^ k) K = sum_f_R0 (fun k => bin q k * t ^ k) K + t * (bin (S q) K * t ^ K).
Proof.
  induction K as [|K IH]; [cbn [sum_f_R0]; rewrite !bin_0; cbn [pow]; ring|]. cbn [sum_f_R0].
  rewrite Rmult_plus_distr_l, IH, bin_S. cbn [pow]. ring.
Qed.
Lemma bin_series q t : Rabs t < 1 -> infinite_sum (fun k => bin q k * t ^ k) (/ (1 + t) ^ q).
Proof.
  intros Ht. assert (H1 : 1 + t <> 0) by (intros E; apply (Rlt_irrefl 1); replace t with (- (1)) in Ht by lra; rewrite Rabs_Ropp, Rabs_R1 in Ht; exact Ht).
  induction q as [|q IH].
  - intros eps He. exists 0%nat. intros n _. replace (sum_f_R0 (fun k => bin 0 k * t ^ k) n) with 1.
    + cbn [pow]. rewrite Rinv_1. unfold R_dist. rewrite Rminus_diag_eq, Rabs_R0 by reflexivity. exact He.
    + clear. induction n as [|n In]; [cbn; ring|]. cbn [sum_f_R0]. rewrite <- In. cbn [bin]. ring.
  - assert (C : Un_cv (fun K => (sum_f_R0 (fun k => bin q k * t ^ k) K + t * (bin (S q) K * t ^ K)) * / (1 + t)) ((/ (1 + t) ^ q + t * 0) * / (1 + t))).
    { apply CV_mult; [|intros e He; exists 0%nat; intros; unfold R_dist; rewrite Rminus_diag_eq, Rabs_R0 by reflexivity; exact He].
      apply CV_plus; [exact IH|]. apply CV_mult; [intros e He; exists 0%nat; intros; unfold R_dist; rewrite Rminus_diag_eq, Rabs_R0 by reflexivity; exact He|apply bin_terms; exact Ht]. }
    intros eps He. destruct (C eps He) as (n & Hn). exists n. intros K HK. specialize (Hn K HK).
    replace (/ (1 + t) ^ S q) with ((/ (1 + t) ^ q + t * 0) * / (1 + t)) by (cbn [pow]; field; repeat split; try exact H1; try (apply pow_nonzero; exact H1)).
    rewrite <- partial_step in Hn. replace ((1 + t) * sum_f_R0 (fun k => bin (S q) k * t ^ k) K * / (1 + t)) with (sum_f_R0 (fun k => bin (S q) k * t ^ k) K) in Hn by (field; exact H1). exact Hn.
Qed.

(** ** Sums of series *)
Lemma is_ext f f' L L' : (forall k, f k = f' k) -> L = L' -> infinite_sum f L -> infinite_sum f' L'.
Proof.
  intros E <- Hs eps He. destruct (Hs eps He) as (n & Hn). exists n. intros k Hk. specialize (Hn k Hk).
  rewrite <- (sum_eq f f' k) by (intros; apply E). exact Hn.
Qed.
Lemma is_plus f f' L L' : infinite_sum f L -> infinite_sum f' L' -> infinite_sum (fun k => f k + f' k) (L + L').
Proof.
  intros S1 S2. assert (C := CV_plus _ _ _ _ S1 S2). intros eps He. destruct (C eps He) as (n & Hn). exists n. intros k Hk. rewrite plus_sum. apply Hn. exact Hk.
Qed.
Lemma is_scal c f L : infinite_sum f L -> infinite_sum (fun k => c * f k) (c * L).
Proof.
  intros S1. assert (C : Un_cv (fun n => c * sum_f_R0 f n) (c * L)).
  { apply CV_mult; [intros e He; exists 0%nat; intros; unfold R_dist; rewrite Rminus_diag_eq, Rabs_R0 by reflexivity; exact He|exact S1]. }
  intros eps He. destruct (C eps He) as (n & Hn). exists n. intros k Hk. specialize (Hn k Hk). rewrite scal_sum in Hn. rewrite (sum_eq (fun k => c * f k) (fun i => f i * c)) by (intros; ring). exact Hn.
Qed.
Lemma is_zero : infinite_sum (fun _ => 0) 0.
Proof.
  intros eps He. exists 0%nat. intros n _. replace (sum_f_R0 (fun _ => 0) n) with 0; [unfold R_dist; rewrite Rminus_0_r, Rabs_R0; exact He|].
  induction n as [|n In]; [reflexivity|]. cbn [sum_f_R0]. rewrite <- In. ring.
Qed.
Lemma is_rsum n f L : (forall i, (i < n)%nat -> infinite_sum (fun k => f i k) (L i)) -> infinite_sum (fun k => rsum n (fun i => f i k)) (rsum n L).
Proof.
  induction n as [|n IH]; intros Hs; [exact is_zero|]. cbn [rsum]. apply is_plus; [apply IH; intros i Hi; apply Hs; lia|apply Hs; lia].
Qed.
Lemma is_tail f L : infinite_sum f L -> infinite_sum (fun k => f (S k)) (L - f 0%nat).
Proof.
  intros S1 eps He. destruct (S1 eps He) as (n & Hn). exists n. intros k Hk. specialize (Hn (S k) ltac:(lia)).
  assert (E : sum_f_R0 f (S k) = f 0%nat + sum_f_R0 (fun i => f (S i)) k).
  { clear. induction k as [|k IH]; [reflexivity|]. change (sum_f_R0 f (S (S k))) with (sum_f_R0 f (S k) + f (S (S k))). rewrite IH. cbn [sum_f_R0]. ring. }
  rewrite E in Hn. unfold R_dist in *. replace (sum_f_R0 (fun i => f (S i)) k - (L - f 0%nat)) with (f 0%nat + sum_f_R0 (fun i => f (S i)) k - L) by ring. exact Hn.
Qed.
(** Terms moved by two places. *)
Lemma is_shift d e T L : d 0%nat = T 0%nat -> d 1%nat = T 1%nat -> (forall k, d (S (S k)) = T (S (S k)) - e k) -> Un_cv e 0 ->
  infinite_sum T L -> infinite_sum (fun k => d k + e k) L.
Proof.
  intros E0 E1 E2 Ce Ts.
  assert (P : forall k, sum_f_R0 (fun k => d k + e k) (S k) = sum_f_R0 T (S k) + (e k + e (S k))).
  { induction k as [|k IH]; [cbn [sum_f_R0]; rewrite E0, E1; ring|]. change (sum_f_R0 (fun k => d k + e k) (S (S k))) with (sum_f_R0 (fun k => d k + e k) (S k) + (d (S (S k)) + e (S (S k)))).
    rewrite IH, E2. cbn [sum_f_R0]. ring. }
  intros eps He. assert (He3 : 0 < eps / 3) by lra. destruct (Ts (eps / 3) He3) as (n1 & N1). destruct (Ce (eps / 3) He3) as (n2 & N2).
  exists (S (n1 + n2)). intros k Hk. destruct k as [|k]; [lia|]. rewrite P. specialize (N1 (S k) ltac:(lia)). pose proof (N2 k ltac:(lia)) as A. pose proof (N2 (S k) ltac:(lia)) as B.
  unfold R_dist in *. rewrite Rminus_0_r in A, B.
  replace (sum_f_R0 T (S k) + (e k + e (S k)) - L) with (sum_f_R0 T (S k) - L + (e k + e (S k))) by ring.
  eapply Rle_lt_trans; [apply Rabs_triang|]. pose proof (Rabs_triang (e k) (e (S k))). lra.
Qed.
