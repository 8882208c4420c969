(** Bounds on the pair mobilities. *)
From Coq Require Import Reals Arith Bool List Lia Lra.
From Verif Require Import Base Model_Pack Model_Mob Model_Minf Spec_Layout Spec_Minf.
Import ListNotations.
Local Open Scope R_scope.

Definition B (x k : R) : Prop := Rabs x <= k.
Lemma B_le x k k' : B x k -> k <= k' -> B x k'. Proof. unfold B. lra. Qed.
Lemma B_plus x y k l : B x k -> B y l -> B (x + y) (k + l).
Proof. unfold B. intros. pose proof (Rabs_triang x y). lra. Qed.
Lemma B_opp x k : B x k -> B (- x) k. Proof. unfold B. rewrite Rabs_Ropp. auto. Qed.
Lemma B_minus x y k l : B x k -> B y l -> B (x - y) (k + l).
Proof. intros. apply B_plus; [assumption|apply B_opp; assumption]. Qed.
Lemma B_mult x y k l : B x k -> B y l -> B (x * y) (k * l).
Proof. unfold B. intros. rewrite Rabs_mult. apply Rmult_le_compat; try assumption; apply Rabs_pos. Qed.
Lemma B_const k : 0 <= k -> B k k. Proof. intros. unfold B. rewrite Rabs_right; lra. Qed.
Lemma B_0 k : 0 <= k -> B 0 k. Proof. intros. unfold B. rewrite Rabs_R0. exact H. Qed.
Lemma B_delta i j : B (delta i j) 1. Proof. unfold B, delta. destruct (Nat.eqb i j); rewrite ?Rabs_R1, ?Rabs_R0; lra. Qed.
Lemma B_scal c x k : 0 <= c -> B x k -> B (c * x) (c * k). Proof. intros. apply B_mult; [apply B_const; assumption|assumption]. Qed.
Lemma B_div x k c : 0 < c -> B x k -> B (x / c) (k / c).
Proof. intros Hc H. unfold Rdiv. apply B_mult; [exact H|]. apply B_const. left. apply Rinv_0_lt_compat. exact Hc. Qed.

Section Pair.
Variables (r d : vec) (s a1 a2 c mu : R).
Hypothesis Hs : 0 < s.
Hypothesis Hd : forall t, (t < 3)%nat -> r t = s * d t /\ B (d t) 1.
Hypothesis Ha1 : 0 < a1 <= s.
Hypothesis Ha2 : 0 < a2 <= s.
Hypothesis Hc : 0 <= c.
Hypothesis Ht : tiny < s.

Ltac bb := repeat first
  [ apply B_delta | (apply Hd; assumption) | apply B_plus | apply B_minus | apply B_opp | apply B_mult | (apply B_const; lra) ].
Ltac eB := eapply B_le; [bb|lra].

Lemma b_J i j : (i < 3)%nat -> (j < 3)%nat -> B (J (r i) (r j) i j s) (2 / s).
Proof.
  intros Hi Hj. unfold J. rewrite (proj1 (Hd i Hi)), (proj1 (Hd j Hj)).
  replace (_ + _) with ((delta i j + d i * d j) / s) by (field; lra). apply B_div; [exact Hs|]. eB.
Qed.
Lemma b_DJ l i j : (l < 3)%nat -> (i < 3)%nat -> (j < 3)%nat -> B (D_J r s l i j) (6 / s ^ 2).
Proof.
  intros Hl Hi Hj. unfold D_J. rewrite (proj1 (Hd i Hi)), (proj1 (Hd j Hj)), (proj1 (Hd l Hl)).
  replace (_ - _) with ((- delta i j * d l + delta i l * d j + delta j l * d i - 3 * d i * d j * d l) / s ^ 2) by (field; lra).
  apply B_div; [apply pow_lt; exact Hs|]. eB.
Qed.
Lemma b_DDJ m l i j : (m < 3)%nat -> (l < 3)%nat -> (i < 3)%nat -> (j < 3)%nat -> B (DD_J r s m l i j) (36 / s ^ 3).
Proof.
  intros Hm Hl Hi Hj. unfold DD_J, kronkron. rewrite (proj1 (Hd i Hi)), (proj1 (Hd j Hj)), (proj1 (Hd l Hl)), (proj1 (Hd m Hm)).
  match goal with |- B ?x _ => replace x with ((- (delta i j * delta l m) + delta i l * delta j m + delta j l * delta i m
    - 3 * (- delta i j * d l * d m + delta i l * d j * d m + delta j l * d i * d m + delta i m * d j * d l + d i * delta j m * d l + d i * d j * delta l m)
    + 15 * d i * d j * d l * d m) / s ^ 3) by (field; lra) end.
  apply B_div; [apply pow_lt; exact Hs|]. eB.
Qed.
Lemma b_LJ i j : (i < 3)%nat -> (j < 3)%nat -> B (Lap_J (r i) (r j) i j s) (8 / s ^ 3).
Proof.
  intros Hi Hj. unfold Lap_J. rewrite (proj1 (Hd i Hi)), (proj1 (Hd j Hj)).
  replace (_ - _) with ((2 * delta i j - 6 * d i * d j) / s ^ 3) by (field; lra). apply B_div; [apply pow_lt; exact Hs|]. eB.
Qed.
Lemma b_DLJ k i j : (k < 3)%nat -> (i < 3)%nat -> (j < 3)%nat -> B (DLap_J r s k i j) (48 / s ^ 4).
Proof.
  intros Hk Hi Hj. unfold DLap_J. rewrite (proj1 (Hd i Hi)), (proj1 (Hd j Hj)), (proj1 (Hd k Hk)).
  match goal with |- B ?x _ => replace x with ((- (6) * (delta i j * d k + delta i k * d j + delta j k * d i) + 30 * d i * d j * d k) / s ^ 4) by (field; lra) end.
  apply B_div; [apply pow_lt; exact Hs|]. eB.
Qed.
Lemma b_DLK l i j k : (l < 3)%nat -> (i < 3)%nat -> (j < 3)%nat -> (k < 3)%nat -> B (DLap_K r s l i j k) (408 / s ^ 5).
Proof.
  intros Hl Hi Hj Hk. unfold DLap_K, kronkron. rewrite (proj1 (Hd i Hi)), (proj1 (Hd j Hj)), (proj1 (Hd k Hk)), (proj1 (Hd l Hl)).
  match goal with |- B ?x _ => replace x with ((- (6) * (delta i j * delta k l + delta i k * delta j l + delta j k * delta i l)
    - 210 * d i * d j * d k * d l
    + 30 * (delta i j * d k * d l + delta i k * d j * d l + delta j k * d i * d l + delta i l * d j * d k + delta j l * d i * d k + delta k l * d i * d j)) / s ^ 5) by (field; lra) end.
  apply B_div; [apply pow_lt; exact Hs|]. eB.
Qed.

(** Sums over the antisymmetric symbol have two terms. *)
Lemma b_levi j cond f k : (j < 3)%nat -> 0 <= k -> (forall u v, (u < 3)%nat -> (v < 3)%nat -> B (f u v) k) ->
  B (lsum2 cond (fun u v => levi j u v * f u v)) (2 * k).
Proof.
  intros Hj Hk Hf. unfold lsum2.
  assert (E : forall u v (b : bool), (u < 3)%nat -> (v < 3)%nat -> B (if b then f u v else 0) k).
  { intros u v [|] Hu Hv; [apply Hf; assumption|apply B_0; exact Hk]. }
  set (g := fun u v => if cond u v then f u v else 0).
  assert (G : forall u v, (u < 3)%nat -> (v < 3)%nat -> B (g u v) k) by (intros; apply E; assumption).
  replace (rsum 3 _) with (rsum 3 (fun u => rsum 3 (fun v => levi j u v * g u v)))
    by (apply rsum_ext; intros; apply rsum_ext; intros; unfold g; destruct (cond _ _); ring).
  clearbody g. unfold rsum, levi. idx3 Hj; cbn [Nat.eqb orb andb].
  - replace (_ + _) with (g 1%nat 2%nat - g 2%nat 1%nat) by ring. eapply B_le; [apply B_minus; apply G; lia|lra].
  - replace (_ + _) with (g 2%nat 0%nat - g 0%nat 2%nat) by ring. eapply B_le; [apply B_minus; apply G; lia|lra].
  - replace (_ + _) with (g 0%nat 1%nat - g 1%nat 0%nat) by ring. eapply B_le; [apply B_minus; apply G; lia|lra].
Qed.
Lemma ip n : 0 < / s ^ n. Proof. apply Rinv_0_lt_compat, pow_lt. exact Hs. Qed.
Lemma q_pos k n : 0 <= k -> 0 <= k / s ^ n. Proof. intros. unfold Rdiv. pose proof (ip n). apply Rmult_le_pos; lra. Qed.
Lemma b_R i j : (i < 3)%nat -> (j < 3)%nat -> B (Rt r s i j) (6 / s ^ 2).
Proof.
  intros Hi Hj. unfold Rt. eapply B_le; [apply B_mult; [apply B_opp, B_const; lra|apply (b_levi j _ (fun k l => D_J r s k i l) (6 / s ^ 2))]|]; try assumption.
  - apply q_pos. lra.
  - intros. apply b_DJ; assumption.
  - lra.
Qed.
Lemma b_LR i j : (i < 3)%nat -> (j < 3)%nat -> B (Lap_R r s i j) (48 / s ^ 4).
Proof.
  intros Hi Hj. unfold Lap_R. eapply B_le; [apply B_mult; [apply B_opp, B_const; lra|apply (b_levi j _ (fun k l => DLap_J r s k i l) (48 / s ^ 4))]|]; try assumption.
  - apply q_pos. lra.
  - intros. apply b_DLJ; assumption.
  - lra.
Qed.
Lemma b_DR l i j : (l < 3)%nat -> (i < 3)%nat -> (j < 3)%nat -> B (D_R r s l i j) (36 / s ^ 3).
Proof.
  intros Hl Hi Hj. unfold D_R. eapply B_le; [apply B_mult; [apply B_opp, B_const; lra|apply (b_levi j _ (fun m n => DD_J r s l m i n) (36 / s ^ 3))]|]; try assumption.
  - apply q_pos. lra.
  - intros. apply b_DDJ; assumption.
  - lra.
Qed.
Lemma b_K i j k : (i < 3)%nat -> (j < 3)%nat -> (k < 3)%nat -> B (K r s i j k) (6 / s ^ 2).
Proof. intros Hi Hj Hk. unfold K. eapply B_le; [apply B_mult; [apply B_const; lra|apply B_plus; apply b_DJ; assumption]|lra]. Qed.
Lemma b_DK l i j k : (l < 3)%nat -> (i < 3)%nat -> (j < 3)%nat -> (k < 3)%nat -> B (D_K r s l i j k) (36 / s ^ 3).
Proof. intros Hl Hi Hj Hk. unfold D_K. eapply B_le; [apply B_mult; [apply B_const; lra|apply B_plus; apply b_DDJ; assumption]|lra]. Qed.

(** A radius is at most the separation. *)
Lemma sq_le a : 0 < a <= s -> 0 <= a ^ 2 <= s ^ 2. Proof. intros. nra. Qed.
Lemma red x k n : 0 <= k -> 0 <= x <= s ^ 2 -> x * (k / s ^ (2 + n)) <= k / s ^ n.
Proof.
  intros Hk Hx. replace (k / s ^ n) with (s ^ 2 * (k / s ^ (2 + n))) by (rewrite pow_add; field; repeat split; try apply pow_nonzero; lra).
  apply Rmult_le_compat_r; [apply q_pos; exact Hk|apply Hx].
Qed.
Lemma b_corr w x k n f : 0 <= w -> 0 <= k -> 0 <= x <= s ^ 2 -> B f (k / s ^ (2 + n)) -> B (x * w * f) (w * (k / s ^ n)).
Proof.
  intros Hw Hk Hx Hf. replace (x * w * f) with (w * (x * f)) by ring. apply B_scal; [exact Hw|].
  eapply B_le; [apply B_scal; [apply Hx|exact Hf]|]. apply red; assumption.
Qed.

Lemma b_M11 i j : (i < 3)%nat -> (j < 3)%nat -> B (M11 (r i) (r j) s a1 a2 i j c mu) (c * (5 / s)).
Proof.
  intros Hi Hj. unfold M11. destruct (Rlt_dec tiny s); [|contradiction]. apply B_scal; [exact Hc|].
  pose proof (sq_le a1 Ha1). pose proof (sq_le a2 Ha2). pose proof (b_LJ i j Hi Hj) as L.
  replace ((a1 ^ 2 + a2 ^ 2) / 6 * Lap_J (r i) (r j) i j s) with (a1 ^ 2 * (1 / 6) * Lap_J (r i) (r j) i j s + a2 ^ 2 * (1 / 6) * Lap_J (r i) (r j) i j s) by field.
  eapply B_le; [apply B_plus; [apply b_J; assumption|apply B_plus; apply (b_corr (1 / 6) _ 8 1); try assumption; lra]|].
  rewrite pow_1. unfold Rdiv. pose proof (ip 1) as P. rewrite pow_1 in P. lra.
Qed.
Lemma b_M12 b1 b2 i j : 0 < b1 <= s -> (i < 3)%nat -> (j < 3)%nat -> B (M12 r s b1 b2 i j c mu) (c * (14 / s ^ 2)).
Proof.
  intros Hb Hi Hj. unfold M12. destruct (Rlt_dec tiny s); [|contradiction]. apply B_scal; [exact Hc|].
  replace (b1 ^ 2 / 6 * Lap_R r s i j) with (b1 ^ 2 * (1 / 6) * Lap_R r s i j) by field.
  eapply B_le; [apply B_plus; [apply b_R; assumption|apply (b_corr (1 / 6) _ 48 2); [lra|lra|apply sq_le; exact Hb|apply b_LR; assumption]]|].
  lra.
Qed.
Lemma b_M13 b1 b2 i j k : 0 < b1 <= s -> 0 < b2 <= s -> (i < 3)%nat -> (j < 3)%nat -> (k < 3)%nat -> B (M13 r s b1 b2 i j k c mu) (c * (19 / s ^ 2)).
Proof.
  intros Hb Hb' Hi Hj Hk. unfold M13. destruct (Rlt_dec tiny s); [|contradiction].
  replace (- c * _) with (- (c * (K r s i j k + (b1 ^ 2 * (1 / 6) * Lap_K r s i j k + b2 ^ 2 * (1 / 10) * Lap_K r s i j k)))) by field.
  apply B_opp, B_scal; [exact Hc|].
  assert (L : B (Lap_K r s i j k) (48 / s ^ (2 + 2))) by (apply b_DLJ; assumption).
  eapply B_le; [apply B_plus; [apply b_K; assumption|apply B_plus; [apply (b_corr (1 / 6) _ 48 2)|apply (b_corr (1 / 10) _ 48 2)]]|];
    try (apply sq_le; assumption); try exact L; try lra.
  unfold Rdiv. pose proof (ip 2). lra.
Qed.
Lemma b_M22 i j b : (i < 3)%nat -> (j < 3)%nat -> tiny < Rabs (r 0%nat) + Rabs (r 1%nat) + Rabs (r 2%nat) -> B (M22 r s a1 b i j c mu) (c * (36 / s ^ 3)).
Proof.
  intros Hi Hj H. unfold M22. destruct (Rlt_dec tiny _); [|contradiction].
  replace (c * (1 / 2) * _) with (c * ((1 / 2) * lsum2 (distinct3 i) (fun k l => levi i k l * D_R r s k l j))) by ring. apply B_scal; [exact Hc|].
  eapply B_le; [apply B_scal; [lra|apply (b_levi i _ (fun k l => D_R r s k l j) (36 / s ^ 3))]|]; try assumption; try lra.
  - apply q_pos. lra.
  - intros. apply b_DR; assumption.
Qed.
Lemma b_M23 b1 b2 i j k : 0 < b2 <= s -> (i < 3)%nat -> (j < 3)%nat -> (k < 3)%nat -> tiny < Rabs (r 0%nat) + Rabs (r 1%nat) + Rabs (r 2%nat) ->
  B (M23 r s b1 b2 i j k c mu) (c * (104 / s ^ 3)).
Proof.
  intros Hb Hi Hj Hk H. unfold M23. destruct (Rlt_dec tiny _); [|contradiction].
  replace (c * - (1 / 2) * _) with (- (c * ((1 / 2) * lsum2 (distinct3 i) (fun l m => levi i l m * (D_K r s l m j k + b2 ^ 2 / 6 * DLap_K r s l m j k))))) by ring.
  apply B_opp, B_scal; [exact Hc|].
  eapply B_le; [apply B_scal; [lra|apply (b_levi i _ (fun l m => D_K r s l m j k + b2 ^ 2 / 6 * DLap_K r s l m j k) (104 / s ^ 3))]|]; try assumption; try lra.
  - apply q_pos. lra.
  - intros u v Hu Hv. replace (b2 ^ 2 / 6 * DLap_K r s u v j k) with (b2 ^ 2 * (1 / 6) * DLap_K r s u v j k) by field.
    eapply B_le; [apply B_plus; [apply b_DK; assumption|apply (b_corr (1 / 6) _ 408 3); [lra|lra|apply sq_le; exact Hb|apply b_DLK; assumption]]|].
    unfold Rdiv. pose proof (ip 3). lra.
Qed.
Lemma b_M33 i j k l : (i < 3)%nat -> (j < 3)%nat -> (k < 3)%nat -> (l < 3)%nat -> B (M33 r s a1 a2 i j k l c mu) (c * (118 / s ^ 3)).
Proof.
  intros Hi Hj Hk Hl. unfold M33. pose proof (sq_le a1 Ha1). pose proof (sq_le a2 Ha2).
  set (u := D_K r s j i k l + D_K r s i j k l). set (v := DLap_K r s j i k l + DLap_K r s i j k l).
  assert (U : B u (72 / s ^ 3)) by (eapply B_le; [apply B_plus; apply b_DK; assumption|lra]).
  assert (V : B v (816 / s ^ (2 + 3))) by (eapply B_le; [apply B_plus; apply b_DLK; assumption|cbn [Nat.add]; lra]).
  replace (- (1 / 2) * c * _) with (- (c * ((1 / 2) * (u + (a1 ^ 2 * (1 / 10) * v + a2 ^ 2 * (1 / 10) * v))))) by field.
  apply B_opp, B_scal; [exact Hc|].
  eapply B_le; [apply B_scal; [lra|apply B_plus; [exact U|apply B_plus; apply (b_corr (1 / 10) _ 816 3); try assumption; lra]]|].
  unfold Rdiv. pose proof (ip 3). lra.
Qed.
End Pair.

(** Condensed components. *)
Lemma b_cond f m k : 0 <= k -> (forall u v, (u < 3)%nat -> (v < 3)%nat -> B (f u v) k) -> B (condense_idx f m) (2 * k).
Proof.
  intros Hk Hf.
  assert (H3 : 17 / 10 <= sqrt 3 <= 174 / 100).
  { split; apply Rsqr_incr_0_var; try (apply sqrt_pos || lra); unfold Rsqr; rewrite sqrt_sqrt by lra; lra. }
  assert (H2 : 0 <= sqrt 2 <= 15 / 10).
  { split; [apply sqrt_pos|]. apply Rsqr_incr_0_var; [|lra]. unfold Rsqr. rewrite sqrt_sqrt by lra. lra. }
  unfold condense_idx, rsum, contraction.
  destruct m as [|[|[|[|[|m]]]]].
  - replace (_ + _) with (hs3p1 * f 0%nat 0%nat + hs3m1 * f 1%nat 1%nat) by ring.
    eapply B_le; [apply B_plus; apply B_mult; [apply B_const|apply Hf; lia|apply B_const|apply Hf; lia]|]; unfold hs3p1, hs3m1, s3; nra.
  - replace (_ + _) with (s2 * f 0%nat 1%nat) by ring. eapply B_le; [apply B_mult; [apply B_const|apply Hf; lia]|]; unfold s2; nra.
  - replace (_ + _) with (hs3m1 * f 0%nat 0%nat + hs3p1 * f 1%nat 1%nat) by ring.
    eapply B_le; [apply B_plus; apply B_mult; [apply B_const|apply Hf; lia|apply B_const|apply Hf; lia]|]; unfold hs3p1, hs3m1, s3; nra.
  - replace (_ + _) with (s2 * f 0%nat 2%nat) by ring. eapply B_le; [apply B_mult; [apply B_const|apply Hf; lia]|]; unfold s2; nra.
  - replace (_ + _) with (s2 * f 1%nat 2%nat) by ring. eapply B_le; [apply B_mult; [apply B_const|apply Hf; lia]|]; unfold s2; nra.
  - replace (_ + _) with 0 by ring. apply B_0. lra.
Qed.
