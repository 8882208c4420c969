(** Rules for partial derivatives of rational functions of r and |r|. *)
From Coq Require Import Reals Lra Lia Arith.
From Verif Require Import Base Spec_Calc.
Local Open Scope R_scope.

Lemma upd_same r l i : upd r l (r l) i = r i.
Proof. unfold upd. destruct (Nat.eqb_spec i l) as [->|]; reflexivity. Qed.

Lemma partial_eq l f r v w : partial l f r v -> v = w -> partial l f r w.
Proof. intros H ->; exact H. Qed.

Lemma partial_ext l f g r v : (forall q, f q = g q) -> partial l f r v -> partial l g r v.
Proof.
  intros E H eps He. destruct (H eps He) as [d Hd]. exists d. intros h Hh Hl.
  rewrite <- !E. apply Hd; assumption.
Qed.

Lemma partial_const l c r : partial l (fun _ => c) r 0.
Proof. apply derivable_pt_lim_const. Qed.

Lemma partial_coord l i r : partial l (fun q => q i) r (delta i l).
Proof.
  unfold partial, upd, delta. destruct (Nat.eqb i l).
  - apply derivable_pt_lim_id.
  - apply derivable_pt_lim_const.
Qed.

(** The value of the function at the base point, through [upd]. *)
Definition respects (f : vec -> R) : Prop :=
  forall q q', (forall i, q i = q' i) -> f q = f q'.

Lemma partial_plus l f g r a b :
  partial l f r a -> partial l g r b -> partial l (fun q => f q + g q) r (a + b).
Proof. intros H1 H2. exact (derivable_pt_lim_plus _ _ _ _ _ H1 H2). Qed.
Lemma partial_minus l f g r a b :
  partial l f r a -> partial l g r b -> partial l (fun q => f q - g q) r (a - b).
Proof. intros H1 H2. exact (derivable_pt_lim_minus _ _ _ _ _ H1 H2). Qed.
Lemma partial_opp l f r a : partial l f r a -> partial l (fun q => - f q) r (- a).
Proof. intros H1. exact (derivable_pt_lim_opp _ _ _ H1). Qed.
Lemma partial_scal l c f r a : partial l f r a -> partial l (fun q => c * f q) r (c * a).
Proof. intros H1. exact (derivable_pt_lim_scal _ _ _ _ H1). Qed.
Lemma partial_mult l f g r a b :
  respects f -> respects g ->
  partial l f r a -> partial l g r b -> partial l (fun q => f q * g q) r (a * g r + f r * b).
Proof.
  intros Rf Rg H1 H2. pose proof (derivable_pt_lim_mult _ _ _ _ _ H1 H2) as H.
  cbv beta in H. rewrite (Rf _ r (upd_same r l)), (Rg _ r (upd_same r l)) in H. exact H.
Qed.

Lemma partial_rsum l n (f : nat -> vec -> R) r (v : nat -> R) :
  (forall k, (k < n)%nat -> partial l (f k) r (v k)) ->
  partial l (fun q => rsum n (fun k => f k q)) r (rsum n v).
Proof.
  induction n as [|n IH]; intros H.
  - exact (partial_const l 0 r).
  - simpl. apply (partial_plus l (fun q => rsum n (fun k => f k q)) (f n)).
    + apply IH. intros k Hk. apply H. lia.
    + apply H. lia.
Qed.

Lemma len_respects : respects len.
Proof. intros q q' E. unfold len, dot3. rewrite !E. reflexivity. Qed.

Lemma len_pos r : nonzero r -> 0 < len r.
Proof. intros H. apply sqrt_lt_R0. exact H. Qed.

Lemma len_sq r : len r * len r = dot3 r r.
Proof. apply sqrt_sqrt. unfold dot3. nra. Qed.

Lemma partial_dot l r : (l < 3)%nat -> partial l (fun q => dot3 q q) r (2 * r l).
Proof.
  intros Hl. unfold dot3.
  eapply partial_eq.
  - apply partial_plus; [apply partial_plus|];
      (apply partial_mult; [intros q q' E; apply E | intros q q' E; apply E
                           |apply partial_coord|apply partial_coord]).
  - idx3 Hl; unfold delta; simpl; ring.
Qed.

Lemma partial_len l r : (l < 3)%nat -> nonzero r -> partial l len r (r l / len r).
Proof.
  intros Hl Hr. unfold partial, len.
  pose proof (partial_dot l r Hl) as Hd. unfold partial in Hd.
  assert (Hb : dot3 (upd r l (r l)) (upd r l (r l)) = dot3 r r)
    by (unfold dot3; rewrite !upd_same; reflexivity).
  assert (Hs : derivable_pt_lim sqrt (dot3 (upd r l (r l)) (upd r l (r l))) (/ (2 * sqrt (dot3 r r)))).
  { rewrite Hb. apply derivable_pt_lim_sqrt. exact Hr. }
  pose proof (derivable_pt_lim_comp _ _ _ _ _ Hd Hs) as H.
  pose proof (len_pos r Hr) as Hp. unfold len in Hp.
  replace (r l / sqrt (dot3 r r)) with (/ (2 * sqrt (dot3 r r)) * (2 * r l)) by (field; lra).
  exact H.
Qed.

(** d/dr_l |r|^-n = -n r_l |r|^-(n+2) *)
Lemma partial_ilen l n r : (l < 3)%nat -> nonzero r ->
  partial l (fun q => / len q ^ n) r (- INR n * r l / len r ^ (n + 2)).
Proof.
  intros Hl Hr. pose proof (len_pos r Hr) as Hp.
  pose proof (partial_len l r Hl Hr) as H1. unfold partial in *.
  assert (Hb : len (upd r l (r l)) = len r) by (apply len_respects; apply upd_same).
  assert (Hpow : derivable_pt_lim (fun y => y ^ n) (len (upd r l (r l))) (INR n * len r ^ pred n)).
  { rewrite Hb. apply derivable_pt_lim_pow. }
  pose proof (derivable_pt_lim_comp _ _ _ _ _ H1 Hpow) as H2.
  assert (Hne : (fun t => len (upd r l t) ^ n) (r l) <> 0).
  { simpl. rewrite Hb. apply pow_nonzero. lra. }
  pose proof (derivable_pt_lim_div (fct_cte 1) _ _ _ _ (derivable_pt_lim_const 1 (r l)) H2) as H3.
  unfold comp in H3.
  specialize (H3 Hne).
  assert (Hfun : forall t, (fct_cte 1 / (fun x => len (upd r l x) ^ n))%F t = / len (upd r l t) ^ n).
  { intros t. unfold div_fct, fct_cte. unfold Rdiv. ring. }
  assert (Hval : (0 * len (upd r l (r l)) ^ n - INR n * len r ^ pred n * (r l / len r) * fct_cte 1 (r l))
     / Rsqr (len (upd r l (r l)) ^ n) = - INR n * r l / len r ^ (n + 2)).
  { rewrite Hb. unfold fct_cte, Rsqr.
    destruct n as [|n].
    - simpl. field. lra.
    - simpl pred. replace (S n + 2)%nat with (S (S (S n))) by lia. simpl pow.
      field. split; [apply pow_nonzero; lra|lra]. }
  rewrite <- Hval.
  intros e He. destruct (H3 e He) as [d Hd]. exists d. intros h Hh Hlh.
  rewrite <- !Hfun. apply Hd; assumption.
Qed.
