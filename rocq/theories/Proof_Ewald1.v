(** erfc, its derivatives, and radial towers of derivatives. *)
From Coq Require Import Reals Lra Lia Arith List.
From Verif Require Import Base Model_Mob Model_Ewald Spec_Calc Proof_Calc.
Import ListNotations.
Local Open Scope R_scope.

(** ** erfc *)
Definition gint (x : R) : R := RiemannInt (gauss_integrable 0 x).

Lemma gint_deriv x : derivable_pt_lim gint x (gauss x).
Proof.
  set (a := - (Rabs x + 1)). set (b := Rabs x + 1).
  assert (Hab : a <= b) by (unfold a, b; pose proof (Rabs_pos x); lra).
  assert (C0 : forall t, a <= t <= b -> continuity_pt gauss t) by (intros; apply gauss_cont).
  assert (Hx : a < x < b).
  { unfold a, b. pose proof (Rle_abs x). pose proof (Rle_abs (- x)). rewrite Rabs_Ropp in H0. lra. }
  assert (H0 : a <= 0 <= b) by (unfold a, b; pose proof (Rabs_pos x); lra).
  pose proof (RiemannInt_P28 Hab C0 (conj (Rlt_le _ _ (proj1 Hx)) (Rlt_le _ _ (proj2 Hx)))) as HD.
  set (pr := FTC_P1 Hab C0) in *.
  assert (Hp : forall t, a <= t <= b ->
     gint t = primitive Hab pr t - primitive Hab pr 0).
  { intros t Ht. unfold gint, primitive.
    destruct (Rle_dec a t) as [at'|]; [|lra]. destruct (Rle_dec t b) as [tb|]; [|lra].
    destruct (Rle_dec a 0) as [a0|]; [|lra]. destruct (Rle_dec 0 b) as [b0|]; [|lra].
    pose proof (RiemannInt_P26 (pr 0 a0 b0) (gauss_integrable 0 t) (pr t at' tb)) as H. lra. }
  intros e He. destruct (HD e He) as [d Hd].
  assert (Hm : 0 < Rmin d (Rmin (x - a) (b - x))).
  { apply Rmin_pos; [apply cond_pos|apply Rmin_pos; lra]. }
  exists (mkposreal _ Hm). intros h Hh Hl. simpl in Hl.
  assert (Rabs h < d /\ Rabs h < x - a /\ Rabs h < b - x).
  { pose proof (Rmin_l d (Rmin (x - a) (b - x))). pose proof (Rmin_r d (Rmin (x - a) (b - x))).
    pose proof (Rmin_l (x - a) (b - x)). pose proof (Rmin_r (x - a) (b - x)). lra. }
  destruct H as [H1 [H2 H3]].
  pose proof (Rle_abs h). pose proof (Rle_abs (- h)) as H5. rewrite Rabs_Ropp in H5.
  rewrite (Hp (x + h)), (Hp x) by lra.
  replace (primitive Hab pr (x + h) - primitive Hab pr 0 - (primitive Hab pr x - primitive Hab pr 0))
    with (primitive Hab pr (x + h) - primitive Hab pr x) by ring.
  apply Hd; assumption.
Qed.

Lemma erfc_deriv x : derivable_pt_lim erfc x (- (2 / sqrt PI * exp (- (x * x)))).
Proof.
  unfold erfc.
  replace (- (2 / sqrt PI * exp (- (x * x)))) with (0 - 2 / sqrt PI * gauss x) by (unfold gauss; ring).
  apply (derivable_pt_lim_minus (fun _ => 1) (fun x => 2 / sqrt PI * gint x)).
  - apply derivable_pt_lim_const.
  - apply (derivable_pt_lim_scal gint). apply gint_deriv.
Qed.

Lemma erfc_0 : erfc 0 = 1.
Proof. unfold erfc. rewrite RiemannInt_P9. ring. Qed.

Lemma dl_eq f x v w : derivable_pt_lim f x v -> v = w -> derivable_pt_lim f x w.
Proof. intros H ->. exact H. Qed.
Lemma dl_ext f g x v : (forall t, f t = g t) -> derivable_pt_lim f x v -> derivable_pt_lim g x v.
Proof.
  intros E H e He. destruct (H e He) as [d Hd]. exists d. intros h Hh Hl.
  rewrite <- !E. apply Hd; assumption.
Qed.

(** Derivative of a power, scaled: enough for polynomials in [s]. *)
Lemma dl_mono (c : R) n s : derivable_pt_lim (fun t => c * t ^ n) s (c * (INR n * s ^ pred n)).
Proof. apply (derivable_pt_lim_scal (fun t => t ^ n)). apply derivable_pt_lim_pow. Qed.

Definition bigE (lam s : R) : R := 2 / sqrt PI * exp (- s ^ 2 * lam ^ 2) * lam.
Lemma bigE_deriv lam s : derivable_pt_lim (bigE lam) s (- (2) * lam ^ 2 * s * bigE lam s).
Proof.
  apply (dl_ext (fun t => (2 / sqrt PI * lam) * exp (- lam ^ 2 * t ^ 2))).
  { intros t. unfold bigE. replace (- t ^ 2 * lam ^ 2) with (- lam ^ 2 * t ^ 2) by ring. ring. }
  eapply dl_eq.
  - apply (derivable_pt_lim_scal (fun t => exp (- lam ^ 2 * t ^ 2))).
    apply (derivable_pt_lim_comp (fun t => - lam ^ 2 * t ^ 2) exp).
    + apply dl_mono.
    + apply derivable_pt_lim_exp.
  - unfold bigE. simpl INR. simpl pred. replace (- s ^ 2 * lam ^ 2) with (- lam ^ 2 * s ^ 2) by ring. ring.
Qed.

(** [erfcs[n]] is the [n]-th derivative of erfc(lambda s). *)
Lemma erfcs_chain lam s n : (n < 6)%nat ->
  derivable_pt_lim (fun t => generate_erfcs t lam n) s (generate_erfcs s lam (S n)).
Proof.
  intros Hn.
  assert (P : forall p dp, derivable_pt_lim p s dp ->
     derivable_pt_lim (fun t => p t * bigE lam t) s (dp * bigE lam s + p s * (- (2) * lam ^ 2 * s * bigE lam s))).
  { intros p dp Hp. apply (derivable_pt_lim_mult p (bigE lam)); [exact Hp|apply bigE_deriv]. }
  assert (Hc : forall c, derivable_pt_lim (fun _ : R => c) s 0) by (intros; apply derivable_pt_lim_const).
  destruct n as [|[|[|[|[|[|n]]]]]]; [| | | | | |lia]; unfold generate_erfcs; cbv zeta beta iota;
    try fold (bigE lam s).
  - eapply dl_eq.
    + apply (derivable_pt_lim_comp (fun t => lam * t) erfc).
      * apply (derivable_pt_lim_scal (fun t => t)). apply derivable_pt_lim_id.
      * apply erfc_deriv.
    + unfold bigE. replace (- (lam * s * (lam * s))) with (- s ^ 2 * lam ^ 2) by ring. ring.
  - eapply dl_ext; [|eapply dl_eq; [apply (P (fun _ => - (1)) 0); apply Hc|]].
    + intros t. cbv beta. unfold bigE. ring.
    + ring.
  - eapply dl_ext; [|eapply dl_eq; [apply (P (fun t => 2 * lam ^ 2 * t ^ 1)); apply dl_mono|]].
    + intros t. cbv beta. unfold bigE. ring.
    + simpl INR; simpl pred. ring.
  - eapply dl_ext; [|eapply dl_eq; [apply (P (fun t => - (4) * lam ^ 4 * t ^ 2 + 2 * lam ^ 2));
      apply (derivable_pt_lim_plus (fun t => - (4) * lam ^ 4 * t ^ 2) (fun _ => 2 * lam ^ 2)); [apply dl_mono|apply Hc]|]].
    + intros t. cbv beta. unfold bigE. ring.
    + simpl INR; simpl pred. ring.
  - eapply dl_ext; [|eapply dl_eq; [apply (P (fun t => 8 * lam ^ 6 * t ^ 3 + - (12) * lam ^ 4 * t ^ 1));
      apply (derivable_pt_lim_plus (fun t => 8 * lam ^ 6 * t ^ 3) (fun t => - (12) * lam ^ 4 * t ^ 1)); apply dl_mono|]].
    + intros t. cbv beta. unfold bigE. ring.
    + simpl INR; simpl pred. ring.
  - eapply dl_ext; [|eapply dl_eq; [apply (P (fun t => (- (16) * lam ^ 8 * t ^ 4 + 48 * lam ^ 6 * t ^ 2) + - (12) * lam ^ 4));
      apply (derivable_pt_lim_plus (fun t => - (16) * lam ^ 8 * t ^ 4 + 48 * lam ^ 6 * t ^ 2) (fun t => - (12) * lam ^ 4));
        [apply (derivable_pt_lim_plus (fun t => - (16) * lam ^ 8 * t ^ 4) (fun t => 48 * lam ^ 6 * t ^ 2)); apply dl_mono|apply Hc]|]].
    + intros t. cbv beta. unfold bigE. ring.
    + simpl INR; simpl pred. ring.
Qed.

(** ** Functions equal off the origin have the same derivatives there. *)
Lemma nonzero_near r l h : (l < 3)%nat -> nonzero r -> Rabs h < len r -> nonzero (upd r l (r l + h)).
Proof.
  intros Hl Hr Hh. pose proof (len_pos r Hr) as Hp. pose proof (len_sq r) as Hs.
  assert (E : dot3 (upd r l (r l + h)) (upd r l (r l + h)) = dot3 r r + 2 * h * r l + h * h).
  { idx3 Hl; unfold upd, dot3; simpl; ring. }
  unfold nonzero in *. rewrite E, <- Hs.
  assert (Hb : Rabs (r l) <= len r).
  { rewrite <- (Rabs_pos_eq (len r)) by lra. apply Rsqr_le_abs_0. unfold Rsqr. rewrite Hs.
    idx3 Hl; unfold dot3; nra. }
  assert (Rabs (h * r l) <= Rabs h * len r).
  { rewrite Rabs_mult. apply Rmult_le_compat_l; [apply Rabs_pos|exact Hb]. }
  pose proof (Rle_abs (- (h * r l))) as H1. rewrite Rabs_Ropp in H1.
  pose proof (Rabs_pos h).
  assert (h * h = Rabs h * Rabs h) by (rewrite <- Rabs_mult; symmetry; apply Rabs_pos_eq; nra).
  nra.
Qed.

Lemma partial_near l f g r v : (l < 3)%nat -> nonzero r ->
  (forall q, nonzero q -> f q = g q) -> partial l f r v -> partial l g r v.
Proof.
  intros Hl Hr E H e He. destruct (H e He) as [d Hd].
  pose proof (len_pos r Hr) as Hp.
  exists (mkposreal _ (Rmin_pos _ _ (cond_pos d) Hp)). simpl. intros h Hh Hlt.
  assert (Rabs h < d /\ Rabs h < len r) as [H1 H2].
  { pose proof (Rmin_l d (len r)). pose proof (Rmin_r d (len r)). lra. }
  rewrite <- (E (upd r l (r l + h))) by (apply nonzero_near; assumption).
  rewrite <- (E (upd r l (r l))).
  - apply Hd; assumption.
  - unfold nonzero, dot3. rewrite !upd_same. exact Hr.
Qed.

(** ** Radial towers: [phi (n+1)] is [phi n]' / s *)
Definition tower (N : nat) (phi : nat -> R -> R) : Prop :=
  forall n s, (n < N)%nat -> 0 < s -> derivable_pt_lim (phi n) s (s * phi (S n) s).

Lemma partial_radial N phi n l r : tower N phi -> (n < N)%nat -> (l < 3)%nat -> nonzero r ->
  partial l (fun q => phi n (len q)) r (r l * phi (S n) (len r)).
Proof.
  intros HT Hn Hl Hr. pose proof (len_pos r Hr) as Hp.
  assert (Hb : len (upd r l (r l)) = len r) by (apply len_respects; apply upd_same).
  pose proof (partial_len l r Hl Hr) as H1. unfold partial in *.
  assert (H2 : derivable_pt_lim (phi n) (len (upd r l (r l))) (len r * phi (S n) (len r))).
  { rewrite Hb. apply HT; assumption. }
  pose proof (derivable_pt_lim_comp _ _ _ _ _ H1 H2) as H.
  replace (r l * phi (S n) (len r)) with (len r * phi (S n) (len r) * (r l / len r)) by (field; lra).
  exact H.
Qed.

Lemma radial_respects (phi : R -> R) : respects (fun q => phi (len q)).
Proof. intros q q' E. rewrite (len_respects q q' E). reflexivity. Qed.
Lemma coord_respects i : respects (fun q => q i).
Proof. intros q q' E. apply E. Qed.
Lemma mult_respects f g : respects f -> respects g -> respects (fun q => f q * g q).
Proof. intros Hf Hg q q' E. rewrite (Hf q q' E), (Hg q q' E). reflexivity. Qed.
Lemma plus_respects f g : respects f -> respects g -> respects (fun q => f q + g q).
Proof. intros Hf Hg q q' E. rewrite (Hf q q' E), (Hg q q' E). reflexivity. Qed.
Lemma scal_respects c f : respects f -> respects (fun q => c * f q).
Proof. intros Hf q q' E. rewrite (Hf q q' E). reflexivity. Qed.
Ltac resp := repeat first [apply coord_respects | apply scal_respects | apply plus_respects | apply mult_respects | apply radial_respects].

Definition T1 (phi : nat -> R -> R) (j : nat) (q : vec) : R := q j * phi 1%nat (len q).
Definition T2 (phi : nat -> R -> R) (i j : nat) (q : vec) : R :=
  delta i j * phi 1%nat (len q) + q i * q j * phi 2%nat (len q).
Definition T3 (phi : nat -> R -> R) (i j l : nat) (q : vec) : R :=
  (delta i j * q l + delta i l * q j + delta j l * q i) * phi 2%nat (len q)
  + q i * q j * q l * phi 3%nat (len q).
Definition T4 (phi : nat -> R -> R) (i j l m : nat) (q : vec) : R :=
  (delta i j * delta l m + delta j l * delta i m + delta i l * delta j m) * phi 2%nat (len q)
  + (delta i j * q l * q m + delta i l * q j * q m + delta l j * q i * q m
     + delta i m * q j * q l + delta j m * q i * q l + delta l m * q i * q j) * phi 3%nat (len q)
  + q i * q j * q l * q m * phi 4%nat (len q).

Lemma delta_sym i j : delta i j = delta j i.
Proof. unfold delta. rewrite Nat.eqb_sym. reflexivity. Qed.

Section Towers.
Variables (N : nat) (phi : nat -> R -> R).
Hypothesis HT : tower N phi.

Lemma T1_partial j r : (0 < N)%nat -> (j < 3)%nat -> nonzero r ->
  partial j (fun q => phi 0%nat (len q)) r (T1 phi j r).
Proof. intros HN Hj Hr. exact (partial_radial N phi 0 j r HT HN Hj Hr). Qed.

Lemma T2_partial i j r : (1 < N)%nat -> (i < 3)%nat -> nonzero r ->
  partial i (T1 phi j) r (T2 phi i j r).
Proof.
  intros HN Hi Hr. unfold T1, T2. eapply partial_eq.
  - apply partial_mult; [resp|resp|apply partial_coord|apply (partial_radial N); eassumption].
  - rewrite (delta_sym j i). ring.
Qed.

Lemma T3_partial i j l r : (2 < N)%nat -> (l < 3)%nat -> nonzero r ->
  partial l (T2 phi i j) r (T3 phi i j l r).
Proof.
  intros HN Hi Hr. unfold T2, T3. eapply partial_eq.
  - apply partial_plus.
    + apply partial_scal. apply (partial_radial N); [eassumption|lia|eassumption|eassumption].
    + apply partial_mult; [resp|resp| |apply (partial_radial N); eassumption].
      apply partial_mult; [resp|resp|apply partial_coord|apply partial_coord].
  - cbv beta. ring.
Qed.

Lemma T4_partial i j l m r : (3 < N)%nat -> (m < 3)%nat -> nonzero r ->
  partial m (T3 phi i j l) r (T4 phi i j l m r).
Proof.
  intros HN Hi Hr. unfold T3, T4. eapply partial_eq.
  - apply partial_plus.
    + apply partial_mult; [resp|resp| |apply (partial_radial N); [eassumption|lia|eassumption|eassumption]].
      apply partial_plus; [apply partial_plus|]; apply partial_scal; apply partial_coord.
    + apply partial_mult; [resp|resp| |apply (partial_radial N); eassumption].
      apply partial_mult; [resp|resp| |apply partial_coord].
      apply partial_mult; [resp|resp|apply partial_coord|apply partial_coord].
  - rewrite (delta_sym l j). ring.
Qed.
End Towers.

(** ** Linear combinations of s e_k(s) / s^n *)
Definition comb (e : nat -> R -> R) (L : list (R * nat * nat)) (s : R) : R :=
  fold_right (fun t acc => fst (fst t) * (e (snd (fst t)) s * (s / s ^ snd t)) + acc) 0 L.
Definition dcomb (e : nat -> R -> R) (L : list (R * nat * nat)) (s : R) : R :=
  fold_right (fun t acc => fst (fst t) * (e (S (snd (fst t))) s * (s / s ^ snd t)
      + e (snd (fst t)) s * ((1 - INR (snd t)) / s ^ snd t)) + acc) 0 L.

Lemma ipow_deriv n s : 0 < s -> derivable_pt_lim (fun t => t / t ^ n) s ((1 - INR n) / s ^ n).
Proof.
  intros Hs.
  assert (Hp : s ^ n <> 0) by (apply pow_nonzero; lra).
  eapply dl_eq.
  - apply (derivable_pt_lim_div (fun t => t) (fun t => t ^ n)).
    + apply derivable_pt_lim_id.
    + apply derivable_pt_lim_pow.
    + exact Hp.
  - unfold Rsqr. destruct n as [|n].
    + simpl. field.
    + simpl pred. replace (s ^ S n) with (s * s ^ n) by reflexivity.
      field. split; [|lra]. apply pow_nonzero. lra.
Qed.

Lemma comb_deriv e K L s : (forall k t, (k < K)%nat -> derivable_pt_lim (e k) t (e (S k) t)) ->
  Forall (fun t => (snd (fst t) < K)%nat) L -> 0 < s ->
  derivable_pt_lim (comb e L) s (dcomb e L s).
Proof.
  intros He HL Hs. induction HL as [|[[c k] n] L Hk HL IH]; simpl.
  - apply derivable_pt_lim_const.
  - apply (derivable_pt_lim_plus (fun t => c * (e k t * (t / t ^ n))) (comb e L)); [|exact IH].
    apply (derivable_pt_lim_scal (fun t => e k t * (t / t ^ n))).
    apply (derivable_pt_lim_mult (e k) (fun t => t / t ^ n)); [apply He; exact Hk|].
    apply ipow_deriv. exact Hs.
Qed.
