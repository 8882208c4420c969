(** Self terms: limits of (unbounded - real-space) pair functions. *)
From Coq Require Import Reals Lra Lia Arith List.
From Verif Require Import Base Model_Mob Model_Ewald Spec_Calc Spec_Ewald Proof_Calc Proof_Mob Proof_Mob2
  Proof_Ewald1 Proof_Ewald2 Proof_Ewald3 Proof_Ewald4 Proof_Ewald5 Proof_Ewald6.
Import ListNotations.
Local Open Scope R_scope.

Section Self.
Variable lam : R.
Hypothesis Hlam : 0 < lam.
Notation E := (bigE lam).
Notation C := (c0 lam).

(** the derivatives of erf(lambda s) *)
Definition e' (k : nat) (s : R) : R := generate_erfcs s 0 k - generate_erfcs s lam k.
(** the derivatives of erfc(lambda s) *)
Definition ee (k : nat) (s : R) : R := generate_erfcs s lam k.

Lemma e'_0 s : 0 < s -> e' 0 s = E s * (s + 2 / 3 * lam ^ 2 * s ^ 3 + 4 / 15 * lam ^ 4 * s ^ 5) + s ^ 7 * Q3 lam s.
Proof. intros Hs. rewrite <- Erf_expand by assumption. unfold e', Erf. rewrite erfcs_zero. reflexivity. Qed.
Lemma e'_1 s : e' 1 s = E s.
Proof. unfold e'. rewrite erfcs_zero. unfold generate_erfcs, bigE. ring. Qed.
Lemma e'_2 s : e' 2 s = - (2) * lam ^ 2 * s * E s.
Proof. unfold e'. rewrite erfcs_zero. unfold generate_erfcs, bigE. ring. Qed.
Lemma e'_3 s : e' 3 s = 2 * lam ^ 2 * E s * (2 * lam ^ 2 * s ^ 2 - 1).
Proof. unfold e'. rewrite erfcs_zero. unfold generate_erfcs, bigE. ring. Qed.
Lemma e'_4 s : e' 4 s = - (4) * lam ^ 4 * s * E s * (2 * lam ^ 2 * s ^ 2 - 3).
Proof. unfold e'. rewrite erfcs_zero. unfold generate_erfcs, bigE. ring. Qed.
Lemma e'_5 s : e' 5 s = 4 * lam ^ 4 * E s * (4 * lam ^ 4 * s ^ 4 - 12 * lam ^ 2 * s ^ 2 + 3).
Proof. unfold e'. rewrite erfcs_zero. unfold generate_erfcs, bigE. ring. Qed.
Lemma e'_6 s : e' 6 s = - (8) * lam ^ 6 * s * E s * (4 * lam ^ 4 * s ^ 4 - 20 * lam ^ 2 * s ^ 2 + 15).
Proof. unfold e'. rewrite erfcs_zero. unfold generate_erfcs, bigE. ring. Qed.

Ltac closed := intros Hs; unfold Fphi, Gphi, Hphi, comb, FL, GL, HL, t3; cbn [fold_right fst snd];
  rewrite ?e'_1, ?e'_2, ?e'_3, ?e'_4, ?e'_5, ?e'_6, ?(e'_0 _ Hs); field; lra.
Lemma F1_c s : 0 < s -> Fphi e' 1 s = E s * (2 + 2 / 3 * lam ^ 2 * (s * s) + 4 / 15 * lam ^ 4 * (s * s * (s * s))) + s * s * (s * s) * (s * s) * Q3 lam s.
Proof. closed. Qed.
Lemma F2_c s : 0 < s -> Fphi e' 2 s = E s * (- (8 / 3 * lam ^ 2) + - (4 / 15 * lam ^ 4) * (s * s)) + -1 * (s * s * (s * s) * Q3 lam s).
Proof. closed. Qed.
Lemma F3_c s : 0 < s -> Fphi e' 3 s = E s * (24 / 5 * lam ^ 4) + 3 * (s * s) * Q3 lam s.
Proof. closed. Qed.
Lemma F4_c s : 0 < s -> Fphi e' 4 s = -15 * Q3 lam s + E s * (- (8 * lam ^ 6)).
Proof. closed. Qed.
Lemma G0_c s : 0 < s -> Gphi e' 0 s = E s * (6 + - (2 / 3 * lam ^ 2) * (s * s) + 8 / 15 * lam ^ 4 * (s * s * (s * s))) + 2 * (s * s * (s * s) * (s * s) * Q3 lam s).
Proof. closed. Qed.
Lemma G1_c s : 0 < s -> Gphi e' 1 s = E s * (- (40 / 3 * lam ^ 2) + 52 / 15 * lam ^ 4 * (s * s)) + -2 * (s * s * (s * s) * Q3 lam s).
Proof. closed. Qed.
Lemma G2_c s : 0 < s -> Gphi e' 2 s = E s * (168 / 5 * lam ^ 4 + - (8 * lam ^ 6) * (s * s)) + 6 * (s * s * Q3 lam s).
Proof. closed. Qed.
Lemma G3_c s : 0 < s -> Gphi e' 3 s = E s * (- (80 * lam ^ 6) + 16 * lam ^ 8 * (s * s)) + -30 * Q3 lam s.
Proof. closed. Qed.
Lemma G4_c s : 0 < s -> Gphi e' 4 s = (210 * Q3 lam s + E s * (- (16 * lam ^ 6) + 192 * lam ^ 8 * (s * s) + - (32 * lam ^ 10) * (s * s * (s * s)))) / s ^ 2.
Proof. closed. Qed.
Lemma H0_c s : 0 < s -> Hphi e' 0 s = E s * (- (40 * lam ^ 2) + 44 * lam ^ 4 * (s * s) + - (8 * lam ^ 6) * (s * s * (s * s))).
Proof. closed. Qed.
Lemma H1_c s : 0 < s -> Hphi e' 1 s = E s * (168 * lam ^ 4 + - (120 * lam ^ 6) * (s * s) + 16 * lam ^ 8 * (s * s * (s * s))).
Proof. closed. Qed.
Lemma H2_c s : 0 < s -> Hphi e' 2 s = E s * (- (576 * lam ^ 6) + 304 * lam ^ 8 * (s * s) + - (32 * lam ^ 10) * (s * s * (s * s))).
Proof. closed. Qed.

Ltac lims := repeat first [apply lim0_len | apply (lim0_E lam) | apply (lim0_Q3 lam Hlam)
  | apply lim0_const | apply lim0_minus | apply lim0_plus | apply lim0_mult].
Ltac rlim cl := eapply lim0_eq; [eapply lim0_ext; [intros q Hq; symmetry; apply cl; apply len_pos; exact Hq|lims]|ring].
Lemma F1_l : lim0 (fun q => Fphi e' 1 (len q)) (2 * C). Proof. rlim F1_c. Qed.
Lemma F2_l : lim0 (fun q => Fphi e' 2 (len q)) (- (8 / 3 * lam ^ 2) * C). Proof. rlim F2_c. Qed.
Lemma F3_l : lim0 (fun q => Fphi e' 3 (len q)) (24 / 5 * lam ^ 4 * C). Proof. rlim F3_c. Qed.
Lemma F4_l : lim0 (fun q => Fphi e' 4 (len q)) (-15 * (8 / 105 * lam ^ 6 * C) + C * (- (8 * lam ^ 6))). Proof. rlim F4_c. Qed.
Lemma G0_l : lim0 (fun q => Gphi e' 0 (len q)) (6 * C). Proof. rlim G0_c. Qed.
Lemma G1_l : lim0 (fun q => Gphi e' 1 (len q)) (- (40 / 3 * lam ^ 2) * C). Proof. rlim G1_c. Qed.
Lemma G2_l : lim0 (fun q => Gphi e' 2 (len q)) (168 / 5 * lam ^ 4 * C). Proof. rlim G2_c. Qed.
Lemma G3_l : lim0 (fun q => Gphi e' 3 (len q)) (C * (- (80 * lam ^ 6)) + -30 * (8 / 105 * lam ^ 6 * C)). Proof. rlim G3_c. Qed.
Lemma G4_l i j k l : (i < 3)%nat -> (j < 3)%nat -> (k < 3)%nat -> (l < 3)%nat ->
  lim0 (fun q => q i * q j * q k * q l * Gphi e' 4 (len q)) 0.
Proof.
  intros Hi Hj Hk Hl.
  apply (lim0_ext (fun q => q i * q j * q k * q l / len q ^ 2 *
     (210 * Q3 lam (len q) + E (len q) * (- (16 * lam ^ 6) + 192 * lam ^ 8 * (len q * len q) + - (32 * lam ^ 10) * (len q * len q * (len q * len q)))))).
  { intros q Hq. rewrite G4_c by (apply len_pos; exact Hq). unfold Rdiv. ring. }
  eapply lim0_eq; [apply lim0_mult; [apply lim0_quot; assumption|lims]|ring].
Qed.
Lemma H0_l : lim0 (fun q => Hphi e' 0 (len q)) (- (40 * lam ^ 2) * C). Proof. rlim H0_c. Qed.
Lemma H1_l : lim0 (fun q => Hphi e' 1 (len q)) (168 * lam ^ 4 * C). Proof. rlim H1_c. Qed.
Lemma H2_l : lim0 (fun q => Hphi e' 2 (len q)) (- (576 * lam ^ 6) * C). Proof. rlim H2_c. Qed.

Definition kron3 (i j l m : nat) : R := delta i j * delta l m + delta j l * delta i m + delta i l * delta j m.

(** Tensors of erf. *)
Ltac limt := repeat first [(apply G4_l; assumption) | apply F1_l | apply F2_l | apply F3_l | apply F4_l | apply G0_l | apply G1_l | apply G2_l | apply G3_l
  | apply H0_l | apply H1_l | apply H2_l | apply lim0_const | (apply lim0_coord; assumption)
  | apply lim0_minus | apply lim0_plus | apply lim0_mult].
Lemma J_l i j : (i < 3)%nat -> (j < 3)%nat -> lim0 (fJ e' i j) (4 * C * delta i j).
Proof.
  intros Hi Hj. apply (lim0_ext (fun q => delta i j * Gphi e' 0 (len q) - T2 (Fphi e') i j q)).
  { intros q Hq. rewrite cLap_shape, cDD_shape by exact Hq. reflexivity. }
  unfold T2. eapply lim0_eq; [limt|ring].
Qed.
Lemma LJ_l i j : (i < 3)%nat -> (j < 3)%nat -> lim0 (fLJ e' i j) (- (80 / 3 * lam ^ 2) * C * delta i j).
Proof.
  intros Hi Hj. apply (lim0_ext (fun q => delta i j * Hphi e' 0 (len q) - T2 (Gphi e') j i q)).
  { intros q Hq. rewrite cLapLap_shape, cDDLap_shape by exact Hq. reflexivity. }
  unfold T2. eapply lim0_eq; [limt|]. rewrite (delta_sym j i). field.
Qed.
Lemma DJ_l l i j : (l < 3)%nat -> (i < 3)%nat -> (j < 3)%nat -> lim0 (fDJ e' l i j) 0.
Proof.
  intros Hl Hi Hj. apply (lim0_ext (fun q => delta i j * T1 (Gphi e') l q - T3 (Fphi e') i j l q)).
  { intros q Hq. rewrite cDLap_shape, cDDD_shape by exact Hq. reflexivity. }
  unfold T1, T3. eapply lim0_eq; [limt|ring].
Qed.
Lemma DLJ_l l i j : (l < 3)%nat -> (i < 3)%nat -> (j < 3)%nat -> lim0 (fDLJ e' l i j) 0.
Proof.
  intros Hl Hi Hj. apply (lim0_ext (fun q => delta i j * T1 (Hphi e') l q - T3 (Gphi e') j i l q)).
  { intros q Hq. rewrite cDLapLap_shape, cDDDLap_shape by exact Hq. reflexivity. }
  unfold T1, T3. eapply lim0_eq; [limt|ring].
Qed.
Lemma DDJ_l m l i j : (m < 3)%nat -> (l < 3)%nat -> (i < 3)%nat -> (j < 3)%nat ->
  lim0 (fDDJ e' m l i j) (lam ^ 2 * C * (- (40 / 3) * (delta i j * delta l m) + 8 / 3 * kron3 i j l m)).
Proof.
  intros Hm Hl Hi Hj. apply (lim0_ext (fun q => delta i j * T2 (Gphi e') m l q - T4 (Fphi e') i j l m q)).
  { intros q Hq. rewrite cDDLap_shape, cDDDD_shape by exact Hq. reflexivity. }
  unfold T2, T4. eapply lim0_eq; [limt|]. unfold kron3. rewrite (delta_sym m l). field.
Qed.
Lemma DDLJ_l m l i j : (m < 3)%nat -> (l < 3)%nat -> (i < 3)%nat -> (j < 3)%nat ->
  lim0 (fDDLJ e' m l i j) (lam ^ 4 * C * (168 * (delta i j * delta l m) - 168 / 5 * kron3 i j l m)).
Proof.
  intros Hm Hl Hi Hj. apply (lim0_ext (fun q => delta i j * T2 (Hphi e') m l q - T4 (Gphi e') j i l m q)).
  { intros q Hq. rewrite cDDLapLap_shape, cDDDDLap_shape by exact Hq. reflexivity. }
  unfold T2, T4. eapply lim0_eq; [limt|].
  unfold kron3. rewrite (delta_sym m l), (delta_sym j i). field.
Qed.
End Self.
