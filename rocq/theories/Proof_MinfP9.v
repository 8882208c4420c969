(** The self terms of the periodic mobility are limits of the truncated Ewald
    sum with the unbounded pair mobility taken off. *)
From Coq Require Import Reals Arith Bool List Lia Lra ZArith Permutation FunctionalExtensionality.
From Verif Require Import Base Model_Pack Model_Mob Model_Layout Model_Minf Model_Close Model_Ewald Model_MinfP
  Spec_Layout Spec_Minf Spec_MinfP Spec_Calc Spec_Ewald Spec_Shear Proof_Calc Proof_Mob Proof_Mob2
  Proof_Ewald1 Proof_Ewald2 Proof_Ewald3 Proof_Ewald4 Proof_Ewald5 Proof_Ewald6 Proof_Ewald7
  Proof_Close Proof_MinfP1 Proof_MinfP3 Proof_MinfP4 Proof_MinfP5 Proof_MinfP6.
Import ListNotations.
Local Open Scope R_scope.

Definition vnull : vec := fun _ => 0.

(** ** Continuity away from the origin *)
Lemma lim0_comp f v g : lim0 f v -> continuity_pt g v -> lim0 (fun q => g (f q)) (g v).
Proof.
  intros Hf Hg ep Hep. destruct (Hg ep Hep) as [d [Hd H]]. destruct (Hf d Hd) as [d' [Hd' H']].
  exists d'. split; [exact Hd'|]. intros q Hq Hl. specialize (H' q Hq Hl).
  destruct (Req_dec (f q) v) as [->|Hne]; [rewrite Rminus_diag_eq by reflexivity; rewrite Rabs_R0; exact Hep|].
  apply (H (f q)). split; [split; [exact I|intros E; apply Hne; symmetry; exact E]|exact H'].
Qed.
Lemma lim0_pow f v n : lim0 f v -> lim0 (fun q => f q ^ n) (v ^ n).
Proof. intros H. induction n; simpl; [apply lim0_const|apply lim0_mult; assumption]. Qed.
Lemma lim0_div f v g w : lim0 f v -> lim0 g w -> w <> 0 -> lim0 (fun q => f q / g q) (v / w).
Proof.
  intros Hf Hg Hw. unfold Rdiv. apply lim0_mult; [exact Hf|].
  apply (lim0_comp g w Rinv); [exact Hg|]. apply derivable_continuous_pt. 
  apply (derivable_pt_inv id); [exact Hw|apply derivable_pt_id].
Qed.
Lemma lim0_opp f v : lim0 f v -> lim0 (fun q => - f q) (- v).
Proof.
  intros H. apply (lim0_ext (fun q => -1 * f q)); [intros; ring|].
  eapply lim0_eq; [apply lim0_scal; exact H|ring].
Qed.
Lemma lim0_dot K : lim0 (fun q => dot3 K q) 0.
Proof.
  unfold dot3. apply (lim0_eq _ (K 0%nat * 0 + K 1%nat * 0 + K 2%nat * 0)); [|ring].
  apply lim0_plus; [apply lim0_plus|]; apply lim0_scal; apply lim0_coord; lia.
Qed.
Lemma lim0_vsum L (F : vec -> vec -> R) (v : vec -> R) :
  (forall X, In X L -> lim0 (F X) (v X)) -> lim0 (fun q => vsum L (fun X => F X q)) (vsum L v).
Proof.
  induction L as [|X L IH]; intros H; simpl; [apply lim0_const|].
  apply (lim0_plus (F X) (fun q => vsum L (fun X => F X q))); [apply H; left; reflexivity|].
  apply IH. intros Y HY. apply H. right. exact HY.
Qed.
Lemma lim0_shift_coord X i : (i < 3)%nat -> lim0 (fun q => vadd q X i) (X i).
Proof.
  intros Hi. unfold vadd. eapply lim0_eq; [apply lim0_plus; [apply lim0_coord; exact Hi|apply lim0_const]|ring].
Qed.
Lemma lim0_shift_len X : lim0 (fun q => len (vadd q X)) (len X).
Proof.
  unfold len. apply (lim0_comp (fun q => dot3 (vadd q X) (vadd q X)) (dot3 X X) sqrt).
  - unfold dot3. apply lim0_plus; [apply lim0_plus|]; apply lim0_mult; apply lim0_shift_coord; lia.
  - apply continuity_pt_sqrt. unfold dot3. nra.
Qed.

Section Shifted.
Variable e : nat -> R -> R.
Hypothesis He : forall k t, (k < 6)%nat -> derivable_pt_lim (e k) t (e (S k) t).
Hypothesis He6 : forall t, continuity_pt (e 6%nat) t.
Variable X : vec.
Hypothesis HX : nonzero X.
Lemma e_cont k t : (k <= 6)%nat -> continuity_pt (e k) t.
Proof.
  intros Hk. destruct (Nat.eq_dec k 6) as [->|]; [apply He6|].
  apply derivable_continuous_pt. exists (e (S k) t). apply He. lia.
Qed.
Lemma lim0_shift_e k : (k <= 6)%nat -> lim0 (fun q => e k (len (vadd q X))) (e k (len X)).
Proof. intros Hk. apply (lim0_comp (fun q => len (vadd q X)) (len X) (e k)); [apply lim0_shift_len|apply e_cont; exact Hk]. Qed.

Ltac step := lazymatch goal with
  | |- lim0 (fun q => len (vadd q X)) _ => apply lim0_shift_len
  | |- lim0 (fun q => vadd q X ?i) _ => apply lim0_shift_coord; assumption
  | |- lim0 (fun q => e ?k (len (vadd q X))) _ => apply lim0_shift_e; lia
  | |- lim0 (fun q => @?f q + @?g q) _ => apply (lim0_plus f g)
  | |- lim0 (fun q => @?f q - @?g q) _ => apply (lim0_minus f g)
  | |- lim0 (fun q => @?f q * @?g q) _ => apply (lim0_mult f g)
  | |- lim0 (fun q => @?f q / @?g q) _ => apply (lim0_div f _ g)
  | |- lim0 (fun q => - @?f q) _ => apply (lim0_opp f)
  | |- lim0 (fun q => @?f q ^ ?n) _ => apply (lim0_pow f)
  | _ => apply lim0_const
  end.
Ltac cont := pose proof (len_pos X HX) as HP; cbv beta zeta; repeat (step; cbv beta);
  try (apply pow_nonzero; lra); try lra.
Lemma fJ_cont i j : (i < 3)%nat -> (j < 3)%nat -> lim0 (fun q => fJ e i j (vadd q X)) (fJ e i j X).
Proof. intros Hi Hj. unfold fJ, Jr, Lap_rerfclr, DD_rerfclr, eat. cont. Qed.
Lemma fLJ_cont i j : (i < 3)%nat -> (j < 3)%nat -> lim0 (fun q => fLJ e i j (vadd q X)) (fLJ e i j X).
Proof. intros Hi Hj. unfold fLJ, Lap_Jr, LapLap_rerfclr, DDLap_rerfclr, eat. cont. Qed.
Lemma fDJ_cont l i j : (l < 3)%nat -> (i < 3)%nat -> (j < 3)%nat -> lim0 (fun q => fDJ e l i j (vadd q X)) (fDJ e l i j X).
Proof. intros Hl Hi Hj. unfold fDJ, D_Jr, DLap_rerfclr, DDD_rerfclr, eat. cont. Qed.
Lemma fDDJ_cont m l i j : (m < 3)%nat -> (l < 3)%nat -> (i < 3)%nat -> (j < 3)%nat -> lim0 (fun q => fDDJ e m l i j (vadd q X)) (fDDJ e m l i j X).
Proof. intros Hm Hl Hi Hj. unfold fDDJ, DD_Jr, DDLap_rerfclr, DDDD_rerfclr, eat. cont. Qed.
Lemma fDLJ_cont k i j : (k < 3)%nat -> (i < 3)%nat -> (j < 3)%nat -> lim0 (fun q => fDLJ e k i j (vadd q X)) (fDLJ e k i j X).
Proof. intros Hk Hi Hj. unfold fDLJ, DLap_Jr, DLapLap_rerfclr, DDDLap_rerfclr, eat. cont. Qed.
Lemma fDDLJ_cont l k i j : (l < 3)%nat -> (k < 3)%nat -> (i < 3)%nat -> (j < 3)%nat -> lim0 (fun q => fDDLJ e l k i j (vadd q X)) (fDDLJ e l k i j X).
Proof. intros Hl Hk Hi Hj. unfold fDDLJ, DDLap_Jr, DDLapLap_rerfclr, DDDDLap_rerfclr, eat. cont. Qed.
End Shifted.

Lemma wcos_cont K : lim0 (wcos K) (wcos K vnull).
Proof.
  unfold wcos. replace (dot3 K vnull) with 0 by (unfold dot3, vnull; ring).
  apply (lim0_comp (fun q => dot3 K q) 0 cos); [apply lim0_dot|apply continuity_cos].
Qed.
Lemma wsin_cont K : lim0 (wsin K) (wsin K vnull).
Proof.
  unfold wsin. replace (dot3 K vnull) with 0 by (unfold dot3, vnull; ring).
  apply (lim0_comp (fun q => dot3 K q) 0 sin); [apply lim0_dot|apply continuity_sin].
Qed.
Lemma vadd_null q : vadd q vnull = q.
Proof. apply functional_extensionality. intros i. unfold vadd, vnull. ring. Qed.

Section SelfTerms.
Variable lat : lattice.
Hypothesis Hlam : 0 < lat_lamb lat.
Hypothesis HP : Permutation (X_lmn lat) (vnull :: Xdash_lmn lat).
Hypothesis HXd : forall X, In X (Xdash_lmn lat) -> tiny < norm X.
Let lam := lat_lamb lat.
Let e : nat -> R -> R := fun n s => generate_erfcs s lam n.
Let He : forall k t, (k < 6)%nat -> derivable_pt_lim (e k) t (e (S k) t).
Proof. intros k t Hk. exact (erfcs_chain lam t k Hk). Qed.
Let He6 : forall t, continuity_pt (e 6%nat) t.
Proof.
  intros t. apply derivable_continuous_pt. unfold e, generate_erfcs. reg.
Qed.
Let L3 := 1 / lat_L lat ^ 3.
Let RR := fun K => RR_of lam (norm K).
Notation XD := (Xdash_lmn lat).
Notation KS := (K_lmn lat).
Let C := c0 lam.
Let Xd_nonzero X : In X XD -> nonzero X.
Proof.
  intros H. specialize (HXd X H). rewrite <- len_norm in HXd. unfold nonzero. rewrite <- len_sq.
  pose proof tiny_pos. apply Rmult_lt_0_compat; lra.
Qed.

Lemma self_lim (F U F' : vec -> R) (W : vec -> vec -> R) A :
  (forall q, nonzero q -> U q - F q = F' q) -> lim0 F' A ->
  (forall X, In X XD -> lim0 (fun q => F (vadd q X)) (F X)) -> (forall K, lim0 (W K) (W K vnull)) ->
  lim0 (fun q => vsum (X_lmn lat) (fun X => F (vadd q X)) + L3 * vsum KS (fun K => W K q) - U q)
       (- A + (vsum XD F + L3 * vsum KS (fun K => W K vnull))).
Proof.
  intros HU HA HF HW.
  apply (lim0_ext (fun q => - F' q + (vsum XD (fun X => F (vadd q X)) + L3 * vsum KS (fun K => W K q)))).
  { intros q Hq. rewrite (vsum_perm _ _ _ HP). unfold vsum at 3. cbn [fold_right]. fold (vsum XD (fun X => F (vadd q X))).
    rewrite vadd_null, <- (HU q Hq). ring. }
  apply (lim0_plus (fun q => - F' q) (fun q => vsum XD (fun X => F (vadd q X)) + L3 * vsum KS (fun K => W K q)));
    [apply lim0_opp; exact HA|].
  apply (lim0_plus (fun q => vsum XD (fun X => F (vadd q X))) (fun q => L3 * vsum KS (fun K => W K q))).
  - apply (lim0_vsum XD (fun X q => F (vadd q X)) F). exact HF.
  - apply lim0_scal. apply (lim0_vsum KS W (fun K => W K vnull)). intros K _. apply HW.
Qed.

Let e0 : nat -> R -> R := fun n s => generate_erfcs s 0 n.
Ltac lin q Hq := pose proof (len_pos q Hq) as HL.
Lemma uJ_diff i j q : nonzero q -> uJ i j q - fJ e i j q = fJ (e' lam) i j q.
Proof.
  intros Hq. unfold uJ. rewrite <- len_norm, <- (zero_J q (len q) i j (len_pos q Hq)).
  unfold fJ, Jr, Lap_rerfclr, DD_rerfclr, eat, e', e. unfold Rdiv; ring.
Qed.
Lemma uLJ_diff i j q : nonzero q -> uLJ i j q - fLJ e i j q = fLJ (e' lam) i j q.
Proof.
  intros Hq. unfold uLJ. rewrite <- len_norm, <- (zero_Lap_J q (len q) i j (len_pos q Hq)).
  unfold fLJ, Lap_Jr, LapLap_rerfclr, DDLap_rerfclr, eat, e', e. cbv zeta. unfold Rdiv; ring.
Qed.
Lemma uDJ_diff l i j q : nonzero q -> uDJ l i j q - fDJ e l i j q = fDJ (e' lam) l i j q.
Proof.
  intros Hq. unfold uDJ. rewrite <- len_norm, <- (zero_D_J q (len q) l i j (len_pos q Hq)).
  unfold fDJ, D_Jr, DLap_rerfclr, DDD_rerfclr, eat, e', e. cbv zeta. unfold Rdiv; ring.
Qed.
Lemma uDDJ_diff m l i j q : nonzero q -> uDDJ m l i j q - fDDJ e m l i j q = fDDJ (e' lam) m l i j q.
Proof.
  intros Hq. unfold uDDJ. rewrite <- len_norm, <- (zero_DD_J q (len q) m l i j (len_pos q Hq)).
  unfold fDDJ, DD_Jr, DDLap_rerfclr, DDDD_rerfclr, eat, e', e. cbv zeta. unfold Rdiv; ring.
Qed.
Lemma uDLJ_diff l i j q : nonzero q -> uDLJ l i j q - fDLJ e l i j q = fDLJ (e' lam) l i j q.
Proof.
  intros Hq. unfold uDLJ. rewrite <- len_norm, <- (zero_DLap_J q (len q) l i j (len_pos q Hq)).
  unfold fDLJ, DLap_Jr, DLapLap_rerfclr, DDDLap_rerfclr, eat, e', e. cbv zeta. unfold Rdiv; ring.
Qed.
Lemma uDDLJ_diff l k i j q : nonzero q -> uDDLJ l k i j q - fDDLJ e l k i j q = fDDLJ (e' lam) l k i j q.
Proof.
  intros Hq. unfold uDDLJ. rewrite <- len_norm, <- (zero_DDLap_J q (len q) l k i j (len_pos q Hq)).
  unfold fDDLJ, DDLap_Jr, DDLapLap_rerfclr, DDDDLap_rerfclr, eat, e', e. cbv zeta. unfold Rdiv; ring.
Qed.

(** Limits of the tables of the difference tensor. *)
Definition sJ i j (_ : vec) := - (4 * C * delta i j) + (vsum XD (fJ e i j) + L3 * vsum KS (fun K => wJ K (RR K) i j vnull)).
Definition sLJ i j (_ : vec) := - (- (80 / 3 * lam ^ 2) * C * delta i j)
  + (vsum XD (fLJ e i j) + L3 * vsum KS (fun K => wLJ K (RR K) i j vnull)).
Definition sD l i j (_ : vec) := - 0 + (vsum XD (fDJ e l i j) + L3 * vsum KS (fun K => wDJ K (RR K) l i j vnull)).
Definition sDLJ l i j (_ : vec) := - 0 + (vsum XD (fDLJ e l i j) + L3 * vsum KS (fun K => wDLJ K (RR K) l i j vnull)).
Definition sDD m l i j (_ : vec) := - (lam ^ 2 * C * (- (40 / 3) * (delta i j * delta l m) + 8 / 3 * kron3 i j l m))
  + (vsum XD (fDDJ e m l i j) + L3 * vsum KS (fun K => wDDJ K (RR K) m l i j vnull)).
Definition sDDLJ m l i j (_ : vec) := - (lam ^ 4 * C * (168 * (delta i j * delta l m) - 168 / 5 * kron3 i j l m))
  + (vsum XD (fDDLJ e m l i j) + L3 * vsum KS (fun K => wDDLJ K (RR K) m l i j vnull)).

Lemma sJ_lim i j : (i < 3)%nat -> (j < 3)%nat -> lim0 (fun q => green lat i j q - uJ i j q) (sJ i j vnull).
Proof.
  intros Hi Hj. apply (self_lim (fJ e i j) (uJ i j) (fJ (e' lam) i j) (fun K => wJ K (RR K) i j)).
  - apply uJ_diff.
  - apply (J_l lam Hlam); assumption.
  - intros X H. apply fJ_cont; auto.
  - intros K. unfold wJ. apply lim0_scal. apply wcos_cont.
Qed.
Lemma sLJ_lim i j : (i < 3)%nat -> (j < 3)%nat -> lim0 (fun q => gLJ lat i j q - uLJ i j q) (sLJ i j vnull).
Proof.
  intros Hi Hj. apply (self_lim (fLJ e i j) (uLJ i j) (fLJ (e' lam) i j) (fun K => wLJ K (RR K) i j)).
  - apply uLJ_diff.
  - apply (LJ_l lam Hlam); assumption.
  - intros X H. apply fLJ_cont; auto.
  - intros K. unfold wLJ. apply lim0_scal. apply wcos_cont.
Qed.
Lemma sD_lim l i j : (l < 3)%nat -> (i < 3)%nat -> (j < 3)%nat -> lim0 (fun q => gD lat l i j q - uDJ l i j q) (sD l i j vnull).
Proof.
  intros Hl Hi Hj. apply (self_lim (fDJ e l i j) (uDJ l i j) (fDJ (e' lam) l i j) (fun K => wDJ K (RR K) l i j)).
  - apply uDJ_diff.
  - apply (DJ_l lam Hlam); assumption.
  - intros X H. apply fDJ_cont; auto.
  - intros K. unfold wDJ. apply lim0_scal. apply wsin_cont.
Qed.
Lemma sDLJ_lim l i j : (l < 3)%nat -> (i < 3)%nat -> (j < 3)%nat -> lim0 (fun q => gDLJ lat l i j q - uDLJ l i j q) (sDLJ l i j vnull).
Proof.
  intros Hl Hi Hj. apply (self_lim (fDLJ e l i j) (uDLJ l i j) (fDLJ (e' lam) l i j) (fun K => wDLJ K (RR K) l i j)).
  - apply uDLJ_diff.
  - apply (DLJ_l lam Hlam); assumption.
  - intros X H. apply fDLJ_cont; auto.
  - intros K. unfold wDLJ. apply lim0_scal. apply wsin_cont.
Qed.
Lemma sDD_lim m l i j : (m < 3)%nat -> (l < 3)%nat -> (i < 3)%nat -> (j < 3)%nat ->
  lim0 (fun q => gDD lat m l i j q - uDDJ m l i j q) (sDD m l i j vnull).
Proof.
  intros Hm Hl Hi Hj. apply (self_lim (fDDJ e m l i j) (uDDJ m l i j) (fDDJ (e' lam) m l i j) (fun K => wDDJ K (RR K) m l i j)).
  - apply uDDJ_diff.
  - apply (DDJ_l lam Hlam); assumption.
  - intros X H. apply fDDJ_cont; auto.
  - intros K. unfold wDDJ. apply lim0_scal. apply wcos_cont.
Qed.
Lemma sDDLJ_lim m l i j : (m < 3)%nat -> (l < 3)%nat -> (i < 3)%nat -> (j < 3)%nat ->
  lim0 (fun q => gDDLJ lat m l i j q - uDDLJ m l i j q) (sDDLJ m l i j vnull).
Proof.
  intros Hm Hl Hi Hj. apply (self_lim (fDDLJ e m l i j) (uDDLJ m l i j) (fDDLJ (e' lam) m l i j) (fun K => wDDLJ K (RR K) m l i j)).
  - apply uDDLJ_diff.
  - apply (DDLJ_l lam Hlam); assumption.
  - intros X H. apply fDDLJ_cont; auto.
  - intros K. unfold wDDLJ. apply lim0_scal. apply wcos_cont.
Qed.
End SelfTerms.

(** ** Limits under the operators *)
Section OpLim.
Variables (c a1 a2 w : R).
Ltac olim := lazymatch goal with
  | |- lim0 (fun q => @?f q + @?g q) _ => apply (lim0_plus f g)
  | |- lim0 (fun q => @?f q - @?g q) _ => apply (lim0_minus f g)
  | |- lim0 (fun q => ?t * @?g q) _ => apply (lim0_scal t g)
  | H : forall _, _ |- _ => (apply H; (lia || assumption)) 
  end.
Lemma op_a_lim (Jf LJ Jf' LJ' Jl LJl : nat -> nat -> vec -> R) i j : (i < 3)%nat -> (j < 3)%nat ->
  (forall i j, (i < 3)%nat -> (j < 3)%nat -> lim0 (fun q => Jf i j q - Jf' i j q) (Jl i j vnull)) ->
  (forall i j, (i < 3)%nat -> (j < 3)%nat -> lim0 (fun q => LJ i j q - LJ' i j q) (LJl i j vnull)) ->
  lim0 (fun q => op_a Jf LJ c a1 a2 q i j - op_a Jf' LJ' c a1 a2 q i j) (op_a Jl LJl c a1 a2 vnull i j).
Proof.
  intros Hi Hj H1 H2.
  apply (lim0_ext (fun q => op_a (fun i j q => Jf i j q - Jf' i j q) (fun i j q => LJ i j q - LJ' i j q) c a1 a2 q i j));
    [intros q _; unfold op_a; ring|].
  unfold op_a. apply lim0_scal. apply lim0_plus; [|apply lim0_scal]; auto.
Qed.
Lemma rot_lim (G : vec -> nat -> nat -> R) (Gl : nat -> nat -> R) j :
  (forall k l, (k < 3)%nat -> (l < 3)%nat -> lim0 (fun q => G q k l) (Gl k l)) ->
  lim0 (fun q => rot (G q) j) (rot Gl j).
Proof.
  intros H. unfold rot.
  apply (lim0_ext (fun q => eps j 0 0 * G q 0%nat 0%nat + eps j 0 1 * G q 0%nat 1%nat + eps j 0 2 * G q 0%nat 2%nat
    + (eps j 1 0 * G q 1%nat 0%nat + eps j 1 1 * G q 1%nat 1%nat + eps j 1 2 * G q 1%nat 2%nat)
    + (eps j 2 0 * G q 2%nat 0%nat + eps j 2 1 * G q 2%nat 1%nat + eps j 2 2 * G q 2%nat 2%nat)));
    [intros q _; rewrite !rsum3; ring|].
  rewrite !rsum3. repeat apply lim0_plus; apply lim0_scal; apply H; lia.
Qed.
Lemma op_b_lim (D DL D' DL' Dl DLl : nat -> nat -> nat -> vec -> R) i j : (i < 3)%nat ->
  (forall l i j, (l < 3)%nat -> (i < 3)%nat -> (j < 3)%nat -> lim0 (fun q => D l i j q - D' l i j q) (Dl l i j vnull)) ->
  (forall l i j, (l < 3)%nat -> (i < 3)%nat -> (j < 3)%nat -> lim0 (fun q => DL l i j q - DL' l i j q) (DLl l i j vnull)) ->
  lim0 (fun q => op_b D DL c a1 q i j - op_b D' DL' c a1 q i j) (op_b Dl DLl c a1 vnull i j).
Proof.
  intros Hi H1 H2.
  apply (lim0_ext (fun q => op_b (fun l i j q => D l i j q - D' l i j q) (fun l i j q => DL l i j q - DL' l i j q) c a1 q i j));
    [intros q _; unfold op_b, rot; rewrite !rsum3; ring|].
  unfold op_b. apply lim0_scal. apply lim0_plus; [|apply lim0_scal]; apply lim0_scal;
  [apply (rot_lim (fun q k l => D k i l q - D' k i l q))|apply (rot_lim (fun q k l => DL k i l q - DL' k i l q))]; auto.
Qed.
Lemma op_c_lim (DD DD' DDl : nat -> nat -> nat -> nat -> vec -> R) i j :
  (forall m l i j, (m < 3)%nat -> (l < 3)%nat -> (i < 3)%nat -> (j < 3)%nat -> lim0 (fun q => DD m l i j q - DD' m l i j q) (DDl m l i j vnull)) ->
  lim0 (fun q => op_c DD c q i j - op_c DD' c q i j) (op_c DDl c vnull i j).
Proof.
  intros H1.
  apply (lim0_ext (fun q => op_c (fun m l i j q => DD m l i j q - DD' m l i j q) c q i j));
    [intros q _; unfold op_c, rot; rewrite !rsum3; ring|].
  unfold op_c. apply lim0_scal. apply lim0_scal.
  apply (rot_lim (fun q k l => - (1 / 2) * rot (fun m n => DD k m l n q - DD' k m l n q) j)).
  intros k l Hk Hl. apply lim0_scal. apply (rot_lim (fun q m n => DD k m l n q - DD' k m l n q)). auto.
Qed.
Lemma op_g_lim (D DL D' DL' Dl DLl : nat -> nat -> nat -> vec -> R) i j k : (i < 3)%nat -> (j < 3)%nat -> (k < 3)%nat ->
  (forall l i j, (l < 3)%nat -> (i < 3)%nat -> (j < 3)%nat -> lim0 (fun q => D l i j q - D' l i j q) (Dl l i j vnull)) ->
  (forall l i j, (l < 3)%nat -> (i < 3)%nat -> (j < 3)%nat -> lim0 (fun q => DL l i j q - DL' l i j q) (DLl l i j vnull)) ->
  lim0 (fun q => op_g D DL c a1 a2 q i j k - op_g D' DL' c a1 a2 q i j k) (op_g Dl DLl c a1 a2 vnull i j k).
Proof.
  intros Hi Hj Hk H1 H2.
  apply (lim0_ext (fun q => op_g (fun l i j q => D l i j q - D' l i j q) (fun l i j q => DL l i j q - DL' l i j q) c a1 a2 q i j k));
    [intros q _; unfold op_g; ring|].
  unfold op_g. apply lim0_scal. apply lim0_plus; [|apply lim0_scal]; apply lim0_scal;
  [apply (lim0_plus (fun q => D k i j q - D' k i j q) (fun q => D j i k q - D' j i k q))
  |apply (lim0_plus (fun q => DL k i j q - DL' k i j q) (fun q => DL j i k q - DL' j i k q))]; auto.
Qed.
Lemma op_h_lim (DD DDL DD' DDL' DDl DDLl : nat -> nat -> nat -> nat -> vec -> R) i j k : (j < 3)%nat -> (k < 3)%nat ->
  (forall m l i j, (m < 3)%nat -> (l < 3)%nat -> (i < 3)%nat -> (j < 3)%nat -> lim0 (fun q => DD m l i j q - DD' m l i j q) (DDl m l i j vnull)) ->
  (forall m l i j, (m < 3)%nat -> (l < 3)%nat -> (i < 3)%nat -> (j < 3)%nat -> lim0 (fun q => DDL m l i j q - DDL' m l i j q) (DDLl m l i j vnull)) ->
  lim0 (fun q => op_h DD DDL c w q i j k - op_h DD' DDL' c w q i j k) (op_h DDl DDLl c w vnull i j k).
Proof.
  intros Hj Hk H1 H2.
  apply (lim0_ext (fun q => op_h (fun m l i j q => DD m l i j q - DD' m l i j q) (fun m l i j q => DDL m l i j q - DDL' m l i j q) c w q i j k));
    [intros q _; unfold op_h, rot; rewrite !rsum3; ring|].
  unfold op_h. apply lim0_scal. apply lim0_scal.
  apply (rot_lim (fun q l m => 1 / 2 * (DD l k m j q - DD' l k m j q + (DD l j m k q - DD' l j m k q))
     + w * (1 / 2 * (DDL l k m j q - DDL' l k m j q + (DDL l j m k q - DDL' l j m k q))))).
  intros l m Hl Hm. apply lim0_plus; [|apply lim0_scal]; apply lim0_scal;
  [apply (lim0_plus (fun q => DD l k m j q - DD' l k m j q) (fun q => DD l j m k q - DD' l j m k q))
  |apply (lim0_plus (fun q => DDL l k m j q - DDL' l k m j q) (fun q => DDL l j m k q - DDL' l j m k q))]; auto.
Qed.
Lemma op_m_lim (DD DDL DD' DDL' DDl DDLl : nat -> nat -> nat -> nat -> vec -> R) i j k l :
  (i < 3)%nat -> (j < 3)%nat -> (k < 3)%nat -> (l < 3)%nat ->
  (forall m l i j, (m < 3)%nat -> (l < 3)%nat -> (i < 3)%nat -> (j < 3)%nat -> lim0 (fun q => DD m l i j q - DD' m l i j q) (DDl m l i j vnull)) ->
  (forall m l i j, (m < 3)%nat -> (l < 3)%nat -> (i < 3)%nat -> (j < 3)%nat -> lim0 (fun q => DDL m l i j q - DDL' m l i j q) (DDLl m l i j vnull)) ->
  lim0 (fun q => op_m DD DDL c a1 a2 q i j k l - op_m DD' DDL' c a1 a2 q i j k l) (op_m DDl DDLl c a1 a2 vnull i j k l).
Proof.
  intros Hi Hj Hk Hl H1 H2.
  apply (lim0_ext (fun q => op_m (fun m l i j q => DD m l i j q - DD' m l i j q) (fun m l i j q => DDL m l i j q - DDL' m l i j q) c a1 a2 q i j k l));
    [intros q _; unfold op_m; ring|].
  assert (P : forall (T T' Tl : nat -> nat -> nat -> nat -> vec -> R),
   (forall m l i j, (m < 3)%nat -> (l < 3)%nat -> (i < 3)%nat -> (j < 3)%nat -> lim0 (fun q => T m l i j q - T' m l i j q) (Tl m l i j vnull)) ->
   lim0 (fun q => 1 / 2 * (1 / 2 * (T j l i k q - T' j l i k q + (T j k i l q - T' j k i l q))
                + 1 / 2 * (T i l j k q - T' i l j k q + (T i k j l q - T' i k j l q))))
     (1 / 2 * (1 / 2 * (Tl j l i k vnull + Tl j k i l vnull) + 1 / 2 * (Tl i l j k vnull + Tl i k j l vnull)))).
  { intros T T' Tl H. apply lim0_scal. apply lim0_plus; apply lim0_scal;
    [apply (lim0_plus (fun q => T j l i k q - T' j l i k q) (fun q => T j k i l q - T' j k i l q))
    |apply (lim0_plus (fun q => T i l j k q - T' i l j k q) (fun q => T i k j l q - T' i k j l q))]; auto. }
  unfold op_m. apply lim0_scal. apply lim0_plus; [apply (P DD DD' DDl H1)|apply lim0_scal; apply (P DDL DDL' DDLl H2)].
Qed.
End OpLim.
