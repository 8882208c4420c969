(** The lattice sums are the operators applied to the truncated Ewald sum. *)
From Coq Require Import Reals Arith Bool List Lia Lra FunctionalExtensionality.
From Verif Require Import Base Model_Pack Model_Mob Model_Layout Model_Minf Model_Ewald Model_MinfP
  Spec_Layout Spec_Minf Spec_MinfP Spec_Calc Spec_Ewald Proof_Calc Proof_Mob Proof_Mob2
  Proof_Ewald1 Proof_Ewald2 Proof_Ewald3 Proof_Ewald4 Proof_Ewald5 Proof_MinfP1 Proof_MinfP3.
Import ListNotations.
Local Open Scope R_scope.

Lemma len_norm q : len q = norm q.
Proof. unfold len, norm, dot3. f_equal. ring. Qed.

(** ** Derivatives of sums and shifts *)
Lemma partial_shift l f X r v : partial l f (vadd r X) v -> partial l (fun q => f (vadd q X)) r v.
Proof.
  unfold partial. intros H.
  assert (E : (fun t => f (vadd (upd r l t) X)) = (fun t => f (upd (vadd r X) l (t + X l)))).
  { apply functional_extensionality. intros t. f_equal. apply functional_extensionality. intros i.
    unfold vadd, upd. destruct (Nat.eqb_spec i l) as [->|]; reflexivity. }
  rewrite E. replace v with (v * (1 + 0)) by ring.
  apply (derivable_pt_lim_comp (fun t => t + X l) (fun t => f (upd (vadd r X) l t))).
  - apply (derivable_pt_lim_plus id (fun _ => X l)); [apply derivable_pt_lim_id|apply derivable_pt_lim_const].
  - exact H.
Qed.
Lemma partial_vsum l L (f : vec -> vec -> R) (v : vec -> R) r :
  (forall X, In X L -> partial l (f X) r (v X)) -> partial l (fun q => vsum L (fun X => f X q)) r (vsum L v).
Proof.
  induction L as [|X L IH]; intros H; simpl.
  - apply partial_const.
  - apply (partial_plus l (f X) (fun q => vsum L (fun X => f X q))); [apply H; left; reflexivity|].
    apply IH. intros Y HY. apply H. right. exact HY.
Qed.

Section Sums.
Variable lat : lattice.
Let e : nat -> R -> R := fun n s => generate_erfcs s (lat_lamb lat) n.
Let He : forall k t, (k < 6)%nat -> derivable_pt_lim (e k) t (e (S k) t).
Proof. intros k t Hk. exact (erfcs_chain (lat_lamb lat) t k Hk). Qed.
Let L3 := 1 / lat_L lat ^ 3.
Let RR := fun K => RR_of (lat_lamb lat) (norm K).
Notation XS := (X_lmn lat).
Notation KS := (K_lmn lat).

Definition rD l i j q := vsum XS (fun X => fDJ e l i j (vadd q X)).
Definition rDD m l i j q := vsum XS (fun X => fDDJ e m l i j (vadd q X)).
Definition rLJ i j q := vsum XS (fun X => fLJ e i j (vadd q X)).
Definition rDLJ k i j q := vsum XS (fun X => fDLJ e k i j (vadd q X)).
Definition rDDLJ l k i j q := vsum XS (fun X => fDDLJ e l k i j (vadd q X)).
Definition kD l i j q := vsum KS (fun K => wDJ K (RR K) l i j q).
Definition kDD m l i j q := vsum KS (fun K => wDDJ K (RR K) m l i j q).
Definition kLJ i j q := vsum KS (fun K => wLJ K (RR K) i j q).
Definition kDLJ k i j q := vsum KS (fun K => wDLJ K (RR K) k i j q).
Definition kDDLJ l k i j q := vsum KS (fun K => wDDLJ K (RR K) l k i j q).
Definition gD l i j q := rD l i j q + L3 * kD l i j q.
Definition gDD m l i j q := rDD m l i j q + L3 * kDD m l i j q.
Definition gLJ i j q := rLJ i j q + L3 * kLJ i j q.
Definition gDLJ k i j q := rDLJ k i j q + L3 * kDLJ k i j q.
Definition gDDLJ l k i j q := rDDLJ l k i j q + L3 * kDDLJ l k i j q.

Lemma fLJ_trace i j q : (i < 3)%nat -> (j < 3)%nat -> nonzero q ->
  fLJ e i j q = fDDJ e 0 0 i j q + fDDJ e 1 1 i j q + fDDJ e 2 2 i j q.
Proof.
  intros Hi Hj Hq. unfold fLJ, Lap_Jr. fold (cLapLap e q). fold (cDDLap e i j q).
  rewrite <- (DDDD_trace e i j q Hi Hj Hq), (cDDLap_trace e q Hq). rewrite !rsum3.
  unfold fDDJ, DD_Jr, cDDLap, cDDDD. ring.
Qed.

Lemma vsum_plus3 L f g h : vsum L (fun X => f X + g X + h X) = vsum L f + vsum L g + vsum L h.
Proof. rewrite (vsum_plus L (fun X => f X + g X) h), vsum_plus. reflexivity. Qed.

Lemma real_on : derivatives_on (off_lattice lat) (green_real lat) rD rDD rLJ rDLJ rDDLJ.
Proof.
  constructor.
  - intros l i j q Hl Hi Hj Hq. unfold green_real, rD. cbv zeta.
    apply (partial_vsum l XS (fun X q => fJ e i j (vadd q X)) (fun X => fDJ e l i j (vadd q X))).
    intros X HX. apply (partial_shift l (fJ e i j)). apply (fDJ_ok e He); [exact Hl|apply Hq; exact HX].
  - intros m l i j q Hm Hl Hi Hj Hq.
    apply (partial_vsum m XS (fun X q => fDJ e l i j (vadd q X)) (fun X => fDDJ e m l i j (vadd q X))).
    intros X HX. apply (partial_shift m (fDJ e l i j)). apply (fDDJ_ok e He); [exact Hm|apply Hq; exact HX].
  - intros i j q Hi Hj Hq. unfold rLJ, rDD. rewrite <- vsum_plus3. apply vsum_ext. intros X HX.
    apply fLJ_trace; try assumption. apply Hq. exact HX.
  - intros k i j q Hk Hi Hj Hq.
    apply (partial_vsum k XS (fun X q => fLJ e i j (vadd q X)) (fun X => fDLJ e k i j (vadd q X))).
    intros X HX. apply (partial_shift k (fLJ e i j)). apply (fDLJ_ok e He); [exact Hk|apply Hq; exact HX].
  - intros l k i j q Hl Hk Hi Hj Hq.
    apply (partial_vsum l XS (fun X q => fDLJ e k i j (vadd q X)) (fun X => fDDLJ e l k i j (vadd q X))).
    intros X HX. apply (partial_shift l (fDLJ e k i j)). apply (fDDLJ_ok e He); [exact Hl|apply Hq; exact HX].
Qed.

Lemma wave_on : derivatives_on (fun _ => True) (green_wave lat) kD kDD kLJ kDLJ kDDLJ.
Proof.
  constructor.
  - intros l i j q Hl Hi Hj _.
    apply (partial_vsum l KS (fun K q => wJ K (RR K) i j q) (fun K => wDJ K (RR K) l i j q)).
    intros K _. apply (has_D _ _ _ _ _ _ _ (wave_derivatives K (RR K))); auto.
  - intros m l i j q Hm Hl Hi Hj _.
    apply (partial_vsum m KS (fun K q => wDJ K (RR K) l i j q) (fun K => wDDJ K (RR K) m l i j q)).
    intros K _. apply (has_DD _ _ _ _ _ _ _ (wave_derivatives K (RR K))); auto.
  - intros i j q Hi Hj _. unfold kLJ, kDD. rewrite <- vsum_plus3. apply vsum_ext. intros K _.
    unfold wLJ, wDDJ. rewrite ks_sq. ring.
  - intros k i j q Hk Hi Hj _.
    apply (partial_vsum k KS (fun K q => wLJ K (RR K) i j q) (fun K => wDLJ K (RR K) k i j q)).
    intros K _. apply (has_DLJ _ _ _ _ _ _ _ (wave_derivatives K (RR K))); auto.
  - intros l k i j q Hl Hk Hi Hj _.
    apply (partial_vsum l KS (fun K q => wDLJ K (RR K) k i j q) (fun K => wDDLJ K (RR K) l k i j q)).
    intros K _. apply (has_DDLJ _ _ _ _ _ _ _ (wave_derivatives K (RR K))); auto.
Qed.

Lemma green_on : derivatives_on (off_lattice lat) (green lat) gD gDD gLJ gDLJ gDDLJ.
Proof.
  pose proof real_on as A. pose proof wave_on as B.
  constructor; intros.
  - apply (partial_plus l (green_real lat i j) (fun q => L3 * green_wave lat i j q));
      [apply (on_D _ _ _ _ _ _ _ A); assumption|apply partial_scal; apply (on_D _ _ _ _ _ _ _ B); auto].
  - apply (partial_plus m (rD l i j) (fun q => L3 * kD l i j q));
      [apply (on_DD _ _ _ _ _ _ _ A); assumption|apply partial_scal; apply (on_DD _ _ _ _ _ _ _ B); auto].
  - unfold gLJ, gDD. rewrite (on_LJ _ _ _ _ _ _ _ A), (on_LJ _ _ _ _ _ _ _ B) by auto. ring.
  - apply (partial_plus k (rLJ i j) (fun q => L3 * kLJ i j q));
      [apply (on_DLJ _ _ _ _ _ _ _ A); assumption|apply partial_scal; apply (on_DLJ _ _ _ _ _ _ _ B); auto].
  - apply (partial_plus l (rDLJ k i j) (fun q => L3 * kDLJ k i j q));
      [apply (on_DDLJ _ _ _ _ _ _ _ A); assumption|apply partial_scal; apply (on_DDLJ _ _ _ _ _ _ _ B); auto].
Qed.
End Sums.

(** ** Operators are linear *)
Section Linear.
Variables (S : list vec) (c a1 a2 w : R) (q : vec).
Ltac lin := induction S as [|X S' IH]; cbn [vsum fold_right] in *;
  [|unfold vsum in IH; cbn [fold_right]; rewrite <- IH; clear IH]; unfold op_a, op_b, op_c, op_g, op_h, op_m, rot; rewrite ?rsum3; ring.
Lemma op_a_vsum (Jf LJ : vec -> nat -> nat -> vec -> R) i j :
  op_a (fun i j q => vsum S (fun X => Jf X i j q)) (fun i j q => vsum S (fun X => LJ X i j q)) c a1 a2 q i j
  = vsum S (fun X => op_a (Jf X) (LJ X) c a1 a2 q i j).
Proof. lin. Qed.
Lemma op_b_vsum (D DLJ : vec -> nat -> nat -> nat -> vec -> R) i j :
  op_b (fun l i j q => vsum S (fun X => D X l i j q)) (fun l i j q => vsum S (fun X => DLJ X l i j q)) c a1 q i j
  = vsum S (fun X => op_b (D X) (DLJ X) c a1 q i j).
Proof. lin. Qed.
Lemma op_c_vsum (DD : vec -> nat -> nat -> nat -> nat -> vec -> R) i j :
  op_c (fun m l i j q => vsum S (fun X => DD X m l i j q)) c q i j = vsum S (fun X => op_c (DD X) c q i j).
Proof. lin. Qed.
Lemma op_g_vsum (D DLJ : vec -> nat -> nat -> nat -> vec -> R) i j k :
  op_g (fun l i j q => vsum S (fun X => D X l i j q)) (fun l i j q => vsum S (fun X => DLJ X l i j q)) c a1 a2 q i j k
  = vsum S (fun X => op_g (D X) (DLJ X) c a1 a2 q i j k).
Proof. lin. Qed.
Lemma op_h_vsum (DD DDLJ : vec -> nat -> nat -> nat -> nat -> vec -> R) i j k :
  op_h (fun m l i j q => vsum S (fun X => DD X m l i j q)) (fun m l i j q => vsum S (fun X => DDLJ X m l i j q)) c w q i j k
  = vsum S (fun X => op_h (DD X) (DDLJ X) c w q i j k).
Proof. lin. Qed.
Lemma op_m_vsum (DD DDLJ : vec -> nat -> nat -> nat -> nat -> vec -> R) i j k l :
  op_m (fun m l i j q => vsum S (fun X => DD X m l i j q)) (fun m l i j q => vsum S (fun X => DDLJ X m l i j q)) c a1 a2 q i j k l
  = vsum S (fun X => op_m (DD X) (DDLJ X) c a1 a2 q i j k l).
Proof. lin. Qed.

Ltac lin2 := unfold op_a, op_b, op_c, op_g, op_h, op_m, rot; rewrite ?rsum3; ring.
Variable t : R.
Lemma op_a_lin Jf LJ Jf' LJ' i j :
  op_a (fun i j q => Jf i j q + t * Jf' i j q) (fun i j q => LJ i j q + t * LJ' i j q) c a1 a2 q i j
  = op_a Jf LJ c a1 a2 q i j + t * op_a Jf' LJ' c a1 a2 q i j.
Proof. lin2. Qed.
Lemma op_b_lin D DLJ D' DLJ' i j :
  op_b (fun l i j q => D l i j q + t * D' l i j q) (fun l i j q => DLJ l i j q + t * DLJ' l i j q) c a1 q i j
  = op_b D DLJ c a1 q i j + t * op_b D' DLJ' c a1 q i j.
Proof. lin2. Qed.
Lemma op_c_lin DD DD' i j :
  op_c (fun m l i j q => DD m l i j q + t * DD' m l i j q) c q i j = op_c DD c q i j + t * op_c DD' c q i j.
Proof. lin2. Qed.
Lemma op_g_lin D DLJ D' DLJ' i j k :
  op_g (fun l i j q => D l i j q + t * D' l i j q) (fun l i j q => DLJ l i j q + t * DLJ' l i j q) c a1 a2 q i j k
  = op_g D DLJ c a1 a2 q i j k + t * op_g D' DLJ' c a1 a2 q i j k.
Proof. lin2. Qed.
Lemma op_h_lin DD DDLJ DD' DDLJ' i j k :
  op_h (fun m l i j q => DD m l i j q + t * DD' m l i j q) (fun m l i j q => DDLJ m l i j q + t * DDLJ' m l i j q) c w q i j k
  = op_h DD DDLJ c w q i j k + t * op_h DD' DDLJ' c w q i j k.
Proof. lin2. Qed.
Lemma op_m_lin DD DDLJ DD' DDLJ' i j k l :
  op_m (fun m l i j q => DD m l i j q + t * DD' m l i j q) (fun m l i j q => DDLJ m l i j q + t * DDLJ' m l i j q) c a1 a2 q i j k l
  = op_m DD DDLJ c a1 a2 q i j k l + t * op_m DD' DDLJ' c a1 a2 q i j k l.
Proof. lin2. Qed.
End Linear.

(** ** The lattice sums *)
Section PairSums.
Variable lat : lattice.
Let e : nat -> R -> R := fun n s => generate_erfcs s (lat_lamb lat) n.
Variables (r : vec) (a1 a2 c mu : R).
Let s := norm r.
Hypothesis Hs : tiny < s.
Hypothesis HX : forall X, In X (X_lmn lat) -> tiny < norm (vadd r X).
Let sl := fun X => norm (vadd r X).

Lemma off : off_lattice lat r.
Proof.
  intros X HXi. specialize (HX X HXi). unfold nonzero. rewrite <- len_norm in HX. rewrite <- len_sq.
  pose proof tiny_pos. apply Rmult_lt_0_compat; lra.
Qed.
Let HX' : forall X, In X (X_lmn lat) -> tiny < len (vadd r X).
Proof. intros X H. rewrite len_norm. apply HX. exact H. Qed.
Let HX1 : forall X, In X (X_lmn lat) -> tiny < abs1 (vadd r X).
Proof. intros X H. apply Rlt_le_trans with (1 := HX X H). apply norm_le_abs1. Qed.

Lemma M11P_green i j er : M11P lat i j r s a1 a2 er c mu sl = op_a (green lat) (gLJ lat) c a1 a2 r i j.
Proof.
  unfold green. unfold gLJ. rewrite (op_a_lin c a1 a2 r (1 / lat_L lat ^ 3)).
  unfold M11P. destruct (Rlt_dec tiny s); [cbv zeta|contradiction]. f_equal; [|f_equal].
  - unfold green_real, rLJ. cbv zeta. 
    rewrite (op_a_vsum (X_lmn lat) c a1 a2 r (fun X i j q => fJ e i j (vadd q X)) (fun X i j q => fLJ e i j (vadd q X))).
    apply vsum_ext. intros X HXi. unfold sl. rewrite <- len_norm.
    exact (ar_op e (vadd r X) a1 a2 i j c mu (HX' X HXi)).
  - unfold green_wave, kLJ.
    rewrite (op_a_vsum (K_lmn lat) c a1 a2 r (fun K i j q => wJ K (RR_of (lat_lamb lat) (norm K)) i j q)
               (fun K i j q => wLJ K (RR_of (lat_lamb lat) (norm K)) i j q)).
    apply vsum_ext. intros K _. rewrite Rmult_comm. exact (aktilde_op K _ r a1 a2 i j c).
Qed.
Lemma M12P_green i j : (j < 3)%nat -> M12P lat i j r s a1 a2 c mu sl = op_b (rD lat) (rDLJ lat) c a1 r i j.
Proof.
  intros Hj. unfold M12P. destruct (Rlt_dec tiny s); [|contradiction].
  unfold rD, rDLJ.
  rewrite (op_b_vsum (X_lmn lat) c a1 r (fun X l i j q => fDJ e l i j (vadd q X)) (fun X l i j q => fDLJ e l i j (vadd q X))).
  apply vsum_ext. intros X HXi. unfold sl. rewrite <- len_norm.
  exact (btr_op e (vadd r X) a1 a2 i j c mu Hj (HX' X HXi)).
Qed.
Lemma M13P_green i j k : M13P lat i j k r s a1 a2 c mu sl = op_g (rD lat) (rDLJ lat) c a1 a2 r i j k.
Proof.
  unfold M13P. destruct (Rlt_dec tiny s); [|contradiction].
  unfold rD, rDLJ.
  rewrite (op_g_vsum (X_lmn lat) c a1 a2 r (fun X l i j q => fDJ e l i j (vadd q X)) (fun X l i j q => fDLJ e l i j (vadd q X))).
  apply vsum_ext. intros X HXi. unfold sl. rewrite <- len_norm.
  exact (gtr_op e (vadd r X) a1 a2 i j k c mu (HX' X HXi)).
Qed.
Lemma M22P_green i j er : (i < 3)%nat -> (j < 3)%nat -> M22P lat i j r s a1 a2 er c mu sl = op_c (gDD lat) c r i j.
Proof.
  intros Hi Hj. unfold gDD. rewrite (op_c_lin c r (1 / lat_L lat ^ 3)).
  unfold M22P. destruct (Rlt_dec tiny s); [cbv zeta|contradiction]. rewrite (Rmult_comm _ (1 / lat_L lat ^ 3)). f_equal; [|f_equal].
  - unfold rDD. rewrite (op_c_vsum (X_lmn lat) c r (fun X m l i j q => fDDJ e m l i j (vadd q X))).
    apply vsum_ext. intros X HXi. unfold sl. rewrite <- len_norm.
    exact (cr_op e (vadd r X) a1 a2 i j c mu Hi Hj (HX1 X HXi)).
  - unfold kDD. rewrite (op_c_vsum (K_lmn lat) c r (fun K m l i j q => wDDJ K (RR_of (lat_lamb lat) (norm K)) m l i j q)).
    apply vsum_ext. intros K _. rewrite Rmult_comm. exact (cktilde_op K _ r a1 a2 i j c Hi Hj).
Qed.
Lemma M23P_green i j k : (i < 3)%nat -> M23P lat i j k r s a1 a2 c mu sl = op_h (gDD lat) (gDDLJ lat) c (a2 ^ 2 / 6) r i j k.
Proof.
  intros Hi. unfold gDD. unfold gDDLJ. rewrite (op_h_lin c (a2 ^ 2 / 6) r (1 / lat_L lat ^ 3)).
  unfold M23P. destruct (Rlt_dec tiny s); [cbv zeta|contradiction]. rewrite (Rmult_comm _ (1 / lat_L lat ^ 3)). f_equal; [|f_equal].
  - unfold rDD, rDDLJ. rewrite (op_h_vsum (X_lmn lat) c (a2 ^ 2 / 6) r (fun X m l i j q => fDDJ e m l i j (vadd q X)) (fun X m l i j q => fDDLJ e m l i j (vadd q X))).
    apply vsum_ext. intros X HXi. unfold sl. rewrite <- len_norm.
    exact (htr_op e (vadd r X) a1 a2 i j k c mu Hi (HX1 X HXi)).
  - unfold kDD, kDDLJ. rewrite (op_h_vsum (K_lmn lat) c (a2 ^ 2 / 6) r (fun K m l i j q => wDDJ K (RR_of (lat_lamb lat) (norm K)) m l i j q)
      (fun K m l i j q => wDDLJ K (RR_of (lat_lamb lat) (norm K)) m l i j q)).
    apply vsum_ext. intros K _. rewrite Rmult_comm. exact (htktilde_op K _ r a1 a2 i j k c Hi).
Qed.
Lemma M33P_green i j k l er : M33P lat i j k l r s a1 a2 er c mu sl = op_m (gDD lat) (gDDLJ lat) c a1 a2 r i j k l.
Proof.
  unfold gDD. unfold gDDLJ. rewrite (op_m_lin c a1 a2 r (1 / lat_L lat ^ 3)).
  unfold M33P. destruct (Rlt_dec tiny s); [cbv zeta|contradiction]. rewrite (Rmult_comm _ (1 / lat_L lat ^ 3)). f_equal; [|f_equal].
  - unfold rDD, rDDLJ. rewrite (op_m_vsum (X_lmn lat) c a1 a2 r (fun X m l i j q => fDDJ e m l i j (vadd q X)) (fun X m l i j q => fDDLJ e m l i j (vadd q X))).
    apply vsum_ext. intros X HXi. unfold sl. rewrite <- len_norm.
    exact (mr_op e (vadd r X) a1 a2 i j k l c mu (HX' X HXi)).
  - unfold kDD, kDDLJ. rewrite (op_m_vsum (K_lmn lat) c a1 a2 r (fun K m l i j q => wDDJ K (RR_of (lat_lamb lat) (norm K)) m l i j q)
      (fun K m l i j q => wDDLJ K (RR_of (lat_lamb lat) (norm K)) m l i j q)).
    apply vsum_ext. intros K _. rewrite Rmult_comm. exact (mktilde_op K _ r a1 a2 i j k l c).
Qed.
End PairSums.
