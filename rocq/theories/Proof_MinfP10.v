(** Self terms: values of the limits. *)
From Coq Require Import Reals Arith Bool List Lia Lra ZArith Permutation FunctionalExtensionality.
From Verif Require Import Base Model_Pack Model_Mob Model_Layout Model_Minf Model_Close Model_Ewald Model_MinfP
  Spec_Layout Spec_Minf Spec_MinfP Spec_Calc Spec_Ewald Spec_Shear Proof_Calc Proof_Mob Proof_Mob2
  Proof_Ewald1 Proof_Ewald2 Proof_Ewald3 Proof_Ewald4 Proof_Ewald5 Proof_Ewald6 Proof_Ewald7
  Proof_Close Proof_MinfP1 Proof_MinfP3 Proof_MinfP4 Proof_MinfP5 Proof_MinfP6 Proof_MinfP9.
Import ListNotations.
Local Open Scope R_scope.

(** ** The lattice is the origin and the rest *)
Section Origin.
Variables (h : nat) (bl tr Ot : vec) (Et : mat).
Let lat := build_lattice h bl tr Ot Et.
Let B := shear_basis_vectors (diag3 (vsub tr bl)) (vsub tr bl) Ot Et.
Hypothesis HV : volume B <> 0.
Lemma lattice_L_pos : 0 < lat_L lat.
Proof. unfold lat, build_lattice. cbv zeta. cbn [lat_L]. apply exp_pos. Qed.
Lemma lattice_lamb_pos : 0 < lat_lamb lat.
Proof.
  change (lat_lamb lat) with (spi / lat_L lat). apply Rdiv_lt_0_compat; [|exact lattice_L_pos].
  unfold spi. apply sqrt_lt_R0. apply PI_RGT_0.
Qed.
Lemma comb_null b : combination b 0 0 0 = vnull.
Proof. apply functional_extensionality. intros j. unfold combination, vnull. ring. Qed.
Lemma norm_null : norm vnull = 0.
Proof. unfold norm, vnull. replace (0 ^ 2 + 0 ^ 2 + 0 ^ 2) with 0 by ring. apply sqrt_0. Qed.
Lemma norm_0_comp x j : norm x = 0 -> (j < 3)%nat -> x j = 0.
Proof.
  unfold norm. intros H Hj.
  pose proof (pow2_ge_0 (x 0%nat)). pose proof (pow2_ge_0 (x 1%nat)). pose proof (pow2_ge_0 (x 2%nat)).
  apply sqrt_eq_0 in H; [|lra]. idx3 Hj; nra.
Qed.
Lemma lattice_origin : Permutation (X_lmn lat) (vnull :: Xdash_lmn lat).
Proof.
  apply NoDup_Permutation.
  - apply lattice_X_nodup. exact HV.
  - constructor.
    + intros H. apply (lattice_Xdash h bl tr Ot Et) in H. rewrite norm_null in H. lra.
    + unfold lat, build_lattice. cbv zeta. cbn [Xdash_lmn]. apply NoDup_filter. apply lattice_X_nodup. exact HV.
  - intros X. split.
    + intros H. destruct (Rlt_dec 0 (norm X)) as [Hn|Hn].
      * right. apply (lattice_Xdash h bl tr Ot Et). split; assumption.
      * left. assert (N : norm X = 0) by (assert (0 <= norm X) by apply sqrt_pos; lra).
        destruct (proj1 (lattice_X h bl tr Ot Et X) H) as (l & m & n & _ & _ & _ & E & _). fold B in E.
        destruct (combination_inj B l m n 0 0 0 HV) as (-> & -> & ->).
        { intros j Hj. rewrite <- E, comb_null. apply norm_0_comp; assumption. }
        rewrite E, comb_null. reflexivity.
    + intros [<-|H].
      * apply (lattice_X h bl tr Ot Et). exists 0%Z, 0%Z, 0%Z. rewrite comb_null, norm_null.
        repeat split; try lia. pose proof (pos_INR h). pose proof lattice_L_pos. fold lat.
        apply Rmult_le_pos; [apply Rmult_le_pos; lra|lra].
      * apply (lattice_Xdash h bl tr Ot Et) in H. exact (proj1 H).
Qed.
End Origin.

Section Values.
Variable lat : lattice.
Hypothesis HXd : forall X, In X (Xdash_lmn lat) -> tiny < norm X.
Hypothesis HXr : reflected (Xdash_lmn lat).
Let lam := lat_lamb lat.
Let e : nat -> R -> R := fun n s => generate_erfcs s lam n.
Let L3 := 1 / lat_L lat ^ 3.
Let RR := fun K => RR_of lam (norm K).
Notation XD := (Xdash_lmn lat).
Notation KS := (K_lmn lat).
Variables (r : vec) (s a c mu : R) (er : nat -> R) (sl : vec -> R).
Hypothesis Hs : s <= tiny.
Hypothesis Hr : abs1 r <= tiny.
Let HX' X : In X XD -> tiny < len X.
Proof. intros H. rewrite len_norm. apply HXd. exact H. Qed.
Let HX1 X : In X XD -> tiny < abs1 X.
Proof. intros H. apply Rlt_le_trans with (1 := HXd X H). apply norm_le_abs1. Qed.
Lemma spi_nz : spi <> 0.
Proof. unfold spi. pose proof (sqrt_lt_R0 PI PI_RGT_0). lra. Qed.

Lemma wcos_null K : wcos K vnull = 1.
Proof. unfold wcos. replace (dot3 K vnull) with 0 by (unfold dot3, vnull; ring). apply cos_0. Qed.
Lemma wsin_null K : wsin K vnull = 0.
Proof. unfold wsin. replace (dot3 K vnull) with 0 by (unfold dot3, vnull; ring). apply sin_0. Qed.

(** a sum of tables under an operator *)
Lemma vsumX (F : vec -> R) G : (forall X, In X XD -> F X = G X) -> vsum XD F = vsum XD G.
Proof. apply vsum_ext. Qed.

Ltac isolated := match goal with |- context [?n / (?x * PI * mu * ?y)] => generalize (n / (x * PI * mu * y)); intros iso end.
Ltac vol := change (1 / lat_L lat ^ 3) with L3; generalize L3; intros v3L.
Lemma self_a i j : op_a (sJ lat) (sLJ lat) c a a vnull i j
  = M11P lat i j r s a a er c mu sl - delta i j / (6 * PI * mu * a).
Proof.
  pose proof spi_nz.
  unfold M11P. destruct (Rlt_dec tiny s); [lra|]. cbv zeta.
  unfold ar at 1. destruct (Rlt_dec tiny s); [lra|].
  rewrite (vsum_ext XD _ (fun X => op_a (fJ e) (fLJ e) c a a X i j))
    by (intros X HX; rewrite <- len_norm; exact (ar_op e X a a i j c mu (HX' X HX))).
  rewrite (vsum_ext KS _ (fun K => op_a (wJ K (RR K)) (wLJ K (RR K)) c a a vnull i j))
    by (intros K _; rewrite <- aktilde_op, wcos_null, Rmult_1_r; reflexivity).
  unfold op_a. rewrite !vsum_scal, !vsum_plus, !vsum_scal.
  unfold sJ, sLJ, c0. fold lam e L3 spi. unfold RR. isolated. vol. field. exact H.
Qed.
Lemma self_c i j : (i < 3)%nat -> (j < 3)%nat -> op_c (sDD lat) c vnull i j
  = M22P lat i j r s a a er c mu sl - delta i j / (8 * PI * mu * a ^ 3) - c * (40 * lam ^ 3 / (3 * spi)) * delta i j.
Proof.
  intros Hi Hj. pose proof spi_nz.
  unfold M22P. destruct (Rlt_dec tiny s); [lra|]. cbv zeta.
  unfold cr at 1. destruct (Rle_dec (abs1 r) tiny); [|lra].
  rewrite (vsum_ext XD _ (fun X => op_c (fDDJ e) c X i j))
    by (intros X HX; rewrite <- len_norm; exact (cr_op e X a a i j c mu Hi Hj (HX1 X HX))).
  rewrite (vsum_ext KS _ (fun K => op_c (wDDJ K (RR K)) c vnull i j))
    by (intros K _; rewrite <- (cktilde_op K (RR K) vnull a a i j c Hi Hj), wcos_null, Rmult_1_r; reflexivity).
  rewrite <- (op_c_vsum KS c vnull (fun K => wDDJ K (RR K))).
  isolated.
  assert (EX : vsum XD (fun X => op_c (fDDJ e) c X i j) = op_c (fun m l i j _ => vsum XD (fDDJ e m l i j)) c vnull i j).
  { symmetry. exact (op_c_vsum XD c vnull (fun X m l i j _ => fDDJ e m l i j X) i j). }
  rewrite EX. unfold op_c, rot. rewrite !rsum3. unfold sDD. fold lam e L3 spi. unfold RR. unfold c0. fold spi. vol.
  unfold kron3. idx3 Hi; idx3 Hj; unfold eps, delta; simpl INR; cbn [Nat.eqb]; field; exact H.
Qed.
Lemma self_h i j k : (i < 3)%nat -> (j < 3)%nat -> (k < 3)%nat ->
  op_h (sDD lat) (sDDLJ lat) c (a ^ 2 / 6) vnull i j k = M23P lat i j k r s a a c mu sl.
Proof.
  intros Hi Hj Hk. pose proof spi_nz.
  unfold M23P. destruct (Rlt_dec tiny s); [lra|]. cbv zeta.
  rewrite (vsum_ext XD _ (fun X => op_h (fDDJ e) (fDDLJ e) c (a ^ 2 / 6) X i j k))
    by (intros X HX; rewrite <- len_norm; exact (htr_op e X a a i j k c mu Hi (HX1 X HX))).
  rewrite (vsum_ext KS _ (fun K => op_h (wDDJ K (RR K)) (wDDLJ K (RR K)) c (a ^ 2 / 6) vnull i j k))
    by (intros K _; rewrite <- (htktilde_op K (RR K) vnull a a i j k c Hi), wcos_null, Rmult_1_r; reflexivity).
  rewrite <- (op_h_vsum KS c (a ^ 2 / 6) vnull (fun K => wDDJ K (RR K)) (fun K => wDDLJ K (RR K))).
  assert (EX : vsum XD (fun X => op_h (fDDJ e) (fDDLJ e) c (a ^ 2 / 6) X i j k)
     = op_h (fun m l i j _ => vsum XD (fDDJ e m l i j)) (fun m l i j _ => vsum XD (fDDLJ e m l i j)) c (a ^ 2 / 6) vnull i j k).
  { symmetry. exact (op_h_vsum XD c (a ^ 2 / 6) vnull (fun X m l i j _ => fDDJ e m l i j X) (fun X m l i j _ => fDDLJ e m l i j X) i j k). }
  rewrite EX. unfold op_h, rot. rewrite !rsum3. unfold sDD, sDDLJ. fold lam e L3 spi. unfold RR. unfold c0. fold spi. vol.
  unfold kron3. idx3 Hi; idx3 Hj; idx3 Hk; unfold eps, delta; simpl INR; cbn [Nat.eqb]; field; exact H.
Qed.
Lemma self_m i j k l : op_m (sDD lat) (sDDLJ lat) c a a vnull i j k l
  = M33P lat i j k l r s a a er c mu sl - 1 / 2 * kron3traceless i j k l / (20 / 3 * PI * mu * a ^ 3).
Proof.
  pose proof spi_nz.
  unfold M33P. destruct (Rlt_dec tiny s); [lra|]. cbv zeta.
  unfold mr at 1. destruct (Rlt_dec tiny s); [lra|].
  isolated.
  rewrite (vsum_ext XD _ (fun X => op_m (fDDJ e) (fDDLJ e) c a a X i j k l))
    by (intros X HX; rewrite <- len_norm; exact (mr_op e X a a i j k l c mu (HX' X HX))).
  rewrite (vsum_ext KS _ (fun K => op_m (wDDJ K (RR K)) (wDDLJ K (RR K)) c a a vnull i j k l))
    by (intros K _; rewrite <- mktilde_op, wcos_null, Rmult_1_r; reflexivity).
  rewrite <- (op_m_vsum KS c a a vnull (fun K => wDDJ K (RR K)) (fun K => wDDLJ K (RR K))).
  assert (EX : vsum XD (fun X => op_m (fDDJ e) (fDDLJ e) c a a X i j k l)
     = op_m (fun m l i j _ => vsum XD (fDDJ e m l i j)) (fun m l i j _ => vsum XD (fDDLJ e m l i j)) c a a vnull i j k l).
  { symmetry. exact (op_m_vsum XD c a a vnull (fun X m l i j _ => fDDJ e m l i j X) (fun X m l i j _ => fDDLJ e m l i j X) i j k l). }
  rewrite EX. unfold op_m. unfold sDD, sDDLJ. fold lam e L3 spi. unfold RR. unfold c0. fold spi. vol.
  unfold kron3, kron3traceless.
  rewrite (delta_sym l j), (delta_sym k j), (delta_sym l i), (delta_sym k i), (delta_sym j i), (delta_sym l k). field. exact H.
Qed.

Lemma fDJ_odd l i j X : fDJ e l i j (vopp X) = - fDJ e l i j X.
Proof.
  unfold fDJ, D_Jr, DLap_rerfclr, DDD_rerfclr, eat. rewrite (len_norm (vopp X)), norm_vopp, <- len_norm.
  cbv zeta. unfold vopp, Rdiv. ring.
Qed.
Lemma fDLJ_odd l i j X : fDLJ e l i j (vopp X) = - fDLJ e l i j X.
Proof.
  unfold fDLJ, DLap_Jr, DLapLap_rerfclr, DDDLap_rerfclr, eat. rewrite (len_norm (vopp X)), norm_vopp, <- len_norm.
  cbv zeta. unfold vopp, Rdiv. ring.
Qed.
Lemma vsum_odd L f : reflected L -> (forall X, f (vopp X) = - f X) -> vsum L f = 0.
Proof.
  intros HL Hf. pose proof (vsum_reflect L f HL) as H.
  rewrite (vsum_ext L _ (fun X => - f X)) in H by (intros; apply Hf). rewrite vsum_opp in H. lra.
Qed.
Lemma sD_zero l i j q : sD lat l i j q = 0.
Proof.
  unfold sD. rewrite vsum_odd by (try exact HXr; intros; apply fDJ_odd).
  rewrite vsum_zero by (intros K _; unfold wDJ; rewrite wsin_null; ring). ring.
Qed.
Lemma sDLJ_zero l i j q : sDLJ lat l i j q = 0.
Proof.
  unfold sDLJ. rewrite vsum_odd by (try exact HXr; intros; apply fDLJ_odd).
  rewrite vsum_zero by (intros K _; unfold wDLJ; rewrite wsin_null; ring). ring.
Qed.
Lemma self_b i j : op_b (sD lat) (sDLJ lat) c a vnull i j = M12P lat i j r s a a c mu sl.
Proof.
  unfold M12P. destruct (Rlt_dec tiny s); [lra|]. unfold op_b, rot. rewrite !rsum3, !sD_zero, !sDLJ_zero. ring.
Qed.
Lemma self_g i j k : op_g (sD lat) (sDLJ lat) c a a vnull i j k = M13P lat i j k r s a a c mu sl.
Proof.
  unfold M13P. destruct (Rlt_dec tiny s); [lra|]. unfold op_g. rewrite !sD_zero, !sDLJ_zero. ring.
Qed.
End Values.

(** ** Reciprocity of the two lattices *)
Section Reciprocal.
Variables (h : nat) (bl tr Ot : vec) (Et : mat).
Let lat := build_lattice h bl tr Ot Et.
Let box := vsub tr bl.
Let B := shear_basis_vectors (diag3 box) box Ot Et.
Hypothesis HV : volume B = box 0%nat * box 1%nat * box 2%nat.
Hypothesis HP : 0 < volume B.
Lemma lattice_L3 : lat_L lat ^ 3 = volume B.
Proof.
  unfold lat, build_lattice. cbv zeta. cbn [lat_L]. rewrite HV in HP |- *. unfold box, vsub in *.
  rewrite <- Rpower_pow by apply exp_pos. rewrite Rpower_mult.
  replace (1 / 3 * INR 3) with 1 by (simpl; lra). apply Rpower_1. exact HP.
Qed.
Lemma wave_in_phase K l m n : In K (K_lmn lat) -> exists z : Z, dot3 K (combination B l m n) = 2 * PI * IZR z.
Proof.
  intros H. destruct (proj1 (lattice_K h bl tr Ot Et K) H) as (l' & m' & n' & _ & _ & _ & _ & ->).
  fold box B lat. rewrite reciprocal_combination by (try exact lattice_L3; lra). eexists. reflexivity.
Qed.
Lemma green_wave_periodic i j q l m n :
  green_wave lat i j (vadd q (combination B l m n)) = green_wave lat i j q.
Proof.
  unfold green_wave. apply vsum_ext. intros K HK. f_equal.
  destruct (wave_in_phase K l m n HK) as [z Hz].
  replace (dot3 K (vadd q (combination B l m n))) with (dot3 K q + dot3 K (combination B l m n))
    by (unfold dot3, vadd; ring).
  rewrite Hz. apply cos_Z_period.
Qed.
End Reciprocal.
