(** A sphere and a dumbbell in a cubic box; the radii entered for rotation of
    the sphere against a bead. *)
From Coq Require Import Reals Arith Bool List Lia Lra ZArith FunctionalExtensionality.
From Verif Require Import Base Model_Pack Model_Mob Model_Layout Model_Minf Model_Close Model_Ewald Model_MinfP
  Spec_Layout Spec_Minf Spec_MinfP Spec_Calc Proof_Layout Proof_Mob Proof_Mob2 Proof_Minf Proof_Periodic
  Proof_MinfP1 Proof_MinfP3 Proof_MinfP4 Proof_MinfP5 Proof_MinfP7.
Import ListNotations.
Local Open Scope R_scope.

Definition exP : posdata :=
  mkPos 1 1 (fun _ => 1) (fun _ => v3 0 0 0) (fun _ => 2) (fun _ => v3 20 0 5) (fun _ => v3 0 0 10).

Lemma comp_norm r i : (i < 3)%nat -> Rabs (r i) <= norm r.
Proof.
  intros Hi. unfold norm. rewrite <- sqrt_Rsqr_abs. apply sqrt_le_1_alt. unfold Rsqr.
  pose proof (Rle_0_sqr (r 0%nat)) as H0. pose proof (Rle_0_sqr (r 1%nat)) as H1. pose proof (Rle_0_sqr (r 2%nat)) as H2.
  unfold Rsqr in *. idx3 Hi; simpl; lra.
Qed.
Lemma exP_sep b b' : (b < 3)%nat -> (b' < 3)%nat -> b <> b' ->
  10 <= norm (vsub (bead_positions exP b) (bead_positions exP b')).
Proof.
  intros Hb Hb' Hne.
  assert (Rp : forall y, 10 <= y -> 10 <= Rabs y) by (intros; rewrite Rabs_pos_eq; lra).
  assert (Rn : forall y, y <= -10 -> 10 <= Rabs y) by (intros; rewrite Rabs_left1; lra).
  destruct b as [|[|[|b]]]; [| | |lia]; (destruct b' as [|[|[|b']]]; [| | |lia]); try (exfalso; apply Hne; reflexivity);
  first [ apply Rle_trans with (2 := comp_norm _ 0%nat ltac:(lia)); apply Rp; unfold bead_positions, vsub, vadd, vscal, v3; simpl; lra
        | apply Rle_trans with (2 := comp_norm _ 0%nat ltac:(lia)); apply Rn; unfold bead_positions, vsub, vadd, vscal, v3; simpl; lra
        | apply Rle_trans with (2 := comp_norm _ 2%nat ltac:(lia)); apply Rp; unfold bead_positions, vsub, vadd, vscal, v3; simpl; lra
        | apply Rle_trans with (2 := comp_norm _ 2%nat ltac:(lia)); apply Rn; unfold bead_positions, vsub, vadd, vscal, v3; simpl; lra ].
Qed.
Lemma exP_sizes b : 1 <= bead_sizes exP b <= 2.
Proof. unfold bead_sizes. destruct (Nat.ltb b _); [simpl; lra|]. destruct (Nat.ltb b _); simpl; lra. Qed.
Lemma exP_geometry b b' : (b < 3)%nat -> (b' < 3)%nat -> b <> b' ->
  let r := vsub (bead_positions exP b) (bead_positions exP b') in
  pair_geometry (bead_positions exP b) (bead_positions exP b') (bead_sizes exP b) (bead_sizes exP b') = (r, norm r).
Proof.
  intros Hb Hb' Hne r. pose proof (exP_sep b b' Hb Hb' Hne) as H. fold r in H.
  unfold pair_geometry. fold r. cbv zeta.
  destruct (Rlt_dec (/ 10 ^ 8) (norm r)); [|reflexivity].
  destruct (Rlt_dec (2 * norm r / (bead_sizes exP b + bead_sizes exP b')) (2001 / 1000)) as [Hc|]; [|reflexivity].
  exfalso. pose proof (exP_sizes b). pose proof (exP_sizes b').
  apply (Rmult_lt_compat_r (bead_sizes exP b + bead_sizes exP b')) in Hc; [|lra].
  replace (2 * norm r / (bead_sizes exP b + bead_sizes exP b') * (bead_sizes exP b + bead_sizes exP b'))
    with (2 * norm r) in Hc by (field; lra). lra.
Qed.
Lemma e10_1 : / 10 ^ 10 < 1.
Proof. rewrite <- Rinv_1. apply Rinv_lt_contravar; simpl; lra. Qed.

Lemma exP_apart h : apart (cubic_lattice h 100) 3 (bead_positions exP) (bead_sizes exP).
Proof.
  pose proof e10_1 as HT. split; [split|].
  - intros b _. pose proof (exP_sizes b). lra.
  - intros b b' Hb Hb' Hne. pose proof (exP_sep b b' Hb Hb' Hne). lra.
  - intros b b' X Hb Hb' Hne HX.
    assert (Hbb : b <> b') by (intros ->; apply Hne; reflexivity).
    rewrite (exP_geometry b b' Hb Hb' Hbb). cbn [fst].
    destruct (cubic_X_in h 100 X HX) as (l & m & n & E & _ & _).
    apply Rlt_le_trans with 1; [exact HT|]. apply Rle_trans with (2 := comp_norm _ 0%nat ltac:(lia)).
    unfold vadd at 1. rewrite E.
    assert (V : vsub (bead_positions exP b) (bead_positions exP b') 0%nat = 20 \/ vsub (bead_positions exP b) (bead_positions exP b') 0%nat = - 20).
    { destruct b as [|[|[|b]]]; [| | |lia]; (destruct b' as [|[|[|b']]]; [| | |lia]); try (exfalso; apply Hne; reflexivity);
      [right|right|left|left]; unfold bead_positions, vsub, vadd, vscal, v3; simpl; lra. }
    assert (D : (l <= -1 \/ l = 0 \/ 1 <= l)%Z) by lia.
    destruct V as [-> | ->]; (destruct D as [D|[->|D]]; [apply IZR_le in D| |apply IZR_le in D]);
    first [rewrite Rabs_pos_eq by lra; lra | rewrite Rabs_left1 by lra; lra].
Qed.

(** ** Which radius enters *)
Lemma Lap_Rr_12 y s lamb : 0 < s ->
  Lap_Rr y s 1 2 (generate_erfcs s lamb)
  = 1 / 2 * y 0%nat * (2 / sqrt PI * exp (- s ^ 2 * lamb ^ 2) * lamb) * lamb ^ 4 * (168 - 120 * (lamb * s) ^ 2 + 16 * (lamb * s) ^ 4).
Proof.
  intros Hs. pose proof (sqrt_lt_R0 PI PI_RGT_0). unfold Lap_Rr, DLap_Jr, DLapLap_rerfclr, DDDLap_rerfclr, delta.
  cbn [Nat.add Nat.modulo Nat.divmod fst snd Nat.sub Nat.eqb].
  unfold generate_erfcs. field. split; lra.
Qed.
Lemma M12P_radius lat i j r s a1 a2 b2 c mu sl :
  tiny < s -> (forall X, In X (X_lmn lat) -> tiny < sl X) ->
  M12P lat i j r s a1 b2 c mu sl - M12P lat i j r s a2 b2 c mu sl =
  c * (a1 ^ 2 - a2 ^ 2) / 6 * vsum (X_lmn lat) (fun X => Lap_Rr (vadd r X) (sl X) i j (generate_erfcs (sl X) (lat_lamb lat))).
Proof.
  intros Hs HX. unfold M12P. destruct (Rlt_dec tiny s); [|contradiction].
  revert HX. generalize (X_lmn lat). intros L. induction L as [|X L IH]; intros HX; [unfold vsum; simpl; ring|].
  unfold vsum in *. cbn [fold_right]. specialize (IH (fun Y HY => HX Y (or_intror HY))).
  unfold btr at 1 3. destruct (Rlt_dec tiny (sl X)) as [_|N]; [|exfalso; apply N; apply HX; left; reflexivity].
  lra.
Qed.

Lemma X0 L : 0 < L -> exists X, X_lmn (cubic_lattice 0 L) = [X] /\ forall j, (j < 3)%nat -> X j = 0.
Proof.
  intros HL.
  set (B := shear_basis_vectors (diag3 (vsub (v3 L L L) (v3 0 0 0))) (vsub (v3 L L L) (v3 0 0 0)) (v3 0 0 0) mzero).
  exists (rowmul (v3 (INR 0 - INR 0) (INR 0 - INR 0) (INR 0 - INR 0)) B).
  assert (Z : forall j, (j < 3)%nat -> rowmul (v3 (INR 0 - INR 0) (INR 0 - INR 0) (INR 0 - INR 0)) B j = 0).
  { intros j Hj. unfold rowmul. cbn [rsum]. unfold v3. simpl INR. ring. }
  split; [|exact Z].
  unfold cubic_lattice, build_lattice. cbv zeta. cbn [X_lmn]. fold B.
  unfold X_canonical, gridpoints. cbn [seq Nat.mul Nat.add map flat_map app].
  cbn [filter]. unfold Rleb. destruct (Rle_dec _ _) as [_|N]; [reflexivity|].
  exfalso. apply N. unfold norm. rewrite !Z by lia. replace (0 ^ 2 + 0 ^ 2 + 0 ^ 2) with 0 by ring.
  rewrite sqrt_0. unfold grid_radius. simpl INR. lra.
Qed.

Lemma exP_radius mu st bb : 0 < mu ->
  let lat := cubic_lattice 0 100 in
  let g := pair_geometry (bead_positions exP 0) (bead_positions exP 1) (bead_sizes exP 0) (bead_sizes exP 1) in
  generate_Minfinity_periodic_loop lat bb (bead_positions exP) (bead_sizes exP) 1 1 (1 / (8 * PI * mu)) mu st
    (kstart 1 KO 0 + 2)%nat (kstart 1 KB 1 + 1)%nat
  <> periodic_pair lat KO KB (fst g) (snd g) (bead_sizes exP 0) (bead_sizes exP 1) (1 / (8 * PI * mu)) mu 2 1.
Proof.
  intros Hmu lat g.
  fold (ent 1 (generate_Minfinity_periodic_loop lat bb (bead_positions exP) (bead_sizes exP) 1 1 (1 / (8 * PI * mu)) mu st)
          KO 0 KB 1 2 1).
  rewrite (loopP_entry lat (X_reflected 0 _ _ _ _) bb (bead_positions exP) (bead_sizes exP) 1 1 (1 / (8 * PI * mu)) mu st KO 0 KB 1 2 1)
    by (try exact (exP_apart 0); unfold kvalid, ksize; lia).
  unfold periodic_bead_mobility. cbn [mixed]. fold g. cbn [periodic_pair].
  assert (Eg : g = (vsub (bead_positions exP 0) (bead_positions exP 1), norm (vsub (bead_positions exP 0) (bead_positions exP 1))))
    by (apply exP_geometry; lia).
  rewrite Eg. cbn [fst snd]. set (r := vsub (bead_positions exP 0) (bead_positions exP 1)).
  assert (Hr : forall j, (j < 3)%nat -> r j = v3 (-20) 0 0 j).
  { intros j Hj. idx3 Hj; unfold r, bead_positions, vsub, vadd, vscal, v3; simpl; lra. }
  assert (Hn : norm r = 20).
  { rewrite (norm_cong _ _ Hr). unfold norm, v3. replace ((-20) ^ 2 + 0 ^ 2 + 0 ^ 2) with (20 * 20) by ring. apply sqrt_square. lra. }
  destruct (X0 100 ltac:(lra)) as [X [EX HX0]]. fold lat in EX.
  assert (HT : tiny < 20) by (unfold tiny; apply Rlt_trans with 1; [rewrite <- Rinv_1; apply Rinv_lt_contravar; simpl; lra|lra]).
  assert (Hd : forall Y, In Y (X_lmn lat) -> norm (vadd (vopp r) Y) = 20).
  { intros Y HY. rewrite EX in HY. destruct HY as [<-|[]]. rewrite <- Hn.
    rewrite <- (norm_vopp r). apply norm_cong. intros j Hj. unfold vadd. rewrite HX0 by exact Hj. ring. }
  assert (Hbig : forall Y, In Y (X_lmn lat) -> tiny < norm (vadd (vopp r) Y)) by (intros Y HY; rewrite Hd by exact HY; exact HT).
  intros Hc.
  (* both sides differ only in the second radius too *)
  assert (B2 : forall a1 b b', M12P lat 1 2 (vopp r) (norm r) a1 b (1 / (8 * PI * mu)) mu (fun X => norm (vadd (vopp r) X))
     = M12P lat 1 2 (vopp r) (norm r) a1 b' (1 / (8 * PI * mu)) mu (fun X => norm (vadd (vopp r) X))) by reflexivity.
  rewrite (B2 (bead_sizes exP 1) (bead_sizes exP 0) (bead_sizes exP 1)) in Hc. apply Rminus_diag_eq in Hc.
  rewrite M12P_radius in Hc by (try exact Hbig; rewrite Hn; exact HT).
  rewrite EX in Hc. unfold vsum in Hc. cbn [fold_right] in Hc. rewrite (Hd X) in Hc by (rewrite EX; left; reflexivity).
  rewrite Lap_Rr_12 in Hc by lra.
  assert (Y0 : vadd (vopp r) X 0%nat = 20) by (unfold vadd, vopp; rewrite HX0, Hr by lia; unfold v3; lra).
  rewrite Y0 in Hc.
  replace (bead_sizes exP 0) with 1 in Hc by reflexivity. replace (bead_sizes exP 1) with 2 in Hc by reflexivity.
  pose proof (cubic_lamb 0 100 ltac:(lra)) as Hlam. fold lat in Hlam.
  assert (Elam : lat_lamb lat * 20 = spi / 5).
  { change (lat_lamb lat) with (spi / lat_L lat). unfold lat. rewrite (cubic_L 0 100) by lra. field. }
  pose proof PI_RGT_0 as HP. pose proof (sqrt_lt_R0 PI HP) as Hs.
  assert (P2 : (lat_lamb lat * 20) ^ 2 = PI / 25).
  { rewrite Elam. unfold spi. replace ((sqrt PI / 5) ^ 2) with (sqrt PI * sqrt PI / 25) by field. rewrite sqrt_sqrt by lra. reflexivity. }
  rewrite P2 in Hc. replace ((lat_lamb lat * 20) ^ 4) with ((PI / 25) * (PI / 25)) in Hc by (rewrite <- P2; ring).
  pose proof PI_4 as H4.
  assert (Q : 0 < 168 - 120 * (PI / 25) + 16 * (PI / 25 * (PI / 25))) by nra.
  pose proof (exp_pos (- 20 ^ 2 * lat_lamb lat ^ 2)) as He.
  assert (C : 0 < 1 / (8 * PI * mu)) by (apply Rdiv_lt_0_compat; [lra|apply Rmult_lt_0_compat; lra]).
  assert (E2 : 0 < 2 / sqrt PI * exp (- 20 ^ 2 * lat_lamb lat ^ 2) * lat_lamb lat)
    by (apply Rmult_lt_0_compat; [apply Rmult_lt_0_compat; [apply Rdiv_lt_0_compat; lra|exact He]|exact Hlam]).
  pose proof (pow_lt _ 4 Hlam) as L4.
  assert (F : 0 < 1 / (8 * PI * mu) * (2 / sqrt PI * exp (- 20 ^ 2 * lat_lamb lat ^ 2) * lat_lamb lat) * lat_lamb lat ^ 4
                * (168 - 120 * (PI / 25) + 16 * (PI / 25 * (PI / 25))) * 30) by (apply prod5_pos; lra).
  lra.
Qed.
