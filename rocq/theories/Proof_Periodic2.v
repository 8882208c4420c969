(** Sheared boxes: which images are found. *)
From Coq Require Import Reals Arith ZArith Bool List Lia Lra FunctionalExtensionality.
From Verif Require Import Base Model_Mob Model_Close Spec_R2B Spec_Close Proof_Layout Proof_Mob Proof_Minf2 Proof_Close Proof_Periodic.
Import ListNotations.
Local Open Scope R_scope.

Lemma rmod_range x L : 0 < L -> 0 <= rmod x L < L.
Proof.
  intros HL. unfold rmod. pose proof (base_Int_part (x / L)) as [H1 H2].
  assert (E : x = L * (x / L)) by (field; lra). rewrite E at 1 3. nra.
Qed.

Lemma simple_basis box g k l : (k < 3)%nat -> (l < 3)%nat ->
  shear_basis_vectors (diag3 box) box (shear_O g) (shear_E g) k l =
  diag3 box k l + (if (Nat.eqb k 1 && Nat.eqb l 0)%bool then rmod (g * box 1%nat) (box 0%nat) else 0).
Proof.
  intros Hk Hl. unfold shear_basis_vectors. f_equal.
  destruct k as [|[|[|]]]; [| | |lia]; (destruct l as [|[|[|]]]; [| | |lia]);
    unfold cross, v3, shear_O, shear_E, diag3, v3; cbn [rsum Nat.eqb andb];
    match goal with
    | |- rmod ?e _ = rmod ?e' _ => replace e with e' by field; reflexivity
    | |- rmod ?e _ = 0 => replace e with 0 by field; apply rmod_0
    end.
Qed.

Section Simple.
Variables (inv : mat -> mat) (box : vec) (g : R).
Hypothesis Hbox : forall k, (k < 3)%nat -> 0 < box k.
Let B := shear_basis_vectors (diag3 box) box (shear_O g) (shear_E g).
Hypothesis HB : is_inv 3 B (inv B).
Hypothesis HD : is_inv 3 (diag3 box) (inv (diag3 box)).

Lemma simple_image x i j (m : nat -> Z) :
  (forall k, (k < 3)%nat -> Rabs (x j k - x i k + lattice_shift B m k) < box k / 4) ->
  forall l, (l < 3)%nat ->
    periodic_disp inv x box (shear_O g) (shear_E g) i j l = x j l - x i l + lattice_shift B m l.
Proof.
  intros H. set (v := fun k => x j k - x i k + lattice_shift B m k) in *.
  set (s := rmod (g * box 1%nat) (box 0%nat)).
  pose proof (rmod_range (g * box 1%nat) (box 0%nat) (Hbox 0 ltac:(lia))) as Hs. fold s in Hs.
  pose proof (Hbox 0 ltac:(lia)) as P0. pose proof (Hbox 1 ltac:(lia)) as P1. pose proof (Hbox 2 ltac:(lia)) as P2.
  set (f := v3 ((v 0%nat - s * (v 1%nat / box 1%nat)) / box 0%nat) (v 1%nat / box 1%nat) (v 2%nat / box 2%nat)).
  assert (E : forall l, (l < 3)%nat -> rsum 3 (fun k => f k * B k l) = v l).
  { intros l Hl. unfold B. cbn [rsum]. rewrite !simple_basis by lia. fold s.
    destruct l as [|[|[|]]]; [| | |lia]; unfold f, v3, diag3; cbn [Nat.eqb andb]; field; lra. }
  assert (Q : forall u L, 0 < L -> Rabs u < L / 4 -> - (1 / 4) < u / L < 1 / 4).
  { intros u L HL Hu. apply Rabs_def2 in Hu. split; apply (Rmult_lt_reg_r L); try lra; unfold Rdiv at 2; rewrite ?Rmult_assoc, ?Rinv_l by lra; try lra.
    unfold Rdiv at 1. rewrite Rmult_assoc, Rinv_l by lra. lra. }
  pose proof (Q _ _ P0 (H 0%nat ltac:(lia))) as Q0. pose proof (Q _ _ P1 (H 1%nat ltac:(lia))) as Q1.
  pose proof (Q _ _ P2 (H 2%nat ltac:(lia))) as Q2.
  change (x j 0%nat - x i 0%nat + lattice_shift B m 0%nat) with (v 0%nat) in Q0.
  change (x j 1%nat - x i 1%nat + lattice_shift B m 1%nat) with (v 1%nat) in Q1.
  change (x j 2%nat - x i 2%nat + lattice_shift B m 2%nat) with (v 2%nat) in Q2.
  intros l Hl. rewrite (disp_unique inv box (shear_O g) (shear_E g) HB HD x i j m f).
  - apply E. exact Hl.
  - intros k Hk. destruct k as [|[|[|]]]; [| | |lia]; unfold f, v3; [|lra|lra].
    replace ((v 0%nat - s * (v 1%nat / box 1%nat)) / box 0%nat) with (v 0%nat / box 0%nat - s / box 0%nat * (v 1%nat / box 1%nat)) by (field; lra).
    assert (0 <= s / box 0%nat < 1).
    { split; [apply Rmult_le_pos; [lra|apply Rlt_le, Rinv_0_lt_compat; lra]|].
      apply (Rmult_lt_reg_r (box 0%nat)); [lra|]. unfold Rdiv. rewrite Rmult_assoc, Rinv_l by lra. lra. }
    nra.
  - intros k Hk. symmetry. apply E. exact Hk.
Qed.

Lemma norm_ext v w : (forall l, (l < 3)%nat -> v l = w l) -> norm v = norm w.
Proof. intros H. unfold norm. rewrite !H by lia. reflexivity. Qed.
Lemma abs_norm v k : (k < 3)%nat -> Rabs (v k) <= norm v.
Proof.
  intros Hk. unfold norm. rewrite <- sqrt_Rsqr_abs. apply sqrt_le_1_alt. unfold Rsqr.
  pose proof (Rle_0_sqr (v 0%nat)). pose proof (Rle_0_sqr (v 1%nat)). pose proof (Rle_0_sqr (v 2%nat)). unfold Rsqr in *.
  destruct k as [|[|[|]]]; [nra|nra|nra|lia].
Qed.

Lemma simple_found x a n cf i j : (i <= j < n)%nat -> 0 < a i + a j <= 2 -> 0 <= cf ->
  (forall k, (k < 3)%nat -> 2 * cf < box k / 4) ->
  ((exists t, In t (close_particles_periodic inv x a n cf box (shear_O g) (shear_E g)) /\ cp1 t = i /\ cp2 t = j) <->
   (exists m, 2 * norm (vadd (vsub (x j) (x i)) (lattice_shift B m)) / (a i + a j) <= 2 * cf)).
Proof.
  intros Hij Ha Hcf Hbig. rewrite periodic_small by assumption.
  assert (Up : forall s, 2 * s / (a i + a j) <= 2 * cf -> s <= 2 * cf \/ s < 0).
  { intros s Hs. assert (2 * s <= 2 * cf * (a i + a j)).
    { apply (Rmult_le_reg_r (/ (a i + a j))); [apply Rinv_0_lt_compat; lra|]. rewrite (Rmult_assoc (2 * cf)), Rinv_r by lra.
      unfold Rdiv in Hs. lra. }
    left. nra. }
  split.
  - intros H. destruct (disp_image inv box (shear_O g) (shear_E g) HB HD x i j) as (m & Hm). exists m.
    rewrite <- (norm_ext (periodic_disp inv x box (shear_O g) (shear_E g) i j)); [exact H|]. exact Hm.
  - intros (m & H).
    set (v := vadd (vsub (x j) (x i)) (lattice_shift B m)) in *.
    rewrite (norm_ext _ v); [exact H|]. intros l Hl. apply (simple_image x i j m); [|exact Hl].
    intros k Hk. change (Rabs (v k) < box k / 4). pose proof (abs_norm v k Hk). specialize (Hbig k Hk).
    destruct (Up _ H) as [U|U]; [lra|]. pose proof (Rabs_pos (v k)). lra.
Qed.
End Simple.

(** ** Two failures *)
(** Radius-2 particles 5 apart in a box of side 100. *)
Definition big_x (b : nat) : vec := match b with 0%nat => v3 0 0 0 | _ => v3 5 0 0 end.
Definition inv100 (_ : mat) : mat := diag3 (fun _ => / 100).
Definition zvec : vec := fun _ => 0.
Definition zmat : mat := fun _ _ => 0.
Definition box100 : vec := fun _ => 100.

Lemma inv100_ok : is_inv 3 (diag3 box100) (inv100 (diag3 box100)) /\
  is_inv 3 (shear_basis_vectors (diag3 box100) box100 zvec zmat) (inv100 (shear_basis_vectors (diag3 box100) box100 zvec zmat)).
Proof.
  assert (E : is_inv 3 (diag3 box100) (diag3 (fun _ => / 100))).
  { intros i j Hi Hj. unfold mmul, diag3, box100, delta.
    destruct i as [|[|[|]]]; [| | |lia]; (destruct j as [|[|[|]]]; [| | |lia]); cbn [rsum Nat.eqb]; split; field. }
  split; [exact E|]. unfold inv100.
  replace (shear_basis_vectors (diag3 box100) box100 zvec zmat) with (diag3 box100); [exact E|].
  do 2 (apply functional_extensionality; intro). symmetry. apply unsheared_basis.
Qed.

Lemma big_disp l : (l < 3)%nat -> periodic_disp inv100 big_x box100 zvec zmat 0 1 l = v3 5 0 0 l.
Proof.
  destruct inv100_ok as [H1 H2].
  set (f := v3 (/ 20) 0 0).
  assert (E : forall l, (l < 3)%nat -> rsum 3 (fun k => f k * shear_basis_vectors (diag3 box100) box100 zvec zmat k l) = v3 5 0 0 l).
  { intros l' Hl. unfold zvec, zmat. cbn [rsum]. rewrite !unsheared_basis.
    destruct l' as [|[|[|]]]; [| | |lia]; unfold f, v3, diag3, box100; cbn [Nat.eqb]; field. }
  intros Hl. rewrite (disp_unique inv100 box100 zvec zmat H2 H1 big_x 0 1 (fun _ => 0%Z) f).
  - apply E, Hl.
  - intros k Hk. destruct k as [|[|[|]]]; [| | |lia]; unfold f, v3; lra.
  - intros k Hk. rewrite E by exact Hk. unfold lattice_shift. cbn [rsum].
    destruct k as [|[|[|]]]; [| | |lia]; unfold big_x, v3; ring.
Qed.
Lemma norm_axis c : 0 <= c -> norm (v3 c 0 0) = c.
Proof. intros H. unfold norm, v3. replace (c ^ 2 + 0 ^ 2 + 0 ^ 2) with (c ^ 2) by ring. apply sqrt_pow2, H. Qed.

Lemma big_missed :
  2 * norm (periodic_disp inv100 big_x box100 zvec zmat 0 1) / (2 + 2) <= 2 * 2 /\
  (forall t, In t (close_particles_periodic inv100 big_x (fun _ => 2) 2 2 box100 zvec zmat) -> cp1 t = cp2 t).
Proof.
  assert (E : norm (periodic_disp inv100 big_x box100 zvec zmat 0 1) = 5).
  { rewrite (norm_ext _ (v3 5 0 0)) by apply big_disp. apply norm_axis. lra. }
  split; [rewrite E; lra|]. intros t Ht. apply periodic_in in Ht. destruct Ht as (H & Hn & _).
  destruct (Nat.eq_dec (cp1 t) (cp2 t)) as [|Hne]; [assumption|exfalso].
  assert (cp1 t = 0%nat /\ cp2 t = 1%nat) as [E1 E2] by lia. rewrite E1, E2, E in Hn. lra.
Qed.

(** A cubic box of side 10 sheared by one half: unit particles separated by
    (-4, 4, 0). *)
Definition slant_x (b : nat) : vec := match b with 0%nat => v3 4 0 0 | _ => v3 0 4 0 end.
Definition box10 : vec := fun _ => 10.
Definition inv_slant (M : mat) : mat := fun i j =>
  match i, j with 1%nat, 0%nat => - M 1%nat 0%nat / 100 | _, _ => diag3 (fun _ => / 10) i j end.
Lemma inv_slant_ok : is_inv 3 (diag3 box10) (inv_slant (diag3 box10)) /\
  is_inv 3 (shear_basis_vectors (diag3 box10) box10 (shear_O (1/2)) (shear_E (1/2)))
           (inv_slant (shear_basis_vectors (diag3 box10) box10 (shear_O (1/2)) (shear_E (1/2)))).
Proof.
  split; intros i j Hi Hj; unfold mmul, delta.
  - destruct i as [|[|[|]]]; [| | |lia]; (destruct j as [|[|[|]]]; [| | |lia]); unfold inv_slant, diag3, box10; cbn [rsum Nat.eqb]; split; field.
  - cbn [rsum]. unfold inv_slant. rewrite !simple_basis by lia.
    generalize (rmod (1 / 2 * box10 1%nat) (box10 0%nat)). intros s.
    destruct i as [|[|[|]]]; [| | |lia]; (destruct j as [|[|[|]]]; [| | |lia]);
      unfold diag3, box10; cbn [Nat.eqb andb]; split; field.
Qed.
Lemma slant_s : rmod (1 / 2 * box10 1%nat) (box10 0%nat) = 5.
Proof. unfold rmod, box10. rewrite Int_part_0 by lra. lra. Qed.
Lemma slant_disp l : (l < 3)%nat ->
  periodic_disp inv_slant slant_x box10 (shear_O (1/2)) (shear_E (1/2)) 0 1 l = v3 6 4 0 l.
Proof.
  destruct inv_slant_ok as [H1 H2].
  set (f := v3 (2 / 5) (2 / 5) 0).
  assert (E : forall l, (l < 3)%nat -> rsum 3 (fun k => f k * shear_basis_vectors (diag3 box10) box10 (shear_O (1/2)) (shear_E (1/2)) k l) = v3 6 4 0 l).
  { intros l' Hl. cbn [rsum]. rewrite !simple_basis, !slant_s by lia.
    destruct l' as [|[|[|]]]; [| | |lia]; unfold f, v3, diag3, box10; cbn [Nat.eqb andb]; field. }
  intros Hl. rewrite (disp_unique inv_slant box10 (shear_O (1/2)) (shear_E (1/2)) H2 H1 slant_x 0 1
     (fun k => match k with 0%nat => 1%Z | _ => 0%Z end) f).
  - apply E, Hl.
  - intros k Hk. destruct k as [|[|[|]]]; [| | |lia]; unfold f, v3; lra.
  - intros k Hk. rewrite E by exact Hk. unfold lattice_shift. cbn [rsum]. rewrite !simple_basis, !slant_s by lia.
    destruct k as [|[|[|]]]; [| | |lia]; unfold slant_x, v3, diag3, box10; cbn [Nat.eqb andb]; lra.
Qed.
Lemma slant_missed :
  norm (vsub (slant_x 1) (slant_x 0)) < 2 * 3 /\
  (forall t, In t (close_particles_periodic inv_slant slant_x (fun _ => 1) 2 3 box10 (shear_O (1/2)) (shear_E (1/2))) -> cp1 t = cp2 t).
Proof.
  split.
  - unfold norm, vsub, slant_x, v3. apply (Rlt_le_trans _ (sqrt (6 ^ 2))); [apply sqrt_lt_1_alt; lra|].
    rewrite sqrt_pow2; lra.
  - intros t Ht. apply periodic_in in Ht. destruct Ht as (H & Hn & _).
    destruct (Nat.eq_dec (cp1 t) (cp2 t)) as [|Hne]; [assumption|exfalso].
    assert (cp1 t = 0%nat /\ cp2 t = 1%nat) as [E1 E2] by lia. rewrite E1, E2 in Hn.
    rewrite (norm_ext _ (v3 6 4 0)) in Hn by apply slant_disp.
    apply (Rlt_not_le _ _) in Hn; [exact Hn|].
    apply (Rle_lt_trans _ (sqrt (6 ^ 2))); [rewrite sqrt_pow2; lra|].
    apply sqrt_lt_1_alt. unfold v3. lra.
Qed.
