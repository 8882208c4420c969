(** Close pairs in a periodic box. *)
From Coq Require Import Reals Arith ZArith Bool List Lia Lra FunctionalExtensionality.
From Verif Require Import Base Model_Mob Model_Close Spec_R2B Spec_Close Proof_Layout Proof_Mob Proof_Minf2 Proof_Close.
Import ListNotations.
Local Open Scope R_scope.

Lemma Int_part_spec r z : r - 1 < IZR z <= r -> z = Int_part r.
Proof.
  intros H. unfold Int_part. rewrite <- (tech_up r (z + 1)); [lia| |]; rewrite plus_IZR; lra.
Qed.
Lemma Int_part_add r z : Int_part (r + IZR z) = (Int_part r + z)%Z.
Proof.
  symmetry. apply Int_part_spec. rewrite plus_IZR. pose proof (base_Int_part r). lra.
Qed.
Lemma Int_part_0 r : 0 <= r < 1 -> Int_part r = 0%Z.
Proof. intros H. symmetry. apply Int_part_spec. lra. Qed.

(** Centred representative modulo 1. *)
Definition centre (f : R) : R := rmod (f + 1 / 2) 1 - 1 / 2.
Lemma centre_eq f : centre f = f - IZR (Int_part (f + 1 / 2)).
Proof. unfold centre, rmod. replace ((f + 1 / 2) / 1) with (f + 1 / 2) by field. ring. Qed.
Lemma centre_range f : - (1 / 2) <= centre f < 1 / 2.
Proof. rewrite centre_eq. pose proof (base_Int_part (f + 1 / 2)). lra. Qed.
Lemma centre_add f z : centre (f + IZR z) = centre f.
Proof.
  rewrite !centre_eq. replace (f + IZR z + 1 / 2) with (f + 1 / 2 + IZR z) by ring.
  rewrite Int_part_add, plus_IZR. ring.
Qed.
Lemma centre_id f : - (1 / 2) <= f < 1 / 2 -> centre f = f.
Proof. intros H. rewrite centre_eq, Int_part_0 by lra. ring. Qed.

Lemma rowmul_assoc v A B j : rowmul (rowmul v A) B j = rowmul v (mmul 3 A B) j.
Proof. unfold rowmul, mmul. cbn [rsum]. ring. Qed.
Lemma rowmul_ext v A B j : (forall k, (k < 3)%nat -> A k j = B k j) -> rowmul v A j = rowmul v B j.
Proof. intros H. unfold rowmul. apply rsum_ext. intros k Hk. rewrite H by exact Hk. reflexivity. Qed.
Lemma rowmul_ext_v v w A j : (forall k, (k < 3)%nat -> v k = w k) -> rowmul v A j = rowmul w A j.
Proof. intros H. unfold rowmul. apply rsum_ext. intros k Hk. rewrite H by exact Hk. reflexivity. Qed.
Lemma rowmul_delta v j : (j < 3)%nat -> rowmul v delta j = v j.
Proof. intros H. unfold rowmul. apply rsum_delta_r. exact H. Qed.
Lemma rowmul_sub v w A j : rowmul (vsub v w) A j = rowmul v A j - rowmul w A j.
Proof. unfold rowmul, vsub. cbn [rsum]. ring. Qed.
Lemma rowmul_add v w A j : rowmul (vadd v w) A j = rowmul v A j + rowmul w A j.
Proof. unfold rowmul, vadd. cbn [rsum]. ring. Qed.

Section Periodic.
Variables (inv : mat -> mat) (box Ot : vec) (Et : mat).
Let B := shear_basis_vectors (diag3 box) box Ot Et.
Hypothesis HB : is_inv 3 B (inv B).
Hypothesis HD : is_inv 3 (diag3 box) (inv (diag3 box)).

Lemma back_forth v j : (j < 3)%nat -> rowmul (rowmul v (inv B)) B j = v j.
Proof.
  intros Hj. rewrite rowmul_assoc.
  rewrite (rowmul_ext v _ delta) by (intros k Hk; apply (HB k j Hk Hj)). apply rowmul_delta, Hj.
Qed.
Lemma forth_back v j : (j < 3)%nat -> rowmul (rowmul v B) (inv B) j = v j.
Proof.
  intros Hj. rewrite rowmul_assoc.
  rewrite (rowmul_ext v _ delta) by (intros k Hk; apply (HB k j Hk Hj)). apply rowmul_delta, Hj.
Qed.
Lemma diag_back v j : (j < 3)%nat -> rowmul (rowmul v (diag3 box)) (inv (diag3 box)) j = v j.
Proof.
  intros Hj. rewrite rowmul_assoc.
  rewrite (rowmul_ext v _ delta) by (intros k Hk; apply (HD k j Hk Hj)). apply rowmul_delta, Hj.
Qed.

(** Fractional coordinates of the separation. *)
Definition frac (v : vec) : vec := rowmul v (inv B).
Lemma disp_frac x i j l :
  periodic_disp inv x box Ot Et i j l = rowmul (fun k => centre (frac (vsub (x j) (x i)) k)) B l.
Proof.
  unfold periodic_disp. cbv zeta. fold B. apply rowmul_ext_v. intros k Hk. unfold centre.
  do 2 f_equal. f_equal. rewrite rowmul_sub, !diag_back by exact Hk.
  unfold frac. rewrite rowmul_sub. reflexivity.
Qed.

Lemma disp_image x i j : exists m : nat -> Z, forall l, (l < 3)%nat ->
  periodic_disp inv x box Ot Et i j l = x j l - x i l + lattice_shift B m l.
Proof.
  exists (fun k => (- Int_part (frac (vsub (x j) (x i)) k + 1 / 2))%Z). intros l Hl. rewrite disp_frac.
  rewrite (rowmul_ext_v _ (vadd (frac (vsub (x j) (x i))) (fun k => IZR (- Int_part (frac (vsub (x j) (x i)) k + 1 / 2))))).
  - rewrite rowmul_add. unfold frac at 1. rewrite back_forth by exact Hl. reflexivity.
  - intros k Hk. rewrite centre_eq. unfold vadd. rewrite opp_IZR. reflexivity.
Qed.
Lemma disp_centred x i j : exists f : vec, (forall k, (k < 3)%nat -> - (1 / 2) <= f k < 1 / 2) /\
  forall l, periodic_disp inv x box Ot Et i j l = rsum 3 (fun k => f k * B k l).
Proof.
  exists (fun k => centre (frac (vsub (x j) (x i)) k)). split; [intros; apply centre_range|].
  intros l. rewrite disp_frac. reflexivity.
Qed.

Lemma disp_unique x i j (m : nat -> Z) (f : vec) :
  (forall k, (k < 3)%nat -> - (1 / 2) <= f k < 1 / 2) ->
  (forall l, (l < 3)%nat -> x j l - x i l + lattice_shift B m l = rsum 3 (fun k => f k * B k l)) ->
  forall l, periodic_disp inv x box Ot Et i j l = rsum 3 (fun k => f k * B k l).
Proof.
  intros Hf H l. rewrite disp_frac. apply rowmul_ext_v. intros k Hk.
  assert (E : frac (vsub (x j) (x i)) k = f k + IZR (- m k)).
  { unfold frac. rewrite <- (forth_back f k Hk).
    rewrite opp_IZR. replace (IZR (m k)) with (rowmul (rowmul (fun k => IZR (m k)) B) (inv B) k) by (apply (forth_back (fun k => IZR (m k)) k Hk)).
    unfold Rminus. rewrite (rowmul_ext_v (vsub (x j) (x i)) (vsub (rowmul f B) (rowmul (fun k => IZR (m k)) B))).
    - rewrite rowmul_sub. ring.
    - intros l' Hl'. specialize (H l' Hl'). unfold vsub. unfold lattice_shift in H. unfold rowmul.
      rewrite <- H. ring. }
  rewrite E, centre_add, centre_id by (apply Hf; exact Hk). reflexivity.
Qed.

Lemma disp_shift x (m : nat -> nat -> Z) i j l :
  periodic_disp inv (fun b => vadd (x b) (lattice_shift B (m b))) box Ot Et i j l = periodic_disp inv x box Ot Et i j l.
Proof.
  rewrite !disp_frac. apply rowmul_ext_v. intros k Hk.
  replace (frac (vsub (vadd (x j) (lattice_shift B (m j))) (vadd (x i) (lattice_shift B (m i)))) k)
    with (frac (vsub (x j) (x i)) k + IZR (m j k - m i k)); [apply centre_add|].
  unfold frac. rewrite !rowmul_sub, !rowmul_add.
  pose proof (forth_back (fun k => IZR (m j k)) k Hk) as E1. pose proof (forth_back (fun k => IZR (m i k)) k Hk) as E2.
  change (rowmul (fun k => IZR (m j k)) B) with (lattice_shift B (m j)) in E1.
  change (rowmul (fun k => IZR (m i k)) B) with (lattice_shift B (m i)) in E2.
  rewrite E1, E2, minus_IZR. ring.
Qed.

Lemma disp_self x i l : periodic_disp inv x box Ot Et i i l = 0.
Proof.
  rewrite disp_frac. transitivity (rowmul (fun _ => 0) B l); [|unfold rowmul; cbn [rsum]; ring].
  apply rowmul_ext_v. intros k Hk. replace (frac (vsub (x i) (x i)) k) with 0.
  - apply centre_id. lra.
  - unfold frac, vsub, rowmul. cbn [rsum]. ring.
Qed.

Lemma disp_translate x d i j : periodic_disp inv (fun b => vadd (x b) d) box Ot Et i j = periodic_disp inv x box Ot Et i j.
Proof.
  apply functional_extensionality. intros l. rewrite !disp_frac. f_equal. apply functional_extensionality. intros k.
  f_equal. f_equal. apply functional_extensionality. intros. unfold vsub, vadd. ring.
Qed.

(** The other order of the labels gives the opposite displacement, except on
    the boundary of the cell. *)
Lemma disp_antisym x i j :
  (forall k, (k < 3)%nat -> centre (frac (vsub (x j) (x i)) k) <> - (1 / 2)) ->
  forall l, periodic_disp inv x box Ot Et j i l = - periodic_disp inv x box Ot Et i j l.
Proof.
  intros H l. rewrite !disp_frac. unfold rowmul. rewrite <- rsum_opp. apply rsum_ext. intros k Hk.
  set (f := frac (vsub (x j) (x i)) k).
  replace (frac (vsub (x i) (x j)) k) with (- f) by (unfold f, frac; rewrite !rowmul_sub; ring).
  assert (E : centre (- f) = - centre f).
  { pose proof (centre_range f). specialize (H k Hk). fold f in H.
    replace (- f) with (- centre f + IZR (- Int_part (f + 1 / 2))) by (rewrite centre_eq, opp_IZR; ring).
    rewrite centre_add. apply centre_id. lra. }
  rewrite E. ring.
Qed.

(** ** The returned pairs *)
Definition periodic_record x (a : nat -> R) i j : cpair :=
  let d := periodic_disp inv x box Ot Et i j in
  mkCpair i j (vscal (2 / (a i + a j)) d) (2 * norm d / (a i + a j)) (a j / a i).

Lemma max3_norm v c : norm v <= c -> max3abs v <= c.
Proof.
  intros H. unfold max3abs.
  assert (G : forall k, (k < 3)%nat -> Rabs (v k) <= norm v).
  { intros k Hk. unfold norm. rewrite <- sqrt_Rsqr_abs. apply sqrt_le_1_alt. unfold Rsqr.
    pose proof (Rle_0_sqr (v 0%nat)). pose proof (Rle_0_sqr (v 1%nat)). pose proof (Rle_0_sqr (v 2%nat)). unfold Rsqr in *.
    destruct k as [|[|[|]]]; [nra|nra|nra|lia]. }
  pose proof (G 0%nat ltac:(lia)). pose proof (G 1%nat ltac:(lia)). pose proof (G 2%nat ltac:(lia)).
  repeat apply Rmax_lub; lra.
Qed.

Lemma periodic_in x a n cf t :
  In t (close_particles_periodic inv x a n cf box Ot Et) <->
  (cp1 t <= cp2 t < n)%nat /\ norm (periodic_disp inv x box Ot Et (cp1 t) (cp2 t)) <= 2 * cf /\
  2 * norm (periodic_disp inv x box Ot Et (cp1 t) (cp2 t)) / (a (cp1 t) + a (cp2 t)) <= 2 * cf /\
  t = periodic_record x a (cp1 t) (cp2 t).
Proof.
  unfold close_particles_periodic. cbv zeta. rewrite in_map_iff. split.
  - intros ((i & j) & E & H). apply filter_In in H. destruct H as [H Hs].
    apply in_flat_map in H. destruct H as (i' & Hi & H). apply in_map_iff in H. destruct H as (j' & E' & H).
    injection E' as -> ->. apply filter_In in H. destruct H as [H Hle]. apply filter_In in H. destruct H as [H Hn].
    apply filter_In in H. destruct H as [H _]. apply in_seq in H. apply in_seq in Hi. apply Nat.leb_le in Hle.
    apply Rleb_spec in Hn. apply Rleb_spec in Hs. cbn [fst snd] in *. subst t. cbn [cp1 cp2]. repeat split; try lia; assumption.
  - intros (Hij & Hn & Hs & E). exists (cp1 t, cp2 t). cbn [fst snd]. split; [symmetry; exact E|].
    apply filter_In. split; [|apply Rleb_spec; exact Hs].
    apply in_flat_map. exists (cp1 t). split; [apply in_seq; lia|]. apply in_map_iff. exists (cp2 t). split; [reflexivity|].
    apply filter_In. split; [|apply Nat.leb_le; lia]. apply filter_In. split; [|apply Rleb_spec; exact Hn].
    apply filter_In. split; [apply in_seq; lia|]. apply Rleb_spec, max3_norm, Hn.
Qed.

Lemma NoDup_map_filter {A C} (g : A -> C) (h : A -> bool) l : NoDup (map g l) -> NoDup (map g (filter h l)).
Proof.
  induction l as [|u l IH]; intros H; simpl; [constructor|]. inversion H as [|? ? Hu Hl]; subst.
  destruct (h u); simpl; [constructor; [|apply IH, Hl]|apply IH, Hl].
  intros Hin. apply Hu. apply in_map_iff in Hin. destruct Hin as (w & E & Hw). apply filter_In in Hw.
  apply in_map_iff. exists w. tauto.
Qed.
Lemma periodic_nodup x a n cf : NoDup (map (fun t => (cp1 t, cp2 t)) (close_particles_periodic inv x a n cf box Ot Et)).
Proof.
  unfold close_particles_periodic. cbv zeta. rewrite map_map. cbn [cp1 cp2].
  rewrite (map_ext _ (fun f => f)) by (intros []; reflexivity). rewrite map_id. apply NoDup_filter.
  apply (pairs_nodup (fun i => filter _ (filter _ (filter _ (seq 0 n))))). intros i. do 3 apply NoDup_filter. apply seq_NoDup.
Qed.

Lemma norm_zero v : (forall l, (l < 3)%nat -> v l = 0) -> norm v = 0.
Proof. intros H. unfold norm. rewrite !H by lia. refine (eq_trans _ sqrt_0). f_equal. ring. Qed.

Lemma periodic_close_list x a n cf : 0 <= cf -> close_list n a (close_particles_periodic inv x a n cf box Ot Et).
Proof.
  intros Hcf. split; [apply periodic_nodup|]. split.
  - intros t Ht. apply periodic_in in Ht. destruct Ht as (H1 & _ & _ & E). split; [exact H1|]. rewrite E at 1. reflexivity.
  - intros p Hp. exists (periodic_record x a p p). split; [|split; reflexivity].
    apply periodic_in. cbn [cp1 cp2 periodic_record].
    rewrite norm_zero by (intros; apply disp_self). repeat split; try lia; try lra.
Qed.

(** Particles no larger than unit size on average: the raw test is implied. *)
Lemma periodic_small x a n cf i j : (i <= j < n)%nat -> 0 < a i + a j <= 2 -> 0 <= cf ->
  ((exists t, In t (close_particles_periodic inv x a n cf box Ot Et) /\ cp1 t = i /\ cp2 t = j) <->
   2 * norm (periodic_disp inv x box Ot Et i j) / (a i + a j) <= 2 * cf).
Proof.
  intros Hij Ha Hcf. split.
  - intros (t & Ht & <- & <-). apply periodic_in in Ht. tauto.
  - intros H. exists (periodic_record x a i j). split; [|split; reflexivity].
    apply periodic_in. cbn [cp1 cp2 periodic_record]. repeat split; try lia; try assumption.
    set (s := norm _) in *. assert (2 * s <= 2 * cf * (a i + a j)).
    { apply (Rmult_le_reg_r (/ (a i + a j))); [apply Rinv_0_lt_compat; lra|]. rewrite (Rmult_assoc (2 * cf)), Rinv_r by lra.
      unfold Rdiv in H. lra. }
    nra.
Qed.

Lemma periodic_shift x a n cf (m : nat -> nat -> Z) :
  close_particles_periodic inv (fun b => vadd (x b) (lattice_shift B (m b))) a n cf box Ot Et =
  close_particles_periodic inv x a n cf box Ot Et.
Proof.
  unfold close_particles_periodic.
  replace (periodic_disp inv (fun b => vadd (x b) (lattice_shift B (m b))) box Ot Et)
    with (periodic_disp inv x box Ot Et); [reflexivity|].
  do 3 (apply functional_extensionality; intro). symmetry. apply disp_shift.
Qed.
Lemma periodic_translate x a n cf d :
  close_particles_periodic inv (fun b => vadd (x b) d) a n cf box Ot Et =
  close_particles_periodic inv x a n cf box Ot Et.
Proof.
  unfold close_particles_periodic.
  replace (periodic_disp inv (fun b => vadd (x b) d) box Ot Et)
    with (periodic_disp inv x box Ot Et); [reflexivity|].
  do 2 (apply functional_extensionality; intro). symmetry. apply disp_translate.
Qed.
End Periodic.

(** ** No shear: the reported image is a nearest one *)
Lemma rmod_0 L : rmod 0 L = 0.
Proof. unfold rmod. replace (0 / L) with 0 by (unfold Rdiv; ring). rewrite Int_part_0 by lra. ring. Qed.
Lemma unsheared_basis box k l :
  shear_basis_vectors (diag3 box) box (fun _ => 0) (fun _ _ => 0) k l = diag3 box k l.
Proof.
  unfold shear_basis_vectors. replace (_ + rsum 3 _) with 0; [rewrite rmod_0; ring|].
  unfold cross, v3. destruct l as [|[|[|]]]; cbn [rsum]; ring.
Qed.

Lemma nearest_1d f (z : Z) : - (1 / 2) <= f < 1 / 2 -> f * f <= (f + IZR z) * (f + IZR z).
Proof.
  intros H. destruct (Z.eq_dec z 0) as [->|Hz]; [lra|].
  destruct (Z_le_gt_dec z (-1)) as [Hz'|Hz'].
  - apply IZR_le in Hz'. nra.
  - assert (IZR 1 <= IZR z) by (apply IZR_le; lia). nra.
Qed.

Lemma disp_nearest inv x box i j (m : nat -> Z) :
  let Z0 := fun _ => 0 in let ZZ := fun _ _ : nat => 0 in
  is_inv 3 (shear_basis_vectors (diag3 box) box Z0 ZZ) (inv (shear_basis_vectors (diag3 box) box Z0 ZZ)) ->
  is_inv 3 (diag3 box) (inv (diag3 box)) ->
  norm (periodic_disp inv x box Z0 ZZ i j) <= norm (vadd (vsub (x j) (x i)) (lattice_shift (diag3 box) m)).
Proof.
  intros Z0 ZZ HB HD.
  destruct (disp_image inv box Z0 ZZ HB HD x i j) as (m0 & H0).
  destruct (disp_centred inv box Z0 ZZ HD x i j) as (f & Hf & H1).
  assert (G : forall l, (l < 3)%nat ->
     periodic_disp inv x box Z0 ZZ i j l * periodic_disp inv x box Z0 ZZ i j l <=
     vadd (vsub (x j) (x i)) (lattice_shift (diag3 box) m) l * vadd (vsub (x j) (x i)) (lattice_shift (diag3 box) m) l).
  { intros l Hl. specialize (H0 l Hl). specialize (H1 l).
    assert (E1 : periodic_disp inv x box Z0 ZZ i j l = f l * box l).
    { rewrite H1. rewrite (rsum_single 3 l); [|exact Hl|].
      - rewrite unsheared_basis. unfold diag3. rewrite Nat.eqb_refl. reflexivity.
      - intros k _ Hk. rewrite unsheared_basis. unfold diag3. apply Nat.eqb_neq in Hk. rewrite Hk. ring. }
    assert (E2 : forall mm, lattice_shift (diag3 box) mm l = IZR (mm l) * box l).
    { intros mm. unfold lattice_shift. rewrite (rsum_single 3 l); [|exact Hl|].
      - unfold diag3. rewrite Nat.eqb_refl. reflexivity.
      - intros k _ Hk. unfold diag3. apply Nat.eqb_neq in Hk. rewrite Hk. ring. }
    assert (E3 : lattice_shift (shear_basis_vectors (diag3 box) box Z0 ZZ) m0 l = IZR (m0 l) * box l).
    { rewrite <- E2. unfold lattice_shift. apply rsum_ext. intros. unfold Z0, ZZ. rewrite unsheared_basis. reflexivity. }
    unfold vadd, vsub. rewrite E2. rewrite E3 in H0.
    replace (x j l - x i l + IZR (m l) * box l) with ((f l + IZR (m l - m0 l)) * box l)
      by (rewrite minus_IZR; lra).
    rewrite E1. pose proof (nearest_1d (f l) (m l - m0 l) (Hf l Hl)). pose proof (Rle_0_sqr (box l)). unfold Rsqr in *. nra. }
  unfold norm. apply sqrt_le_1_alt.
  pose proof (G 0%nat ltac:(lia)). pose proof (G 1%nat ltac:(lia)). pose proof (G 2%nat ltac:(lia)). lra.
Qed.
