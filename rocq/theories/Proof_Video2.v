(** C84: what a picture shows. *)
From Coq Require Import Reals List Arith Bool ZArith Lia Lra.
From Verif Require Import Base Py Model_Mob Model_Close Model_Step Model_MinfP Model_Output Model_Frame Model_Inputs Model_Graphics
  Model_Checkpoint Model_Video Spec_Checkpoint Spec_Shear Spec_Video Proof_Periodic2.
Import ListNotations.
Local Open Scope R_scope.

Lemma red_min F : between0and1 (norm F) = Rmin 1 (norm F).
Proof.
  unfold between0and1, Rltb. assert (0 <= norm F) by (unfold norm; apply sqrt_pos).
  destruct (Rlt_dec (norm F) 0); [lra|]. destruct (Rlt_dec 1 (norm F)).
  - rewrite Rmin_left; lra.
  - rewrite Rmin_right; lra.
Qed.

(** ** Lists that run in parallel *)
Lemma flat_length {A B} (X : list A) (g : A -> list B) n : (forall x, length (g x) = n) -> length (flat_map g X) = (length X * n)%nat.
Proof. intros H. induction X as [|x X IH]; [reflexivity|]. cbn [flat_map]. rewrite app_length, IH, H. simpl. lia. Qed.
Lemma flat_nth {A B} (X : list A) (g : A -> list B) n (d : B) (dx : A) q i :
  (forall x, length (g x) = n) -> (i < n)%nat -> (q < length X)%nat ->
  nth (q * n + i) (flat_map g X) d = nth i (g (nth q X dx)) d.
Proof.
  intros H Hi. revert q. induction X as [|x X IH]; intros q Hq; [simpl in Hq; lia|]. cbn [flat_map].
  destruct q as [|q].
  - rewrite app_nth1 by (rewrite H; lia). reflexivity.
  - rewrite app_nth2 by (rewrite H; simpl; nia). rewrite H. replace (S q * n + i - n)%nat with (q * n + i)%nat by (simpl; lia).
    apply IH. simpl in Hq. lia.
Qed.
Lemma rows_length {A} n (x : nat -> A) : length (rows_of n x) = n.
Proof. unfold rows_of. rewrite map_length, seq_length. reflexivity. Qed.
Lemma rows_nth {A} n (x : nat -> A) i d : (i < n)%nat -> nth i (rows_of n x) d = x i.
Proof.
  intros H. unfold rows_of. rewrite (nth_indep _ d (x (nth i (seq 0 n) 0%nat))) by (rewrite map_length, seq_length; exact H).
  rewrite (map_nth x), seq_nth by exact H. reflexivity.
Qed.
Lemma repeat_nth {A} (a d : A) n i : (i < n)%nat -> nth i (repeat a n) d = a.
Proof. revert i. induction n as [|n IH]; intros [|i] H; simpl; try lia; auto. apply IH. lia. Qed.

Section Discs.
Variable Ns : nat.
Variables (row : snapshot) (F : nat -> vec).
Let pos := rows_of Ns (n_pos row).
Let rot := rows_of Ns (n_rot row).
Let sizes := repeat 1 Ns.
Let Fa := rows_of Ns F.

Definition sphere_disc (X : vec) (i : nat) : disc :=
  mkDisc 1 (vadd (n_pos row i) X) (vadd (n_rot row i 0%nat) X) (vadd (n_rot row i 1%nat) X) (between0and1 (norm (F i))).

Lemma discs_free : plot_all_spheres sizes pos rot Fa =
  map (fun i => mkDisc 1 (n_pos row i) (n_rot row i 0%nat) (n_rot row i 1%nat) (between0and1 (norm (F i)))) (seq 0 Ns).
Proof.
  unfold plot_all_spheres. unfold pos at 2. rewrite rows_length. apply map_ext_in. intros i Hi. apply in_seq in Hi.
  unfold sizes, pos, rot, Fa. rewrite repeat_nth, !rows_nth by lia. reflexivity.
Qed.

Lemma discs_copies (X : list vec) :
  plot_all_spheres (flat_map (fun _ => sizes) X) (flat_map (fun X => map (fun x => vadd x X) pos) X)
    (flat_map (fun X => map (fun r j => vadd (r j) X) rot) X) (flat_map (fun _ => Fa) X)
  = flat_map (fun Y => map (sphere_disc Y) (seq 0 Ns)) X.
Proof.
  unfold plot_all_spheres.
  assert (L1 : forall x : vec, length (map (fun x0 => vadd x0 x) pos) = Ns) by (intros; unfold pos; rewrite map_length; apply rows_length).
  assert (L2 : forall x : vec, length (map (fun (r : nat -> vec) j => vadd (r j) x) rot) = Ns) by (intros; unfold rot; rewrite map_length; apply rows_length).
  assert (L3 : forall x : vec, length sizes = Ns) by (intros; apply repeat_length).
  assert (L4 : forall x : vec, length Fa = Ns) by (intros; apply rows_length).
  assert (L5 : forall x : vec, length (map (sphere_disc x) (seq 0 Ns)) = Ns) by (intros; rewrite map_length; apply seq_length).
  rewrite (flat_length X _ Ns L1).
  set (dd := mkDisc 0 (v3 0 0 0) (v3 0 0 0) (v3 0 0 0) 0).
  apply (nth_ext _ _ dd dd).
  - rewrite map_length, seq_length, (flat_length X _ Ns L5). reflexivity.
  - intros k Hk. rewrite map_length, seq_length in Hk.
    assert (N0 : Ns <> 0%nat) by (intro E; rewrite E in Hk; lia).
    pose proof (Nat.div_mod k Ns N0) as DM. pose proof (Nat.mod_upper_bound k Ns N0) as Mi.
    set (q := (k / Ns)%nat) in *. set (i := (k mod Ns)%nat) in *.
    assert (Hq : (q < length X)%nat) by nia.
    assert (Ek : k = (q * Ns + i)%nat) by lia. clear DM. clearbody q i. subst k.
    rewrite (flat_nth X _ Ns dd (v3 0 0 0) q i L5 Mi Hq).
    rewrite (nth_indep (map _ (seq 0 Ns)) dd (sphere_disc (nth q X (v3 0 0 0)) 0%nat)) by (rewrite map_length, seq_length; exact Mi).
    rewrite (map_nth (sphere_disc _)), seq_nth by exact Mi.
    match goal with |- nth _ (map ?g (seq 0 ?n)) _ = _ => rewrite (nth_indep (map g (seq 0 n)) dd (g 0%nat)) by (rewrite map_length, seq_length; exact Hk); rewrite (map_nth g), seq_nth by exact Hk end.
    cbn [plus].
    rewrite (flat_nth X (fun _ => sizes) Ns 0 (v3 0 0 0) q i L3 Mi Hq), (flat_nth X _ Ns (v3 0 0 0) (v3 0 0 0) q i L1 Mi Hq),
      (flat_nth X (fun _ => Fa) Ns (v3 0 0 0) (v3 0 0 0) q i L4 Mi Hq).
    rewrite !(flat_nth X _ Ns (fun _ => v3 0 0 0) (v3 0 0 0) q i L2 Mi Hq).
    set (Y := nth q X (v3 0 0 0)). unfold sphere_disc. f_equal.
    + apply repeat_nth, Mi.
    + rewrite (nth_indep _ (v3 0 0 0) (vadd (v3 0 0 0) Y)) by (rewrite L1; exact Mi).
      rewrite (map_nth (fun x0 => vadd x0 Y)). unfold pos. rewrite rows_nth by exact Mi. reflexivity.
    + rewrite (nth_indep _ (fun _ => v3 0 0 0) (fun j => vadd ((fun _ : nat => v3 0 0 0) j) Y)) by (rewrite L2; exact Mi).
      rewrite (map_nth (fun (r : nat -> vec) j => vadd (r j) Y) rot (fun _ => v3 0 0 0)). unfold rot. rewrite rows_nth by exact Mi. reflexivity.
    + rewrite (nth_indep _ (fun _ => v3 0 0 0) (fun j => vadd ((fun _ : nat => v3 0 0 0) j) Y)) by (rewrite L2; exact Mi).
      rewrite (map_nth (fun (r : nat -> vec) j => vadd (r j) Y) rot (fun _ => v3 0 0 0)). unfold rot. rewrite rows_nth by exact Mi. reflexivity.
    + unfold Fa. rewrite rows_nth by exact Mi. reflexivity.
Qed.

Lemma disc_shows Y i : shows (sphere_disc Y i) (vadd (n_pos row i) Y) (vadd (n_rot row i 0%nat) Y) (vadd (n_rot row i 1%nat) Y) (F i).
Proof. split; [reflexivity|]. split; [intros; repeat split; reflexivity|]. apply red_min. Qed.
Lemma shows_ext d x e1 e2 G x' e1' e2' : (forall l, (l < 3)%nat -> x l = x' l /\ e1 l = e1' l /\ e2 l = e2' l) ->
  shows d x e1 e2 G -> shows d x' e1' e2' G.
Proof.
  intros H (A & B & C). split; [exact A|]. split; [|exact C]. intros l Hl. destruct (H l Hl) as (<- & <- & <-). apply B, Hl.
Qed.

(** A list of displacements with the property [copies]. *)
Lemma copies_pictured (copies : vec -> Prop) (L : list vec) :
  (forall X, In X L -> copies X) ->
  (forall X, copies X -> exists Y, In Y L /\ forall l, (l < 3)%nat -> Y l = X l) ->
  pictured Ns copies row F (flat_map (fun Y => map (sphere_disc Y) (seq 0 Ns)) L).
Proof.
  intros A B. split.
  - intros d Hd. apply in_flat_map in Hd. destruct Hd as (Y & HY & Hd). apply in_map_iff in Hd. destruct Hd as (i & <- & Hi).
    apply in_seq in Hi. exists i, Y. split; [lia|]. split; [apply A, HY|apply disc_shows].
  - intros i X Hi HX. destruct (B X HX) as (Y & HY & E). exists (sphere_disc Y i). split.
    + apply in_flat_map. exists Y. split; [exact HY|]. apply in_map, in_seq. lia.
    + apply (shows_ext _ _ _ _ _ _ _ _) with (2 := disc_shows Y i). intros l Hl. unfold vadd. rewrite E by exact Hl. auto.
Qed.
Lemma free_pictured (copies : vec -> Prop) :
  (forall X, copies X <-> forall l, (l < 3)%nat -> X l = 0) -> pictured Ns copies row F (plot_all_spheres sizes pos rot Fa).
Proof.
  intros H. rewrite discs_free.
  assert (S : forall i X, (forall l, (l < 3)%nat -> X l = 0) ->
    shows (mkDisc 1 (n_pos row i) (n_rot row i 0%nat) (n_rot row i 1%nat) (between0and1 (norm (F i))))
      (vadd (n_pos row i) X) (vadd (n_rot row i 0%nat) X) (vadd (n_rot row i 1%nat) X) (F i)).
  { intros i X Z. split; [reflexivity|]. split; [|apply red_min]. intros l Hl. unfold vadd. cbn [d_centre d_end1 d_end2]. rewrite Z by exact Hl. lra. }
  split.
  - intros d Hd. apply in_map_iff in Hd. destruct Hd as (i & <- & Hi). apply in_seq in Hi. exists i, (fun _ => 0).
    split; [lia|]. split; [apply H; auto|]. apply S. auto.
  - intros i X Hi HX. eexists. split; [apply in_map, in_seq; split; [lia|exact Hi]|]. apply S, H, HX.
Qed.
End Discs.

(** ** The copies *)
Lemma grid3 : gridpoints 1 = [-1; 0; 1].
Proof. unfold gridpoints. simpl. repeat (f_equal; try lra). Qed.
Lemma box_zero f : unbounded_domain f <-> norm (vsub (f_tr f) (f_bl f)) <= 0.
Proof.
  unfold unbounded_domain. split; intros H.
  - rewrite (norm_ext _ (fun _ => 0)) by (intros l Hl; unfold vsub; rewrite H by exact Hl; ring).
    unfold norm. replace (0 ^ 2 + 0 ^ 2 + 0 ^ 2) with 0 by ring. rewrite sqrt_0. lra.
  - unfold norm, vsub in H. set (a := f_tr f 0%nat - f_bl f 0%nat) in *. set (b := f_tr f 1%nat - f_bl f 1%nat) in *.
    set (c := f_tr f 2%nat - f_bl f 2%nat) in *.
    assert (Z : a ^ 2 + b ^ 2 + c ^ 2 = 0).
    { destruct (Req_dec (a ^ 2 + b ^ 2 + c ^ 2) 0) as [E|E]; [exact E|]. pose proof (sqrt_lt_R0 (a ^ 2 + b ^ 2 + c ^ 2) ltac:(nra)). lra. }
    intros l Hl. destruct l as [|[|[|l]]]; [| | |lia]; symmetry; apply Rminus_diag_uniq; [fold a|fold b|fold c]; nra.
Qed.
Lemma box_pos f : proper_box f -> ~ unbounded_domain f -> forall l, (l < 3)%nat -> 0 < vsub (f_tr f) (f_bl f) l.
Proof. intros [H|H] N l Hl; [contradiction|]. specialize (H l Hl). unfold vsub. lra. Qed.

Lemma basis_carried f : proper_box f -> ~ unbounded_domain f -> carried_basis f (video_basis f).
Proof.
  intros P N k l Hk Hl. pose proof (box_pos f P N l Hl) as BL. unfold video_basis, shear_basis_vectors.
  set (box := vsub (f_tr f) (f_bl f)) in *.
  change (edges box) with (diag3 box).
  set (y := cross (f_Ot f) (diag3 box k) l + rsum 3 (fun k0 => f_Et f l k0 * diag3 box k k0)).
  exists (Int_part (y / box l)). pose proof (rmod_range y (box l) BL) as R. unfold rmod in *. split; lra.
Qed.

Lemma cube_root x : 0 < x -> 0 < Rpower x (1 / 3) /\ Rpower x (1 / 3) ^ 3 = x.
Proof.
  intros H. assert (P : 0 < Rpower x (1 / 3)) by (unfold Rpower; apply exp_pos). split; [exact P|].
  rewrite <- Rpower_pow by exact P. rewrite Rpower_mult. replace (1 / 3 * INR 3) with 1 by (simpl; lra). apply Rpower_1, H.
Qed.
Lemma cube_unique a b : 0 < a -> 0 < b -> a ^ 3 = b ^ 3 -> a = b.
Proof.
  intros A B E. assert ((a - b) * (a * a + a * b + b * b) = 0) by (simpl in E; nra).
  apply Rmult_integral in H. destruct H; [lra|]. nra.
Qed.

Lemma grid_member n : In n video_grid <-> exists a c, small_step a /\ small_step c /\ n = v3 (IZR a) 0 (IZR c).
Proof.
  unfold video_grid. rewrite grid3. cbn [flat_map map app]. unfold small_step. split.
  - intros H. repeat (destruct H as [E|H]; [subst n|]); try contradiction.
    + exists (-1)%Z, (-1)%Z; auto.
    + exists (-1)%Z, 0%Z; auto.
    + exists (-1)%Z, 1%Z; auto.
    + exists 0%Z, (-1)%Z; auto.
    + exists 0%Z, 0%Z; auto.
    + exists 0%Z, 1%Z; auto.
    + exists 1%Z, (-1)%Z; auto.
    + exists 1%Z, 0%Z; auto.
    + exists 1%Z, 1%Z; auto.
  - intros (a & c & Ha & Hc & E). destruct Ha as [Ha|[Ha|Ha]]; destruct Hc as [Hc|[Hc|Hc]]; subst; cbn; tauto.
Qed.

Lemma copies_seen f X : proper_box f -> ~ unbounded_domain f -> In X (video_copies f) -> seen f (video_basis f) X.
Proof.
  intros P N H. unfold video_copies in H. apply filter_In in H. destruct H as [H R]. apply in_map_iff in H. destruct H as (n & <- & Hn).
  apply grid_member in Hn. destruct Hn as (a & c & Ha & Hc & ->). split; [intros; contradiction|]. intros _. split.
  - exists a, c. split; [exact Ha|]. split; [exact Hc|]. intros l _. unfold rowmul. cbn [rsum v3]. ring.
  - pose proof (box_pos f P N) as BP.
    destruct (cube_root (vsub (f_tr f) (f_bl f) 0%nat * vsub (f_tr f) (f_bl f) 1%nat * vsub (f_tr f) (f_bl f) 2%nat)) as [C1 C2].
    { pose proof (BP 0%nat ltac:(lia)). pose proof (BP 1%nat ltac:(lia)). pose proof (BP 2%nat ltac:(lia)). apply Rmult_lt_0_compat; [apply Rmult_lt_0_compat|]; assumption. }
    eexists. split; [exact C1|]. split; [exact C2|]. unfold Rleb in R. destruct (Rle_dec _ _) as [L|]; [|discriminate].
    unfold grid_radius in L. simpl INR in L. lra.
Qed.
Lemma seen_copies f X : proper_box f -> ~ unbounded_domain f -> seen f (video_basis f) X ->
  exists Y, In Y (video_copies f) /\ forall l, (l < 3)%nat -> Y l = X l.
Proof.
  intros P N [_ S]. destruct (S N) as [(a & c & Ha & Hc & EX) (e & E1 & E2 & E3)].
  pose proof (box_pos f P N) as BP.
  destruct (cube_root (vsub (f_tr f) (f_bl f) 0%nat * vsub (f_tr f) (f_bl f) 1%nat * vsub (f_tr f) (f_bl f) 2%nat)) as [C1 C2].
  { pose proof (BP 0%nat ltac:(lia)). pose proof (BP 1%nat ltac:(lia)). pose proof (BP 2%nat ltac:(lia)). apply Rmult_lt_0_compat; [apply Rmult_lt_0_compat|]; assumption. }
  assert (EE : e = Rpower (vsub (f_tr f) (f_bl f) 0%nat * vsub (f_tr f) (f_bl f) 1%nat * vsub (f_tr f) (f_bl f) 2%nat) (1 / 3)).
  { apply cube_unique; [exact E1|exact C1|]. rewrite E2, C2. reflexivity. }
  assert (EY : forall l, (l < 3)%nat -> rowmul (v3 (IZR a) 0 (IZR c)) (video_basis f) l = X l).
  { intros l Hl. rewrite EX by exact Hl. unfold rowmul. cbn [rsum v3]. ring. }
  exists (rowmul (v3 (IZR a) 0 (IZR c)) (video_basis f)). split; [|exact EY].
  unfold video_copies. apply filter_In. split.
  - apply (in_map (fun n => rowmul n (video_basis f))). apply grid_member. exists a, c. auto.
  - unfold Rleb. destruct (Rle_dec _ _) as [L|L]; [reflexivity|]. exfalso. apply L. rewrite (norm_ext _ X EY).
    unfold grid_radius. simpl INR. rewrite <- EE. lra.
Qed.

(** ** A picture *)
Section Frame.
Variables Ns Nd : nat.
Variable s : list snapshot.
Variable fs : list fsnapshot.
Variables every start : Z.
Variable flow_at : R -> res flow.

Definition frame_of_picture (row : snapshot) (F : nat -> vec) (f : flow) (pic : picture) : Prop :=
  pictured Ns (seen f (video_basis f)) row F (pic_discs pic) /\
  (unbounded_domain f -> length (pic_discs pic) = Ns /\ pic_box pic = None) /\
  (~ unbounded_domain f -> pic_box pic = Some (video_box f)).

Lemma frame_shown num_frames k row frc f :
  Nd = 0%nat ->
  py_row s (k * every + start)%Z = Ok row ->
  py_row fs (if (k =? num_frames - 1)%Z then k - 1 else k)%Z = Ok frc ->
  flow_at (IZR (k * every + start)) = Ok f -> proper_box f ->
  exists pic, video_frame Ns Nd s fs every start flow_at num_frames k = Ok pic /\ frame_of_picture row (n_Fa frc) f pic.
Proof.
  intros HD HR HF HI HB. unfold video_frame. rewrite HR. cbn [bind]. rewrite HF. cbn [bind]. rewrite HI. cbn [bind]. subst Nd. change (Nat.ltb 0 0) with false. cbv iota.
  eexists. split; [reflexivity|]. unfold frame_of_picture. cbn [pic_discs pic_box].
  assert (NP : Rltb 0 (norm (vsub (f_tr f) (f_bl f))) = true <-> ~ unbounded_domain f).
  { unfold Rltb. rewrite box_zero. destruct (Rlt_dec _ _); split; intros; try discriminate; try reflexivity; lra. }
  destruct (Rltb 0 (norm (vsub (f_tr f) (f_bl f)))) eqn:PB.
  - assert (NU : ~ unbounded_domain f) by (apply NP; reflexivity). split; [|split; [intros; contradiction|reflexivity]].
    rewrite discs_copies.
    assert (G : pictured Ns (seen f (video_basis f)) row (n_Fa frc) (flat_map (fun Y => map (sphere_disc row (n_Fa frc) Y) (seq 0 Ns)) (video_copies f))).
    { apply copies_pictured; intros X; [apply copies_seen|apply seen_copies]; assumption. }
    destruct (Nat.ltb_spec 0 Ns) as [L|L]; [exact G|]. split; [intros d []|]. intros i X Hi. lia.
  - assert (U : unbounded_domain f).
    { apply box_zero. unfold Rltb in PB. destruct (Rlt_dec _ _); [discriminate|]. lra. }
    split; [|split; [intros _|intros; contradiction]].
    + assert (G : pictured Ns (seen f (video_basis f)) row (n_Fa frc)
        (plot_all_spheres (repeat 1 Ns) (rows_of Ns (n_pos row)) (rows_of Ns (n_rot row)) (rows_of Ns (n_Fa frc)))).
      { apply free_pictured. intros X. unfold seen. tauto. }
      destruct (Nat.ltb_spec 0 Ns) as [L|L]; [exact G|]. split; [intros d []|]. intros i X Hi. lia.
    + split; [|reflexivity]. destruct (Nat.ltb_spec 0 Ns) as [L|L]; [|simpl; lia]. rewrite discs_free, map_length, seq_length. reflexivity.
Qed.
End Frame.
