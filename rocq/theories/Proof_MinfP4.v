(** The lattice handed to the loop, and the returned periodic mobility. *)
From Coq Require Import Reals Arith Bool List Lia Lra ZArith Permutation FunctionalExtensionality.
From Verif Require Import Base Model_Pack Model_Mob Model_Layout Model_Minf Model_Close Model_L Model_Ewald Model_MinfP
  Spec_Layout Spec_Minf Spec_MinfP Spec_Calc Proof_Fold Proof_Layout Proof_Calc Proof_Mob Proof_Mob2
  Proof_Minf Proof_L Proof_Minf2 Proof_Minf3 Proof_Close Proof_MinfP1 Proof_MinfP2 Proof_MinfP3.
Import ListNotations.
Local Open Scope R_scope.

(** ** Reflection of the lattice *)
Lemma grid_reflect h : Permutation (map Ropp (gridpoints h)) (gridpoints h).
Proof.
  unfold gridpoints. rewrite map_map.
  replace (map (fun x => - (INR x - INR h)) (seq 0 (2 * h + 1)))
    with (map (fun n => INR n - INR h) (map (fun n => (2 * h - n)%nat) (seq 0 (2 * h + 1)))).
  - apply Permutation_map. apply NoDup_Permutation.
    + apply NoDup_nth with (d := 0%nat). rewrite map_length, seq_length. intros i j Hi Hj.
      rewrite !(nth_indep _ 0%nat ((fun n => (2 * h - n)%nat) 0%nat)) by (rewrite map_length, seq_length; assumption).
      rewrite !(map_nth (fun n => (2 * h - n)%nat)), !seq_nth by assumption. lia.
    + apply seq_NoDup.
    + intros n. rewrite in_map_iff, in_seq. split.
      * intros (m & <- & H). apply in_seq in H. lia.
      * intros H. exists (2 * h - n)%nat. rewrite in_seq. lia.
  - rewrite map_map. apply map_ext_in. intros n H. apply in_seq in H.
    rewrite minus_INR by lia. rewrite mult_INR. simpl. ring.
Qed.

Lemma flat_reflect (F : R -> list vec) l :
  (forall x, Permutation (map vopp (F x)) (F (- x))) ->
  Permutation (map vopp (flat_map F l)) (flat_map F (map Ropp l)).
Proof.
  intros H. induction l as [|x l IH]; simpl; [constructor|].
  rewrite map_app. apply Permutation_app; [apply H|exact IH].
Qed.
Lemma flat_reflect2 (F : R -> list vec) l : Permutation (map Ropp l) l ->
  (forall x, Permutation (map vopp (F x)) (F (- x))) -> reflected (flat_map F l).
Proof.
  intros Hl H. unfold reflected. rewrite (flat_reflect F l H). apply Permutation_flat_map. exact Hl.
Qed.
Lemma vopp_v3 x y z : vopp (v3 x y z) = v3 (- x) (- y) (- z).
Proof. apply functional_extensionality. intros [|[|[|n]]]; unfold vopp; simpl; ring. Qed.

Lemma canonical_reflected h : reflected (X_canonical h).
Proof.
  unfold X_canonical. apply flat_reflect2; [apply grid_reflect|]. intros l.
  apply (Permutation_trans (l' := flat_map (fun m => map (fun n => v3 (- l) m n) (gridpoints h)) (map Ropp (gridpoints h))));
    [|apply Permutation_flat_map, grid_reflect].
  generalize (gridpoints h) at 2 4. intros g. induction g as [|m g IH]; simpl; [constructor|].
  rewrite map_app. apply Permutation_app; [|exact IH].
  rewrite map_map.
  rewrite (map_ext (fun x => vopp (v3 l m x)) (fun x => v3 (- l) (- m) (- x))) by (intros; apply vopp_v3).
  rewrite <- (map_map Ropp (fun x => v3 (- l) (- m) x)). apply Permutation_map, grid_reflect.
Qed.

Lemma filter_map_comm {A B} (f : A -> B) (t : B -> bool) l : filter t (map f l) = map f (filter (fun x => t (f x)) l).
Proof. induction l as [|x l IH]; simpl; [reflexivity|]. destruct (t (f x)); simpl; rewrite IH; reflexivity. Qed.
Lemma Permutation_filter' {A} (t : A -> bool) l l' : Permutation l l' -> Permutation (filter t l) (filter t l').
Proof.
  induction 1; simpl.
  - constructor.
  - destruct (t x); [constructor|]; assumption.
  - destruct (t x), (t y); try apply Permutation_refl. constructor.
  - eapply Permutation_trans; eassumption.
Qed.
Lemma filter_reflected t l : (forall X, t (vopp X) = t X) -> reflected l -> reflected (filter t l).
Proof.
  intros Ht H. unfold reflected.
  rewrite <- (filter_ext (fun X => t (vopp X)) t Ht l) at 1.
  rewrite <- filter_map_comm. apply Permutation_filter'. exact H.
Qed.
Lemma map_reflected f l : (forall X, f (vopp X) = vopp (f X)) -> reflected l -> reflected (map f l).
Proof.
  intros Hf H. unfold reflected. rewrite map_map.
  rewrite <- (map_ext (fun X => f (vopp X)) (fun X => vopp (f X)) Hf), <- map_map. apply Permutation_map. exact H.
Qed.
Lemma rowmul_vopp n B : rowmul (vopp n) B = vopp (rowmul n B).
Proof. apply functional_extensionality. intros j. unfold rowmul, vopp. cbn [rsum]. ring. Qed.

Section Lattice.
Variables (h : nat) (bl tr Ot : vec) (Et : mat).
Let lat := build_lattice h bl tr Ot Et.

Lemma X_reflected : reflected (X_lmn lat).
Proof.
  unfold lat, build_lattice. cbn [X_lmn]. apply filter_reflected; [intros X; rewrite norm_vopp; reflexivity|].
  apply map_reflected; [intros; apply rowmul_vopp|apply canonical_reflected].
Qed.
Lemma Xdash_reflected : reflected (Xdash_lmn lat).
Proof.
  unfold lat, build_lattice. cbn [Xdash_lmn].
  apply filter_reflected; [intros X; rewrite norm_vopp; reflexivity|exact X_reflected].
Qed.
Lemma K_reflected : reflected (K_lmn lat).
Proof.
  unfold lat, build_lattice. cbn [K_lmn]. apply map_reflected; [intros; apply rowmul_vopp|].
  apply filter_reflected; [intros X; rewrite !rowmul_vopp, !norm_vopp; reflexivity|apply canonical_reflected].
Qed.
End Lattice.

(** ** The returned matrix *)
Definition minfP_loop h bb p bl tr mu Ot Et st :=
  generate_Minfinity_periodic_loop (build_lattice h bl tr Ot Et) bb (bead_positions p) (bead_sizes p)
    (num_spheres p) (num_dumbbells p) (1 / (8 * PI * mu)) mu st.
Notation side p := (11 * num_spheres p + 6 * num_dumbbells p)%nat (only parsing).
Notation nbeads p := (num_spheres p + 2 * num_dumbbells p)%nat (only parsing).

Lemma genP_transform h bb p bl tr mu Ot Et st r t : (r < side p)%nat -> (t < side p)%nat ->
  generate_Minfinity_periodic h bb p bl tr mu Ot Et st r t =
  minf_transform (num_spheres p) (num_dumbbells p) (minfP_loop h bb p bl tr mu Ot Et st) r t.
Proof.
  intros Hr Ht. unfold generate_Minfinity_periodic. cbv zeta.
  fold (minfP_loop h bb p bl tr mu Ot Et st).
  destruct (Nat.ltb_spec 0 (num_dumbbells p)) as [H|H]; [reflexivity|].
  unfold minf_transform.
  rewrite (LML_entry _ _ _ _ (minf_L_closed _ _)) by assumption.
  unfold Lact. destruct (Nat.ltb_spec t (11 * num_spheres p)); [|lia].
  destruct (Nat.ltb_spec r (11 * num_spheres p)); [reflexivity|lia].
Qed.

Lemma genP_sym h bb p bl tr mu Ot Et st : msym (side p) (generate_Minfinity_periodic h bb p bl tr mu Ot Et st).
Proof.
  intros r t Hr Ht. rewrite !genP_transform by assumption. unfold minf_transform.
  apply LML_sym; try assumption. apply loopP_sym.
Qed.

(** Entries of the loop matrix on or above the diagonal, block by block, give
    properties of all entries. *)
Lemma loopP_ind Ns Nd (M M' : mat) (P : R -> R -> Prop) :
  msym (11 * Ns + 6 * Nd) M -> msym (11 * Ns + 6 * Nd) M' ->
  (forall k1 p k2 q i j, kvalid Ns Nd k1 p -> kvalid Ns Nd k2 q -> (i < ksize k1)%nat -> (j < ksize k2)%nat ->
     (kstart Ns k1 p + i <= kstart Ns k2 q + j)%nat -> P (ent Ns M k1 p k2 q i j) (ent Ns M' k1 p k2 q i j)) ->
  forall r t, (r < 11 * Ns + 6 * Nd)%nat -> (t < 11 * Ns + 6 * Nd)%nat -> P (M r t) (M' r t).
Proof.
  intros S S' H.
  assert (Up : forall r t, (r < 11 * Ns + 6 * Nd)%nat -> (t < 11 * Ns + 6 * Nd)%nat -> (r <= t)%nat -> P (M r t) (M' r t)).
  { intros r t Hr Ht Hle.
    destruct (block_cover Ns Nd r Hr) as (k1 & p & i & V1 & Hi & ->).
    destruct (block_cover Ns Nd t Ht) as (k2 & q & j & V2 & Hj & ->).
    exact (H k1 p k2 q i j V1 V2 Hi Hj Hle). }
  intros r t Hr Ht. destruct (le_lt_dec r t) as [Hle|Hlt]; [apply Up; assumption|].
  rewrite (S r t Hr Ht), (S' r t Hr Ht). apply Up; try assumption. lia.
Qed.

Lemma transform_cong Ns Nd M M' k r t : (r < 11 * Ns + 6 * Nd)%nat -> (t < 11 * Ns + 6 * Nd)%nat ->
  (forall r t, (r < 11 * Ns + 6 * Nd)%nat -> (t < 11 * Ns + 6 * Nd)%nat -> M r t = k * M' r t) ->
  minf_transform Ns Nd M r t = k * minf_transform Ns Nd M' r t.
Proof.
  intros Hr Ht H. unfold minf_transform. rewrite !(LML_entry _ _ _ _ (minf_L_closed _ _)) by assumption.
  rewrite <- Lact_scal. apply Lact_ext; [assumption|]. intros l Hl. cbv beta.
  rewrite <- Lact_scal. apply Lact_ext; [assumption|]. intros m Hm. cbv beta. apply H; assumption.
Qed.

(** The left-over erfcs have no influence. *)
Lemma genP_stale h bb p bl tr mu Ot Et st st' r t : (r < side p)%nat -> (t < side p)%nat ->
  generate_Minfinity_periodic h bb p bl tr mu Ot Et st r t = generate_Minfinity_periodic h bb p bl tr mu Ot Et st' r t.
Proof.
  intros Hr Ht. rewrite !genP_transform by assumption.
  rewrite <- (Rmult_1_l (minf_transform _ _ (minfP_loop _ _ _ _ _ _ _ _ st') r t)).
  apply transform_cong; try assumption. clear r t Hr Ht. intros r t Hr Ht. rewrite Rmult_1_l. revert r t Hr Ht.
  apply (loopP_ind _ _ _ _ eq); [apply loopP_sym|apply loopP_sym|].
  intros k1 b k2 b' i j V1 V2 Hi Hj Hle. unfold minfP_loop.
  rewrite !loopP_upper by (try assumption; apply X_reflected). reflexivity.
Qed.

Lemma genP_entry h bb p bl tr mu Ot Et st k1 b k2 b' i j :
  apart (build_lattice h bl tr Ot Et) (nbeads p) (bead_positions p) (bead_sizes p) ->
  kvalid (num_spheres p) (num_dumbbells p) k1 b -> kvalid (num_spheres p) (num_dumbbells p) k2 b' ->
  (i < ksize k1)%nat -> (j < ksize k2)%nat ->
  ent (num_spheres p) (minfP_loop h bb p bl tr mu Ot Et st) k1 b k2 b' i j =
  periodic_bead_mobility (build_lattice h bl tr Ot Et) bb (num_dumbbells p)
    (fun p' q => pair_geometry (bead_positions p p') (bead_positions p q) (bead_sizes p p') (bead_sizes p q))
    (bead_sizes p) (1 / (8 * PI * mu)) mu k1 b k2 b' i j.
Proof. intros HA V1 V2 Hi Hj. unfold minfP_loop. apply loopP_entry; try assumption. apply X_reflected. Qed.

(** ** Translation *)
Lemma pair_geometry_translate d p u v :
  pair_geometry (bead_positions (translate d p) u) (bead_positions (translate d p) v) (bead_sizes p u) (bead_sizes p v)
  = pair_geometry (bead_positions p u) (bead_positions p v) (bead_sizes p u) (bead_sizes p v).
Proof.
  unfold pair_geometry. rewrite !bead_positions_translate.
  replace (vsub (vadd (bead_positions p u) d) (vadd (bead_positions p v) d)) with (vsub (bead_positions p u) (bead_positions p v)).
  - reflexivity.
  - apply functional_extensionality. intros i. unfold vsub, vadd. ring.
Qed.

Lemma genP_translate h bb p bl tr mu Ot Et st d r t : (r < side p)%nat -> (t < side p)%nat ->
  generate_Minfinity_periodic h bb (translate d p) bl tr mu Ot Et st r t = generate_Minfinity_periodic h bb p bl tr mu Ot Et st r t.
Proof.
  intros Hr Ht. rewrite !genP_transform by assumption. simpl num_spheres; simpl num_dumbbells.
  rewrite <- (Rmult_1_l (minf_transform _ _ (minfP_loop _ _ p _ _ _ _ _ st) r t)).
  apply transform_cong; try assumption. clear r t Hr Ht. intros r t Hr Ht. rewrite Rmult_1_l. revert r t Hr Ht.
  apply (loopP_ind _ _ _ _ eq); [apply loopP_sym|apply loopP_sym|].
  intros k1 b k2 b' i j V1 V2 Hi Hj Hle. unfold minfP_loop. simpl num_spheres; simpl num_dumbbells.
  rewrite !loopP_upper by (try assumption; apply X_reflected).
  unfold periodic_bead_mobility. change (bead_sizes (translate d p)) with (bead_sizes p).
  rewrite !pair_geometry_translate. reflexivity.
Qed.

(** ** Viscosity *)
Section Mu.
Variables (lat : lattice) (k c mu : R).
Let D n d1 d2 : d1 = k * d2 -> n / d1 = / k * (n / d2).
Proof. intros ->. unfold Rdiv. rewrite Rinv_mult. ring. Qed.

Lemma ar_mu r s a1 a2 i j e : ar r s a1 a2 i j e (/ k * c) (k * mu) = / k * ar r s a1 a2 i j e c mu.
Proof. unfold ar. destruct (Rlt_dec tiny s); [ring|apply D; ring]. Qed.
Lemma btr_mu r s a1 a2 i j e : btr r s a1 a2 i j e (/ k * c) (k * mu) = / k * btr r s a1 a2 i j e c mu.
Proof. unfold btr. destruct (Rlt_dec tiny s); ring. Qed.
Lemma gtr_mu r s a1 a2 i j l e : gtr r s a1 a2 i j l e (/ k * c) (k * mu) = / k * gtr r s a1 a2 i j l e c mu.
Proof. unfold gtr. destruct (Rlt_dec tiny s); ring. Qed.
Lemma cr_mu r s a1 a2 i j e : cr r s a1 a2 i j e (/ k * c) (k * mu) = / k * cr r s a1 a2 i j e c mu.
Proof. unfold cr. destruct (Rle_dec _ tiny); [apply D; ring|cbv zeta; ring]. Qed.
Lemma htr_mu r s a1 a2 i j l e : htr r s a1 a2 i j l e (/ k * c) (k * mu) = / k * htr r s a1 a2 i j l e c mu.
Proof. unfold htr. destruct (Rlt_dec tiny _); cbv zeta; ring. Qed.
Lemma mr_mu r s a1 a2 i j l m e : mr r s a1 a2 i j l m e (/ k * c) (k * mu) = / k * mr r s a1 a2 i j l m e c mu.
Proof. unfold mr. destruct (Rlt_dec tiny s); [ring|apply D; ring]. Qed.
Lemma ak_mu K s a1 a2 i j RR : aktilde K s a1 a2 i j RR (/ k * c) = / k * aktilde K s a1 a2 i j RR c.
Proof. unfold aktilde. ring. Qed.
Lemma ck_mu K s a1 a2 i j RR : cktilde K s a1 a2 i j RR (/ k * c) = / k * cktilde K s a1 a2 i j RR c.
Proof. unfold cktilde. cbv zeta. ring. Qed.
Lemma hk_mu K s a1 a2 i j l RR : htktilde K s a1 a2 i j l RR (/ k * c) = / k * htktilde K s a1 a2 i j l RR c.
Proof. unfold htktilde. cbv zeta. ring. Qed.
Lemma mk_mu K s a1 a2 i j l m RR : mktilde K s a1 a2 i j l m RR (/ k * c) = / k * mktilde K s a1 a2 i j l m RR c.
Proof. unfold mktilde. ring. Qed.

Lemma vsum_cong l f g : (forall X, f X = / k * g X) -> vsum l f = / k * vsum l g.
Proof. intros H. rewrite <- vsum_scal. apply vsum_ext. intros X _. apply H. Qed.
Lemma vsum_cos l r f g : (forall X, f X = / k * g X) ->
  vsum l (fun K => cos (dot3 K r) * f K) = / k * vsum l (fun K => cos (dot3 K r) * g K).
Proof. intros H. apply vsum_cong. intros X. rewrite H. ring. Qed.

Lemma M11P_mu i j r s a1 a2 e sl : M11P lat i j r s a1 a2 e (/ k * c) (k * mu) sl = / k * M11P lat i j r s a1 a2 e c mu sl.
Proof.
  unfold M11P. destruct (Rlt_dec tiny s); cbv zeta.
  - rewrite (vsum_cong (X_lmn lat) _ _ (fun X => ar_mu _ _ _ _ _ _ _)).
    rewrite (vsum_cos (K_lmn lat) r _ _ (fun X => ak_mu _ _ _ _ _ _ _)). ring.
  - rewrite ar_mu, (vsum_cong (Xdash_lmn lat) _ _ (fun X => ar_mu _ _ _ _ _ _ _)).
    rewrite (vsum_cong (K_lmn lat) _ _ (fun X => ak_mu _ _ _ _ _ _ _)). ring.
Qed.
Lemma M12P_mu i j r s a1 a2 sl : M12P lat i j r s a1 a2 (/ k * c) (k * mu) sl = / k * M12P lat i j r s a1 a2 c mu sl.
Proof.
  unfold M12P. destruct (Rlt_dec tiny s); [|ring]. apply (vsum_cong (X_lmn lat) _ _ (fun X => btr_mu _ _ _ _ _ _ _)).
Qed.
Lemma M13P_mu i j l r s a1 a2 sl : M13P lat i j l r s a1 a2 (/ k * c) (k * mu) sl = / k * M13P lat i j l r s a1 a2 c mu sl.
Proof.
  unfold M13P. destruct (Rlt_dec tiny s); [|ring]. apply (vsum_cong (X_lmn lat) _ _ (fun X => gtr_mu _ _ _ _ _ _ _ _)).
Qed.
Lemma M22P_mu i j r s a1 a2 e sl : M22P lat i j r s a1 a2 e (/ k * c) (k * mu) sl = / k * M22P lat i j r s a1 a2 e c mu sl.
Proof.
  unfold M22P. destruct (Rlt_dec tiny s); cbv zeta.
  - rewrite (vsum_cong (X_lmn lat) _ _ (fun X => cr_mu _ _ _ _ _ _ _)).
    rewrite (vsum_cos (K_lmn lat) r _ _ (fun X => ck_mu _ _ _ _ _ _ _)). ring.
  - rewrite cr_mu, (vsum_cong (Xdash_lmn lat) _ _ (fun X => cr_mu _ _ _ _ _ _ _)).
    rewrite (vsum_cong (K_lmn lat) _ _ (fun X => ck_mu _ _ _ _ _ _ _)). ring.
Qed.
Lemma M23P_mu i j l r s a1 a2 sl : M23P lat i j l r s a1 a2 (/ k * c) (k * mu) sl = / k * M23P lat i j l r s a1 a2 c mu sl.
Proof.
  unfold M23P. destruct (Rlt_dec tiny s); cbv zeta.
  - rewrite (vsum_cong (X_lmn lat) _ _ (fun X => htr_mu _ _ _ _ _ _ _ _)).
    rewrite (vsum_cos (K_lmn lat) r _ _ (fun X => hk_mu _ _ _ _ _ _ _ _)). ring.
  - rewrite (vsum_cong (Xdash_lmn lat) _ _ (fun X => htr_mu _ _ _ _ _ _ _ _)).
    rewrite (vsum_cong (K_lmn lat) _ _ (fun X => hk_mu _ _ _ _ _ _ _ _)). ring.
Qed.
Lemma M33P_mu i j l m r s a1 a2 e sl : M33P lat i j l m r s a1 a2 e (/ k * c) (k * mu) sl = / k * M33P lat i j l m r s a1 a2 e c mu sl.
Proof.
  unfold M33P. destruct (Rlt_dec tiny s); cbv zeta.
  - rewrite (vsum_cong (X_lmn lat) _ _ (fun X => mr_mu _ _ _ _ _ _ _ _ _)).
    rewrite (vsum_cos (K_lmn lat) r _ _ (fun X => mk_mu _ _ _ _ _ _ _ _ _)). ring.
  - rewrite mr_mu, (vsum_cong (Xdash_lmn lat) _ _ (fun X => mr_mu _ _ _ _ _ _ _ _ _)).
    rewrite (vsum_cong (K_lmn lat) _ _ (fun X => mk_mu _ _ _ _ _ _ _ _ _)). ring.
Qed.

Lemma periodic_pair_mu k1 k2 r s ap aq i j :
  periodic_pair lat k1 k2 r s ap aq (/ k * c) (k * mu) i j = / k * periodic_pair lat k1 k2 r s ap aq c mu i j.
Proof.
  destruct k1, k2; unfold periodic_pair; cbv zeta;
    lazymatch goal with
    | |- M11P _ _ _ _ _ _ _ _ _ _ _ = _ => apply M11P_mu
    | |- M12P _ _ _ _ _ _ _ _ _ _ = _ => apply M12P_mu
    | |- M22P _ _ _ _ _ _ _ _ _ _ _ = _ => apply M22P_mu
    | |- condense_idx (fun x y => M13P _ _ _ _ _ _ _ _ _ _ _) _ = _ =>
        rewrite <- condense_scal; apply condense_ext; intros; apply M13P_mu
    | |- condense_idx (fun x y => M23P _ _ _ _ _ _ _ _ _ _ _) _ = _ =>
        rewrite <- condense_scal; apply condense_ext; intros; apply M23P_mu
    | |- _ => idtac
    end.
  rewrite <- condense_scal. apply condense_ext. intros. rewrite <- condense_scal. apply condense_ext. intros.
  apply M33P_mu.
Qed.
End Mu.

Lemma genP_mu h bb p bl tr mu Ot Et st k r t : (r < side p)%nat -> (t < side p)%nat ->
  generate_Minfinity_periodic h bb p bl tr (k * mu) Ot Et st r t = / k * generate_Minfinity_periodic h bb p bl tr mu Ot Et st r t.
Proof.
  intros Hr Ht. rewrite !genP_transform by assumption.
  apply transform_cong; try assumption. clear r t Hr Ht.
  apply (loopP_ind _ _ _ _ (fun x y => x = / k * y)); [apply loopP_sym|apply loopP_sym|].
  intros k1 b k2 b' i j V1 V2 Hi Hj Hle. unfold minfP_loop.
  rewrite !loopP_upper by (try assumption; apply X_reflected).
  replace (1 / (8 * PI * (k * mu))) with (/ k * (1 / (8 * PI * mu))) by (unfold Rdiv; rewrite !Rinv_mult; ring).
  unfold periodic_bead_mobility.
  destruct k1, k2; destruct (bb || same_dumbbell (num_dumbbells p) b b')%bool; cbn [mixed];
    first [apply periodic_pair_mu | ring].
Qed.
