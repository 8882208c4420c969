(** The grand resistance matrix of a turned configuration. *)
From Coq Require Import Reals Arith Bool List Lia Lra FunctionalExtensionality.
From Verif Require Import Base Py Model_Pack Model_Mob Model_Layout Model_Minf Model_L Model_Grand Model_Close Model_R2B Model_GrandP
  Spec_Layout Spec_Minf Spec_R2B Spec_Close Spec_Rotate
  Proof_Layout Proof_Minf3 Proof_R2B3 Proof_R2B4 Proof_Close Proof_GrandP
  Proof_Rotate1 Proof_Rotate2 Proof_Rotate3 Proof_Rotate4 Proof_Rotate5 Proof_Rotate6 Proof_Rotate7.
Import ListNotations.
Local Open Scope R_scope.

Section Grand.
Variable Q : mat.
Hypothesis HQ : orthogonal Q.
Notation T := (tmat Q).

(** [M'] acts on turned vectors as [M] does on the vectors themselves. *)
Definition commutes (Ns Nd : nat) (M M' : mat) : Prop :=
  forall f r, (r < 11 * Ns + 6 * Nd)%nat ->
    mvec (11 * Ns + 6 * Nd) M' (turn_vec Q Ns f) r = turn_vec Q Ns (mvec (11 * Ns + 6 * Nd) M f) r.

Lemma turn_ext Ns Nd f g r : (forall t, (t < 11 * Ns + 6 * Nd)%nat -> f t = g t) -> (r < 11 * Ns + 6 * Nd)%nat ->
  turn_vec Q Ns f r = turn_vec Q Ns g r.
Proof.
  intros H Hr. destruct (block_cover Ns Nd r Hr) as (k & p & i & V & Hi & ->). rewrite !(turn_at Q Ns Nd) by assumption.
  apply rsum_ext. intros a Ha. rewrite H by (apply block_range; assumption). reflexivity.
Qed.
Lemma turn_add Ns Nd f g r : (r < 11 * Ns + 6 * Nd)%nat ->
  turn_vec Q Ns (fun t => f t + g t) r = turn_vec Q Ns f r + turn_vec Q Ns g r.
Proof.
  intros Hr. destruct (block_cover Ns Nd r Hr) as (k & p & i & V & Hi & ->). rewrite !(turn_at Q Ns Nd) by assumption.
  rewrite <- rsum_plus. apply rsum_ext. intros. ring.
Qed.
Lemma commutes_add Ns Nd A A' B B' : commutes Ns Nd A A' -> commutes Ns Nd B B' -> commutes Ns Nd (madd A B) (madd A' B').
Proof.
  intros HA HB f r Hr.
  assert (E : forall X Y f r, mvec (11 * Ns + 6 * Nd) (madd X Y) f r = mvec (11 * Ns + 6 * Nd) X f r + mvec (11 * Ns + 6 * Nd) Y f r).
  { intros. unfold mvec, madd. rewrite <- rsum_plus. apply rsum_ext. intros. ring. }
  rewrite E, HA, HB by assumption. rewrite <- (turn_add Ns Nd) by assumption. apply (turn_ext Ns Nd); [|assumption]. intros. symmetry. apply E.
Qed.
Lemma commutes_inv Ns Nd M M' I I' : is_inv (11 * Ns + 6 * Nd) M I -> is_inv (11 * Ns + 6 * Nd) M' I' ->
  commutes Ns Nd M M' -> commutes Ns Nd I I'.
Proof.
  intros HI HI' H f r Hr. set (N := (11 * Ns + 6 * Nd)%nat) in *.
  set (g := mvec N I f).
  assert (G : forall i, (i < N)%nat -> f i = mvec N M g i).
  { apply (proj2 (is_inv_mvec N M I g f HI)). intros. reflexivity. }
  symmetry. revert r Hr. apply (proj1 (is_inv_mvec N M' I' (turn_vec Q Ns g) (turn_vec Q Ns f) HI')).
  intros i Hi. unfold N. rewrite H by exact Hi. apply (turn_ext Ns Nd); [exact G|exact Hi].
Qed.

Definition drag_of (p : posdata) (k : kind) (b : nat) : R :=
  match k with
  | KU => sphere_sizes p b
  | KO => 1 / (3 / 4) * sphere_sizes p b ^ 3
  | KS => 1 / (9 / 10) * sphere_sizes p b ^ 3
  | KB => 2 * dumbbell_sizes p (if Nat.ltb b (num_spheres p + num_dumbbells p) then b - num_spheres p else b - num_spheres p - num_dumbbells p)
  end.
Lemma drag_ent p mu k1 b1 k2 b2 i j : kvalid (num_spheres p) (num_dumbbells p) k1 b1 -> kvalid (num_spheres p) (num_dumbbells p) k2 b2 ->
  (i < ksize k1)%nat -> (j < ksize k2)%nat ->
  ent (num_spheres p) (drag_Minfinity_inverse p mu) k1 b1 k2 b2 i j
  = if Nat.eqb (kstart (num_spheres p) k1 b1 + i) (kstart (num_spheres p) k2 b2 + j) then mu * drag_of p k1 b1 else 0.
Proof.
  intros V1 V2 Hi Hj. unfold ent, drag_Minfinity_inverse. destruct (Nat.eqb _ _); [|ring]. f_equal.
  set (Ns := num_spheres p) in *. set (Nd := num_dumbbells p) in *. unfold drag_of. fold Ns Nd.
  destruct k1; cbn [kvalid ksize kstart] in *.
  - destruct (Nat.ltb_spec (3 * b1 + i) (3 * Ns)); [|lia]. rewrite (proj1 (divmod3 b1 i Hi)). reflexivity.
  - destruct (Nat.ltb_spec (3 * Ns + 3 * b1 + i) (3 * Ns)); [lia|]. destruct (Nat.ltb_spec (3 * Ns + 3 * b1 + i) (6 * Ns)); [|lia].
    replace (3 * Ns + 3 * b1 + i - 3 * Ns)%nat with (3 * b1 + i)%nat by lia. rewrite (proj1 (divmod3 b1 i Hi)). reflexivity.
  - destruct (Nat.ltb_spec (6 * Ns + 5 * b1 + i) (3 * Ns)); [lia|]. destruct (Nat.ltb_spec (6 * Ns + 5 * b1 + i) (6 * Ns)); [lia|].
    destruct (Nat.ltb_spec (6 * Ns + 5 * b1 + i) (11 * Ns)); [|lia].
    replace (6 * Ns + 5 * b1 + i - 6 * Ns)%nat with (5 * b1 + i)%nat by lia. rewrite (proj1 (divmod5 b1 i Hi)). reflexivity.
  - destruct (Nat.ltb_spec (11 * Ns + 3 * (b1 - Ns) + i) (3 * Ns)); [lia|]. destruct (Nat.ltb_spec (11 * Ns + 3 * (b1 - Ns) + i) (6 * Ns)); [lia|].
    destruct (Nat.ltb_spec (11 * Ns + 3 * (b1 - Ns) + i) (11 * Ns)); [lia|].
    destruct (Nat.ltb_spec (11 * Ns + 3 * (b1 - Ns) + i) (11 * Ns + 3 * Nd)), (Nat.ltb_spec b1 (Ns + Nd)); try lia.
    + replace (11 * Ns + 3 * (b1 - Ns) + i - 11 * Ns)%nat with (3 * (b1 - Ns) + i)%nat by lia. rewrite (proj1 (divmod3 (b1 - Ns) i Hi)). reflexivity.
    + replace (11 * Ns + 3 * (b1 - Ns) + i - 11 * Ns - 3 * Nd)%nat with (3 * (b1 - Ns - Nd) + i)%nat by lia.
      rewrite (proj1 (divmod3 (b1 - Ns - Nd) i Hi)). reflexivity.
Qed.
Lemma drag_blocks p mu : blocks_turned Q (num_spheres p) (num_dumbbells p) (drag_Minfinity_inverse p mu) (drag_Minfinity_inverse (turned Q p) mu).
Proof.
  change (drag_Minfinity_inverse (turned Q p) mu) with (drag_Minfinity_inverse p mu).
  intros k1 b1 k2 b2 i j V1 V2 Hi Hj. rewrite drag_ent by assumption.
  rewrite (turned_block_ext Q k1 k2 _ (fun s t => if Nat.eqb (kstart (num_spheres p) k1 b1 + s) (kstart (num_spheres p) k2 b2 + t) then mu * drag_of p k1 b1 else 0))
    by (intros; apply drag_ent; assumption).
  assert (D : (k1 = k2 /\ b1 = b2) \/ forall s t, (s < ksize k1)%nat -> (t < ksize k2)%nat -> (kstart (num_spheres p) k1 b1 + s <> kstart (num_spheres p) k2 b2 + t)%nat).
  { destruct (Nat.eq_dec b1 b2) as [<-|N].
    - assert (K : {k1 = k2} + {k1 <> k2}) by (decide equality). destruct K as [<-|K]; [left; auto|right].
      intros s t Hs Ht E. destruct (block_inj _ _ _ _ _ _ _ _ V1 V2 Hs Ht E) as [A _]. contradiction.
    - right. intros s t Hs Ht E. destruct (block_inj _ _ _ _ _ _ _ _ V1 V2 Hs Ht E) as (_ & A & _). contradiction. }
  destruct D as [[<- <-]|D].
  - unfold turned_block.
    transitivity (rsum (ksize k1) (fun a => T k1 i a * T k1 j a) * (mu * drag_of p k1 b1)).
    + rewrite (tmat_rows Q HQ) by assumption. unfold delta. destruct (Nat.eqb_spec (kstart (num_spheres p) k1 b1 + i) (kstart (num_spheres p) k1 b1 + j)), (Nat.eqb_spec i j); try lia; ring.
    + rewrite <- rsum_scal_r. apply rsum_ext. intros a Ha.
      rewrite (rsum_ext _ _ (fun b => delta a b * (T k1 i a * T k1 j b * (mu * drag_of p k1 b1)))).
      * rewrite rsum_delta_l by assumption. reflexivity.
      * intros b _. unfold delta. destruct (Nat.eqb_spec (kstart (num_spheres p) k1 b1 + a) (kstart (num_spheres p) k1 b1 + b)), (Nat.eqb_spec a b); try lia; ring.
  - destruct (Nat.eqb_spec (kstart (num_spheres p) k1 b1 + i) (kstart (num_spheres p) k2 b2 + j)) as [E|_]; [destruct (D i j Hi Hj E)|].
    symmetry. unfold turned_block. apply rsum_zero. intros s Hs. apply rsum_zero. intros t Ht.
    destruct (Nat.eqb_spec (kstart (num_spheres p) k1 b1 + s) (kstart (num_spheres p) k2 b2 + t)) as [E|_]; [destruct (D s t Hs Ht E)|ring].
Qed.

Section P.
Variables (inv : nat -> mat -> mat) (sc : nat -> nat -> R -> nat -> R) (table : list R) (bb : bool) (p : posdata) (cf mu : R).
Let Ns := num_spheres p.
Let Nd := num_dumbbells p.
Let N := (11 * Ns + 6 * Nd)%nat.
Hypothesis HD : distinct_beads (Ns + 2 * Nd) (bead_positions p) (bead_sizes p).

Lemma far_commutes : commutes Ns Nd (generate_Minfinity bb p mu) (generate_Minfinity bb (turned Q p) mu).
Proof. intros f r Hr. apply turned_mvec; [exact HQ| |exact Hr]. apply far_blocks; assumption. Qed.
Lemma near_commutes G G' : 0 < cf -> generate_R2Bexact_free sc table bb p cf mu = Some G ->
  generate_R2Bexact_free sc table bb (turned Q p) cf mu = Some G' -> commutes Ns Nd G G'.
Proof. intros Hcf HG HG' f r Hr. apply turned_mvec; [exact HQ| |exact Hr]. apply (near_blocks Q HQ sc table bb p cf mu Hcf HD); assumption. Qed.
Lemma drag_commutes : commutes Ns Nd (drag_Minfinity_inverse p mu) (drag_Minfinity_inverse (turned Q p) mu).
Proof. intros f r Hr. apply turned_mvec; [exact HQ| |exact Hr]. apply drag_blocks. Qed.

Lemma grand_turned last last' regenerate verbose use_drag minf_only :
  0 < cf ->
  (use_drag = false -> regenerate = true -> is_inv N (generate_Minfinity bb p mu) (inv N (generate_Minfinity bb p mu)) /\
      is_inv N (generate_Minfinity bb (turned Q p) mu) (inv N (generate_Minfinity bb (turned Q p) mu))) ->
  (use_drag = false -> regenerate = false -> commutes Ns Nd last last') ->
  match grand_resistance_free inv sc table bb p last regenerate cf verbose use_drag minf_only mu,
        grand_resistance_free inv sc table bb (turned Q p) last' regenerate cf verbose use_drag minf_only mu with
  | Ok (G, mi), Ok (G', mi') => commutes Ns Nd G G' /\ commutes Ns Nd mi mi'
  | Raise x, Raise y => x = y
  | _, _ => False
  end.
Proof.
  intros Hcf HI HL. unfold grand_resistance_free.
  assert (C : commutes Ns Nd (Minfinity_inverse inv bb p mu use_drag regenerate last) (Minfinity_inverse inv bb (turned Q p) mu use_drag regenerate last')).
  { unfold Minfinity_inverse. destruct use_drag; [apply drag_commutes|]. destruct regenerate; [|apply HL; reflexivity].
    destruct (HI eq_refl eq_refl) as [A B]. change (num_spheres (turned Q p)) with Ns. change (num_dumbbells (turned Q p)) with Nd. fold Ns Nd N.
    apply (commutes_inv Ns Nd _ _ _ _ A B far_commutes). }
  set (mi := Minfinity_inverse inv bb p mu use_drag regenerate last) in *. set (mi' := Minfinity_inverse inv bb (turned Q p) mu use_drag regenerate last') in *.
  clearbody mi mi'. unfold add_near, bind. destruct minf_only.
  - destruct (verbose && (use_drag || negb regenerate))%bool; [reflexivity|]. split; exact C.
  - pose proof (near_none Q HQ sc table bb p cf mu Hcf HD) as Z. pose proof (near_commutes) as K.
    destruct (generate_R2Bexact_free sc table bb p cf mu) as [G|]; destruct (generate_R2Bexact_free sc table bb (turned Q p) cf mu) as [G'|].
    + destruct (verbose && (use_drag || negb regenerate))%bool; [reflexivity|]. split; [|exact C].
      apply commutes_add; [|exact C]. apply K; [exact Hcf|reflexivity|reflexivity].
    + destruct Z as [Z _]. discriminate (Z eq_refl).
    + destruct Z as [_ Z]. discriminate (Z eq_refl).
    + reflexivity.
Qed.
End P.
End Grand.

(** Turning back. *)
Section Back.
Variable Q : mat.
Hypothesis HQ : orthogonal Q.
Lemma turn_back Ns Nd f r : (r < 11 * Ns + 6 * Nd)%nat -> turn_vec Q Ns (turn_vec (mtr Q) Ns f) r = f r.
Proof.
  intros Hr. destruct (block_cover Ns Nd r Hr) as (k & p & i & V & Hi & ->). rewrite (turn_at Q Ns Nd) by assumption.
  rewrite (rsum_ext _ _ (fun a => rsum (ksize k) (fun b => tmat Q k i a * tmat Q k b a * f (kstart Ns k p + b)%nat))).
  - rewrite rsum_swap. rewrite (rsum_ext _ _ (fun b => delta i b * f (kstart Ns k p + b)%nat)).
    + apply (rsum_delta_l (ksize k) i (fun b => f (kstart Ns k p + b)%nat)). assumption.
    + intros b Hb. rewrite rsum_scal_r. rewrite (tmat_rows Q HQ) by assumption. reflexivity.
  - intros a Ha. rewrite (turn_at (mtr Q) Ns Nd) by assumption. rewrite <- rsum_scal_l. apply rsum_ext. intros b Hb.
    rewrite (tmat_tr Q HQ) by assumption. ring.
Qed.
Lemma turn_as_mvec Ns Nd f r : (r < 11 * Ns + 6 * Nd)%nat ->
  turn_vec Q Ns f r = mvec (11 * Ns + 6 * Nd) (fun r c => turn_vec Q Ns (delta c) r) f r.
Proof.
  intros Hr. destruct (block_cover Ns Nd r Hr) as (k & p & i & V & Hi & ->). rewrite (turn_at Q Ns Nd) by assumption.
  unfold mvec.
  rewrite (rsum_ext _ (fun i0 => turn_vec Q Ns (delta i0) _ * f i0)
    (fun c => rsum (ksize k) (fun a => tmat Q k i a * (delta (kstart Ns k p + a) c * f c)))).
  - rewrite rsum_swap. apply rsum_ext. intros a Ha. rewrite rsum_scal_l. f_equal. symmetry.
    apply rsum_delta_l. apply block_range; assumption.
  - intros c Hc. rewrite (turn_at Q Ns Nd) by assumption. rewrite <- rsum_scal_r. apply rsum_ext. intros a Ha.
    rewrite (delta_sym c). ring.
Qed.
End Back.
Section Invertible.
Variable Q : mat.
Hypothesis HQ : orthogonal Q.
Lemma turned_invertible bb p mu : distinct_beads (num_spheres p + 2 * num_dumbbells p) (bead_positions p) (bead_sizes p) ->
  forall I, is_inv (11 * num_spheres p + 6 * num_dumbbells p) (generate_Minfinity bb p mu) I ->
  exists I', is_inv (11 * num_spheres p + 6 * num_dumbbells p) (generate_Minfinity bb (turned Q p) mu) I'.
Proof.
  intros HD I HI. set (Ns := num_spheres p) in *. set (Nd := num_dumbbells p) in *. set (N := (11 * Ns + 6 * Nd)%nat) in *.
  set (M := generate_Minfinity bb p mu) in *. set (M' := generate_Minfinity bb (turned Q p) mu).
  pose proof (far_commutes Q HQ bb p mu HD) as K. fold Ns Nd M M' in K.
  set (I' := fun r c => turn_vec Q Ns (mvec N I (turn_vec (mtr Q) Ns (delta c))) r).
  exists I'.
  assert (HT : orthogonal (mtr Q)) by (apply orth_tr; exact HQ).
  assert (BT : forall f r, (r < N)%nat -> turn_vec (mtr Q) Ns (turn_vec Q Ns f) r = f r).
  { intros f r Hr. apply (turn_back (mtr Q) HT Ns Nd f r Hr). }
  assert (MI : forall g i, (i < N)%nat -> mvec N M (mvec N I g) i = g i).
  { intros g. intros i Hi. symmetry. revert i Hi. apply (proj2 (is_inv_mvec N M I (mvec N I g) g HI)). intros. reflexivity. }
  assert (IM : forall g i, (i < N)%nat -> mvec N I (mvec N M g) i = g i).
  { intros g i Hi. symmetry. revert i Hi. apply (proj1 (is_inv_mvec N M I g (mvec N M g) HI)). intros. reflexivity. }
  assert (A : forall f r, (r < N)%nat -> mvec N I' f r = turn_vec Q Ns (mvec N I (turn_vec (mtr Q) Ns f)) r).
  { intros f r Hr. unfold N. rewrite (turn_as_mvec Q Ns Nd) by exact Hr. fold N.
    transitivity (rsum N (fun c => rsum N (fun s => turn_vec Q Ns (delta s) r * rsum N (fun t => I s t * (turn_vec (mtr Q) Ns (delta c) t * f c))))).
    - unfold mvec at 1. apply rsum_ext. intros c Hc. unfold I'. rewrite (turn_as_mvec Q Ns Nd) by exact Hr. fold N. unfold mvec at 1.
      rewrite <- rsum_scal_r. apply rsum_ext. intros s Hs. rewrite Rmult_assoc. f_equal. unfold mvec. rewrite <- rsum_scal_r. apply rsum_ext. intros. ring.
    - rewrite rsum_swap. unfold mvec at 1. apply rsum_ext. intros s Hs. rewrite rsum_scal_l. f_equal.
      rewrite rsum_swap. unfold mvec. apply rsum_ext. intros t Ht. rewrite rsum_scal_l. f_equal.
      symmetry. apply (turn_as_mvec (mtr Q) Ns Nd f t Ht). }
  assert (L : forall g r, (r < N)%nat -> mvec N M' (mvec N I' g) r = g r).
  { intros g r Hr. rewrite (mvec_ext N M' M' (mvec N I' g) (turn_vec Q Ns (mvec N I (turn_vec (mtr Q) Ns g)))) by auto.
    unfold N. rewrite K by exact Hr. fold N.
    rewrite (turn_ext Q Ns Nd _ (turn_vec (mtr Q) Ns g)); [apply (turn_back Q HQ Ns Nd); exact Hr|intros; apply MI; assumption|exact Hr]. }
  assert (R0 : forall g r, (r < N)%nat -> mvec N I' (mvec N M' g) r = g r).
  { intros g r Hr. rewrite A by exact Hr.
    transitivity (turn_vec Q Ns (turn_vec (mtr Q) Ns g) r); [|apply (turn_back Q HQ Ns Nd); exact Hr].
    apply (turn_ext Q Ns Nd); [|exact Hr]. intros t Ht.
    transitivity (mvec N I (mvec N M (turn_vec (mtr Q) Ns g)) t); [|apply IM; exact Ht].
    apply mvec_ext; [reflexivity|]. intros s Hs. rewrite <- (BT (mvec N M (turn_vec (mtr Q) Ns g)) s Hs).
    apply (turn_ext (mtr Q) Ns Nd); [|exact Hs]. intros y Hy. rewrite <- K by exact Hy.
    apply mvec_ext; [reflexivity|]. intros z Hz. symmetry. apply (turn_back Q HQ Ns Nd); exact Hz. }
  intros i j Hi Hj. split.
  - transitivity (mvec N M' (mvec N I' (fun c => delta c j)) i).
    + unfold mmul, mvec. apply rsum_ext. intros k Hk. f_equal. symmetry. apply (rsum_delta_r N j). exact Hj.
    + rewrite L by exact Hi. reflexivity.
  - transitivity (mvec N I' (mvec N M' (fun c => delta c j)) i).
    + unfold mmul, mvec. apply rsum_ext. intros k Hk. f_equal. symmetry. apply (rsum_delta_r N j). exact Hj.
    + rewrite R0 by exact Hi. reflexivity.
Qed.
End Invertible.
