(** Turned runs stay turned. *)
From Coq Require Import Reals List Arith Bool Lia Lra.
From Verif Require Import Base Py Model_Pack Model_Mob Model_Layout Model_Minf Model_Grand Model_Close Model_R2B Model_GrandP Model_Step
  Model_Output Model_Frame Model_Inputs Model_Sim
  Spec_Pack Spec_Layout Spec_Minf Spec_Convert Spec_Output Spec_Rotate Spec_Step Spec_Frame Spec_Posdef Spec_Run Spec_Turn
  Proof_Step Proof_Step2 Proof_Frame Proof_Frame2 Proof_Run2 Proof_Rotate1 Proof_Rotate2 Proof_Rotate8 Proof_Turn1 Proof_Turn2.
Import ListNotations.
Local Open Scope R_scope.

Section Turn.
Variable Q : mat.
Hypothesis HQ : orthogonal Q.
Notation e := (Spec_Rotate.det3 Q).

Lemma vt_add u v u' v' : vec_turned Q u u' -> vec_turned Q v v' -> vec_turned Q (fun l => u l + v l) (fun l => u' l + v' l).
Proof. intros A B l Hl. rewrite (A l Hl), (B l Hl). unfold rot, mvec. rewrite <- rsum_plus. apply rsum_ext. intros. ring. Qed.
Lemma vt_scal c v v' : vec_turned Q v v' -> vec_turned Q (fun l => c * v l) (fun l => c * v' l).
Proof. intros B l Hl. rewrite (B l Hl). unfold rot, mvec. rewrite <- rsum_scal_l. apply rsum_ext. intros. ring. Qed.
Lemma vt_ext u v u' v' : (forall l, (l < 3)%nat -> u l = v l) -> (forall l, (l < 3)%nat -> u' l = v' l) -> vec_turned Q v v' -> vec_turned Q u u'.
Proof. intros A B H l Hl. rewrite (B l Hl), (H l Hl). unfold rot, mvec. apply rsum_ext. intros. rewrite A by assumption. reflexivity. Qed.
Lemma vt_sub u v u' v' : vec_turned Q u u' -> vec_turned Q v v' -> vec_turned Q (vsub u v) (vsub u' v').
Proof.
  intros A B. apply (vt_ext _ (fun l => u l + -1 * v l) _ (fun l => u' l + -1 * v' l)).
  - intros; unfold vsub; ring.
  - intros; unfold vsub; ring.
  - apply vt_add; [exact A|apply vt_scal; exact B].
Qed.
(** Pseudovectors are vectors turned by [e Q]. *)
Lemma pt_add u v u' v' : pseudo_turned Q u u' -> pseudo_turned Q v v' -> pseudo_turned Q (fun l => u l + v l) (fun l => u' l + v' l).
Proof. intros A B l Hl. rewrite (A l Hl), (B l Hl). unfold rot, mvec. rewrite <- Rmult_plus_distr_l, <- rsum_plus. f_equal. apply rsum_ext. intros. ring. Qed.
Lemma pt_scal c v v' : pseudo_turned Q v v' -> pseudo_turned Q (fun l => c * v l) (fun l => c * v' l).
Proof. intros B l Hl. rewrite (B l Hl). unfold rot, mvec. rewrite <- !rsum_scal_l. apply rsum_ext. intros. ring. Qed.
Lemma pt_ext u v u' v' : (forall l, (l < 3)%nat -> u l = v l) -> (forall l, (l < 3)%nat -> u' l = v' l) -> pseudo_turned Q v v' -> pseudo_turned Q u u'.
Proof. intros A B H l Hl. rewrite (B l Hl), (H l Hl). unfold rot, mvec. f_equal. apply rsum_ext. intros. rewrite A by assumption. reflexivity. Qed.

Lemma cross_rows i j c : (i < 3)%nat -> (j < 3)%nat -> (c < 3)%nat ->
  cross (Q i) (Q j) c = e * rsum 3 (fun k => levi i j k * Q k c).
Proof.
  intros Hi Hj Hc. rewrite (from_rows Q HQ (cross (Q i) (Q j)) c Hc).
  rewrite (rsum_ext 3 _ (fun l => e * (levi i j l * Q l c))).
  - rewrite rsum_scal_l. reflexivity.
  - intros l Hl. rewrite (triple_rows Q) by assumption. ring.
Qed.
Lemma cross_turned w v w' v' : pseudo_turned Q w w' -> vec_turned Q v v' -> vec_turned Q (cross w v) (cross w' v').
Proof.
  intros A B l Hl.
  assert (D : e * e = 1) by (apply det_sq; exact HQ).
  assert (G : forall i j, (i < 3)%nat -> (j < 3)%nat ->
    w' i * v' j - w' j * v' i = rsum 3 (fun k => levi i j k * rot Q (cross w v) k)).
  { intros i j Hi Hj. rewrite (A i Hi), (A j Hj), (B i Hi), (B j Hj).
    transitivity (e * rsum 3 (fun c => cross (Q i) (Q j) c * cross w v c)).
    - unfold rot, mvec, rsum, cross, v3. ring.
    - rewrite (rsum_ext 3 _ (fun c => e * (rsum 3 (fun k => levi i j k * Q k c) * cross w v c)))
        by (intros c Hc; rewrite cross_rows by assumption; ring).
      rewrite rsum_scal_l, <- Rmult_assoc, D, Rmult_1_l. unfold rot, mvec. generalize (cross w v). intros y. unfold rsum. ring. }
  unfold cross at 1, v3 at 1. idx3 Hl; cbv iota beta.
  - rewrite (G 1%nat 2%nat) by lia. unfold rsum, levi. cbn [Nat.eqb orb andb Nat.add]. cbn -[rot]. ring.
  - rewrite (G 2%nat 0%nat) by lia. unfold rsum, levi. cbn -[rot]. ring.
  - rewrite (G 0%nat 1%nat) by lia. unfold rsum, levi. cbn -[rot]. ring.
Qed.
Lemma strain_turned E x E' x' : mat_turned Q E E' -> vec_turned Q x x' -> vec_turned Q (mvec 3 E x) (mvec 3 E' x').
Proof.
  intros A B l Hl. unfold mvec at 1.
  rewrite (rsum_ext 3 _ (fun k => rot2 Q E l k * rot Q x k)) by (intros k Hk; rewrite A, B by assumption; reflexivity).
  transitivity (rsum 3 (fun a => Q l a * rsum 3 (fun b => E a b * rsum 3 (fun k => Q k b * rot Q x k)))).
  - unfold rot2. generalize (rot Q x). intros y. unfold rsum. ring.
  - unfold rot at 2. unfold mvec at 1. apply rsum_ext. intros a Ha. f_equal. unfold mvec. apply rsum_ext. intros b Hb. f_equal.
    symmetry. apply (from_rows Q HQ x b Hb).
Qed.
Lemma flow_at_turned U W E c x U' W' E' c' x' : vec_turned Q U U' -> pseudo_turned Q W W' -> mat_turned Q E E' ->
  vec_turned Q c c' -> vec_turned Q x x' -> vec_turned Q (linear_flow U W E c x) (linear_flow U' W' E' c' x').
Proof.
  intros A B C D F. unfold linear_flow. apply vt_add; [apply vt_add; [exact A|]|].
  - apply cross_turned; [exact B|apply vt_sub; assumption].
  - apply strain_turned; [exact C|apply vt_sub; assumption].
Qed.
Lemma dot_rot u v : dot3 (rot Q u) (rot Q v) = dot3 u v.
Proof.
  unfold dot3. transitivity (rsum 3 (fun c => u c * rsum 3 (fun l => Q l c * rsum 3 (fun d => Q l d * v d)))).
  - unfold rot, mvec, rsum. ring.
  - rewrite (rsum_ext 3 _ (fun c => u c * v c)) by (intros c Hc; rewrite <- (from_rows Q HQ v c Hc); reflexivity). unfold rsum. ring.
Qed.
Lemma norm_pseudo w w' : pseudo_turned Q w w' -> norm w' = norm w.
Proof.
  intros A. unfold norm. rewrite !A by lia. f_equal.
  transitivity (e * e * (rot Q w 0%nat ^ 2 + rot Q w 1%nat ^ 2 + rot Q w 2%nat ^ 2)); [ring|].
  rewrite (det_sq Q HQ), (rot_norm2 Q HQ). ring.
Qed.
Lemma rodrigues_turned w v w' v' t : pseudo_turned Q w w' -> vec_turned Q v v' ->
  vec_turned Q (rodrigues w (norm w * t) v) (rodrigues w' (norm w' * t) v').
Proof.
  intros A B. rewrite (norm_pseudo w w' A). set (th := norm w * t). clearbody th. unfold rodrigues. cbv zeta.
  rewrite (norm_pseudo w w' A). set (k := vscal (/ norm w) w). set (k' := vscal (/ norm w) w').
  assert (K : pseudo_turned Q k k') by (apply pt_scal; exact A). clearbody k k'.
  assert (DK : dot3 k' v' * e = dot3 k v).
  { transitivity (e * e * dot3 (rot Q k) (rot Q v)).
    - unfold dot3. rewrite !K, !B by lia. ring.
    - rewrite dot_rot, (det_sq Q HQ). ring. }
  apply vt_add; [apply vt_add|].
  - apply vt_scal. exact B.
  - apply vt_scal. apply cross_turned; assumption.
  - intros l Hl. rewrite (K l Hl). transitivity ((1 - cos th) * (dot3 k' v' * e) * rot Q k l); [ring|]. rewrite DK.
    unfold rot, mvec. rewrite <- rsum_scal_l. apply rsum_ext. intros. ring.
Qed.
(** Nonzero vectors stay nonzero. *)
Lemma nz_dot v : (exists l, (l < 3)%nat /\ v l <> 0) <-> dot3 v v <> 0.
Proof.
  split.
  - intros (l & Hl & H) E. apply H. unfold dot3 in E. idx3 Hl; nra.
  - intros H. destruct (Req_dec (v 0%nat) 0) as [A|A]; [|exists 0%nat; split; [lia|exact A]].
    destruct (Req_dec (v 1%nat) 0) as [B|B]; [|exists 1%nat; split; [lia|exact B]].
    destruct (Req_dec (v 2%nat) 0) as [C|C]; [|exists 2%nat; split; [lia|exact C]].
    exfalso. apply H. unfold dot3. rewrite A, B, C. ring.
Qed.
Lemma dot3_ext u v : (forall l, (l < 3)%nat -> u l = v l) -> dot3 u u = dot3 v v.
Proof. intros H. unfold dot3. rewrite !H by lia. reflexivity. Qed.
Lemma nz_turned v v' : vec_turned Q v v' -> (exists l, (l < 3)%nat /\ v l <> 0) -> exists l, (l < 3)%nat /\ v' l <> 0.
Proof. intros A H. apply nz_dot. apply nz_dot in H. rewrite (dot3_ext v' (rot Q v)) by exact A. rewrite dot_rot. exact H. Qed.
Lemma nz_rodrigues w t v : (exists l, (l < 3)%nat /\ v l <> 0) -> exists l, (l < 3)%nat /\ rodrigues w (norm w * t) v l <> 0.
Proof. intros H. apply nz_dot. apply nz_dot in H. rewrite (rodrigues_dot_any w (norm w * t) t v v eq_refl). exact H. Qed.

Variables Ns Nd : nat.
Notation n := (11 * Ns + 6 * Nd)%nat.

(** ** One step *)
Lemma armed p j k : oriented Ns p -> (j < Ns)%nat -> (k < 2)%nat -> exists l, (l < 3)%nat /\ vsub (c_srot p j k) (c_spos p j) l <> 0.
Proof. intros H Hj Hk. destruct (H j k Hj Hk) as (l & Hl & E). exists l. split; [exact Hl|]. unfold vsub. lra. Qed.

Section Step.
Variable inv3 : mat -> mat.
Hypothesis Hinv3 : inverts inv3.
Variable g : settings.
Hypothesis Hbox : no_box_g g.
Hypothesis H2d : g_fully_2d g = false.
Hypothesis HNs : (0 < Ns)%nat.

Lemma not_periodic : periodic g = false.
Proof. unfold periodic. apply negb_false_iff. apply zero3_spec. intros l Hl. unfold vsub. rewrite (Hbox l Hl). ring. Qed.

Lemma speed_turned f o p f' o' p' j : flow_turned Q f f' -> outputs_turned Q Ns Nd o o' -> config_turned Q Ns Nd p p' -> (j < Ns)%nat ->
  vec_turned Q (sphere_speed g f o p j) (sphere_speed g f' o' p' j).
Proof.
  intros (F1 & F2 & F3 & _) (O1 & _) (_ & _ & C1 & _) Hj. destruct (O1 j Hj) as (_ & _ & _ & U & _ & E).
  unfold sphere_speed. rewrite H2d. cbn [andb]. apply vt_add; [exact U|]. apply flow_at_turned; auto.
Qed.
Lemma spin_turned f o f' o' j : flow_turned Q f f' -> outputs_turned Q Ns Nd o o' -> (j < Ns)%nat ->
  pseudo_turned Q (sphere_spin f o j) (sphere_spin f' o' j).
Proof.
  intros (F1 & F2 & F3 & _) (O1 & _) Hj. destruct (O1 j Hj) as (_ & _ & _ & _ & W & _). unfold sphere_spin. apply pt_add; assumption.
Qed.
Lemma bead_turned_flow f o f' o' x x' : flow_turned Q f f' -> outputs_turned Q Ns Nd o o' -> vec_turned Q x x' ->
  vec_turned Q (bead_flow f o x) (bead_flow f' o' x').
Proof.
  intros (F1 & F2 & F3 & _) (O1 & _) X. destruct (O1 0%nat HNs) as (_ & _ & _ & _ & _ & E). unfold bead_flow. apply flow_at_turned; auto.
Qed.
Lemma beads_turned x d x' d' : vec_turned Q x x' -> vec_turned Q d d' ->
  vec_turned Q (bead_minus x d) (bead_minus x' d') /\ vec_turned Q (bead_plus x d) (bead_plus x' d').
Proof.
  intros A B. split.
  - apply (vt_ext _ (fun l => x l + - / 2 * d l) _ (fun l => x' l + - / 2 * d' l)); try (intros; unfold bead_minus; ring).
    apply vt_add; [exact A|apply vt_scal; exact B].
  - unfold bead_plus. apply vt_add; [exact A|apply vt_scal; exact B].
Qed.

Variable m : nat.
Variables f f' : flow.
Variables o o' : outputs.
Variables V V' W W' : nat -> vec.
Variables p p' q q' : config.
Hypothesis HF : flow_turned Q f f'.
Hypothesis HO : outputs_turned Q Ns Nd o o'.
Hypothesis HP : config_turned Q Ns Nd p p'.
Hypothesis HV : (0 < m)%nat -> forall j, (j < Ns)%nat -> vec_turned Q (V j) (V' j) /\ pseudo_turned Q (W j) (W' j).
Hypothesis HA : oriented Ns p.
Hypothesis HA' : oriented Ns p'.
Hypothesis HM : moved_on inv3 Ns Nd g m f o V W p q.
Hypothesis HM' : moved_on inv3 Ns Nd g m f' o' V' W' p' q'.

Lemma landed_at fl x y : landed inv3 g fl x y -> forall l, (l < 3)%nat -> y l = x l.
Proof. intros H l Hl. rewrite (H l Hl), not_periodic. reflexivity. Qed.

Lemma step_oriented fl ou VV WW a b : oriented Ns a -> moved_on inv3 Ns Nd g m fl ou VV WW a b -> oriented Ns b.
Proof.
  intros A (_ & _ & M & _) j k Hj Hk. destruct (M j Hj) as (x & L & _ & T). pose proof (armed a j k A Hj Hk) as N.
  specialize (T k Hinv3 N). pose proof (landed_at _ _ _ L) as L'.
  match type of T with forall l, _ -> _ = rodrigues ?w _ _ l =>
    destruct (nz_rodrigues w (g_dt g) _ N) as (l & Hl & E) end.
  exists l. split; [exact Hl|]. rewrite <- (T l Hl) in E. unfold vsub in E. rewrite (L' l Hl). lra.
Qed.

Lemma step_turned : config_turned Q Ns Nd q q'.
Proof.
  destruct HM as (Z1 & Z2 & M1 & M2). destruct HM' as (Z1' & Z2' & M1' & M2').
  pose proof HP as (Y1 & Y2 & PS & PR & PD).
  set (first := match g_scheme g with euler => true | _ => Nat.eqb m 0 end) in *.
  assert (FM : first = false -> (0 < m)%nat).
  { unfold first. destruct (g_scheme g); try discriminate; destruct (Nat.eqb_spec m 0); intros; try discriminate; lia. }
  assert (SP : forall j, (j < Ns)%nat -> vec_turned Q (fun l => if first then sphere_speed g f o p j l else 3 / 2 * sphere_speed g f o p j l - 1 / 2 * V j l)
                     (fun l => if first then sphere_speed g f' o' p' j l else 3 / 2 * sphere_speed g f' o' p' j l - 1 / 2 * V' j l)).
  { intros j Hj. pose proof (speed_turned _ _ _ _ _ _ j HF HO HP Hj) as S. destruct first; [exact S|].
    apply (vt_sub (fun l => 3 / 2 * sphere_speed g f o p j l) (fun l => 1 / 2 * V j l)); apply vt_scal; [exact S|apply HV; auto]. }
  assert (SW : forall j, (j < Ns)%nat -> pseudo_turned Q (fun l => if first then sphere_spin f o j l else 3 / 2 * sphere_spin f o j l - 1 / 2 * W j l)
                     (fun l => if first then sphere_spin f' o' j l else 3 / 2 * sphere_spin f' o' j l - 1 / 2 * W' j l)).
  { intros j Hj. pose proof (spin_turned _ _ _ _ j HF HO Hj) as S. destruct first; [exact S|].
    apply (pt_ext _ (fun l => 3 / 2 * sphere_spin f o j l + - (1 / 2) * W j l) _ (fun l => 3 / 2 * sphere_spin f' o' j l + - (1 / 2) * W' j l));
      try (intros; ring). apply pt_add; apply pt_scal; [exact S|apply HV; auto]. }
  split; [congruence|]. split; [congruence|]. split; [|split].
  - intros j Hj. destruct (M1 j Hj) as (x & L & X & _). destruct (M1' j Hj) as (x' & L' & X' & _).
    apply (vt_ext _ _ _ _ (landed_at _ _ _ L) (landed_at _ _ _ L')). apply (vt_ext _ _ _ _ X X').
    apply vt_add; [apply PS; exact Hj|]. apply vt_scal. apply SP. exact Hj.
  - intros j k Hj Hk. destruct (M1 j Hj) as (x & L & X & T). destruct (M1' j Hj) as (x' & L' & X' & T').
    specialize (T k Hinv3 (armed p j k HA Hj Hk)). specialize (T' k Hinv3 (armed p' j k HA' Hj Hk)).
    assert (XT : vec_turned Q x x').
    { apply (vt_ext _ _ _ _ X X'). apply vt_add; [apply PS; exact Hj|]. apply vt_scal. apply SP. exact Hj. }
    match type of T with forall l, _ -> _ = ?r l => match type of T' with forall l, _ -> _ = ?r' l =>
      apply (vt_ext _ (fun l => x l + r l) _ (fun l => x' l + r' l)) end end.
    + intros l Hl. rewrite <- (T l Hl). unfold vsub. ring.
    + intros l Hl. rewrite <- (T' l Hl). unfold vsub. ring.
    + apply vt_add; [exact XT|]. apply rodrigues_turned; [apply SW; exact Hj|]. apply vt_sub; [apply PR; assumption|apply PS; exact Hj].
  - intros d Hd. destruct (M2 d Hd) as ((x & L & X) & S). destruct (M2' d Hd) as ((x' & L' & X') & S').
    destruct (PD d Hd) as [D1 D2]. destruct HO as (_ & O2). destruct (O2 d Hd) as (_ & _ & U & H).
    destruct (beads_turned _ _ _ _ D1 D2) as [B1 B2].
    pose proof (bead_turned_flow _ _ _ _ _ _ HF HO B1) as F1. pose proof (bead_turned_flow _ _ _ _ _ _ HF HO B2) as F2.
    split.
    + apply (vt_ext _ _ _ _ (landed_at _ _ _ L) (landed_at _ _ _ L')). apply (vt_ext _ _ _ _ X X').
      apply vt_add; [exact D1|]. apply vt_scal. unfold centre_speed. apply vt_add; [exact U|].
      set (b1 := bead_flow f o (bead_minus (c_dpos p d) (c_ddx p d))) in *. set (b2 := bead_flow f o (bead_plus (c_dpos p d) (c_ddx p d))) in *.
      set (b1' := bead_flow f' o' (bead_minus (c_dpos p' d) (c_ddx p' d))) in *. set (b2' := bead_flow f' o' (bead_plus (c_dpos p' d) (c_ddx p' d))) in *.
      apply (vt_ext _ (fun l => / 2 * (b1 l + b2 l)) _ (fun l => / 2 * (b1' l + b2' l))); try (intros; field).
      apply vt_scal, vt_add; assumption.
    + apply (vt_ext _ _ _ _ S S'). apply vt_add; [exact D2|]. apply vt_scal. unfold stretch_speed. apply vt_add; [apply vt_scal; exact H|].
      apply (vt_sub (bead_flow f o _) (bead_flow f o _)); assumption.
Qed.
End Step.
End Turn.
