(** Turned configurations: matrices depend only on the components of the
    positions of the particles. *)
From Coq Require Import Reals List Arith Bool Lia Lra FunctionalExtensionality.
From Verif Require Import Base Py Model_Pack Model_Mob Model_Layout Model_Minf Model_Grand Model_Close Model_R2B Model_GrandP Model_Step
  Model_Output Model_Frame Model_Inputs Model_Sim
  Spec_Pack Spec_Layout Spec_Minf Spec_R2B Spec_Close Spec_Rotate Spec_Run Spec_Turn
  Proof_Layout Proof_Rotate1 Proof_Rotate2 Proof_Rotate3 Proof_Rotate4 Proof_Rotate5 Proof_Rotate6 Proof_Rotate7 Proof_Rotate8.
Import ListNotations.
Local Open Scope R_scope.

(** ** Particles out of range do not matter *)
Lemma fold_left_ext_in {A B} (f g : A -> B -> A) l : (forall a b, In b l -> f a b = g a b) -> forall a, fold_left f l a = fold_left g l a.
Proof.
  induction l as [|b l IH]; intros H a; [reflexivity|]. cbn [fold_left]. rewrite H by (left; reflexivity).
  apply IH. intros; apply H; right; assumption.
Qed.
Lemma upper_pairs_lt n u v : In (u, v) (upper_pairs n) -> (u < n)%nat /\ (v < n)%nat.
Proof.
  unfold upper_pairs. intros H. apply in_flat_map in H. destruct H as (i & Hi & H). apply in_map_iff in H.
  destruct H as (j & E & Hj). injection E as <- <-. apply in_seq in Hi. apply in_seq in Hj. lia.
Qed.
Lemma minf_loop_ext bb x y a Ns Nd c mu : (forall b, (b < Ns + 2 * Nd)%nat -> x b = y b) ->
  generate_Minfinity_loop bb x a Ns Nd c mu = generate_Minfinity_loop bb y a Ns Nd c mu.
Proof.
  intros H. unfold generate_Minfinity_loop. f_equal. apply fold_left_ext_in. intros M [u v] Hin.
  apply upper_pairs_lt in Hin. destruct Hin as [Hu Hv]. unfold minf_step. cbn [fst snd]. rewrite (H u Hu), (H v Hv). reflexivity.
Qed.
Lemma close_ext x y a n cf : (forall b, (b < n)%nat -> x b = y b) -> close_particles_free x a n cf = close_particles_free y a n cf.
Proof.
  intros H. unfold close_particles_free. cbv zeta.
  set (L := flat_map (fun i => map (fun j => (i, j)) (seq 0 n)) (seq 0 n)).
  assert (HL : forall f, In f L -> (fst f < n)%nat /\ (snd f < n)%nat).
  { intros f Hf. apply in_flat_map in Hf. destruct Hf as (i & Hi & Hf). apply in_map_iff in Hf. destruct Hf as (j & <- & Hj).
    apply in_seq in Hi. apply in_seq in Hj. cbn [fst snd]. lia. }
  rewrite (filter_ext_in (fun f => Rltb (norm (vsub (x (fst f)) (x (snd f))) / (1 / 2 * (a (snd f) + a (fst f)))) (2 * cf))
                         (fun f => Rltb (norm (vsub (y (fst f)) (y (snd f))) / (1 / 2 * (a (snd f) + a (fst f)))) (2 * cf)) L).
  2: { intros f Hf. destruct (HL f Hf) as [H1 H2]. rewrite (H _ H1), (H _ H2). reflexivity. }
  apply map_ext_in. intros f Hf. apply filter_In in Hf. destruct Hf as [Hf _]. apply filter_In in Hf. destruct Hf as [Hf _].
  destruct (HL f Hf) as [H1 H2]. rewrite (H _ H1), (H _ H2). reflexivity.
Qed.

(** ** The identity as a rotation *)
Definition one : mat := delta.
Lemma one_rot v l : (l < 3)%nat -> rot one v l = v l.
Proof. intros Hl. unfold rot, mvec, one. apply rsum_delta_l. exact Hl. Qed.
Lemma one_orthogonal : orthogonal one.
Proof. intros i j Hi Hj. split; unfold mmul, mtr, one, delta, rsum; idx3 Hi; idx3 Hj; cbn [Nat.eqb]; ring. Qed.
Lemma one_det : det3 one = 1.
Proof. unfold det3, one, delta. cbn [Nat.eqb]. ring. Qed.
Lemma one_tmat k i a : (i < ksize k)%nat -> (a < ksize k)%nat -> tmat one k i a = delta i a.
Proof.
  intros Hi Ha. destruct k; cbn [tmat ksize] in *; try reflexivity.
  - unfold mscal. rewrite one_det. unfold one. ring.
  - unfold rot5. rewrite <- (delta_sym a i), <- (condense_tensor (delta a) i Hi). unfold condense_idx.
    apply rsum_ext. intros j Hj. apply rsum_ext. intros k Hk. f_equal. unfold rot2, one.
    rewrite (rsum_ext 3 _ (fun b => delta j b * tensor_of (delta a) b k)).
    + apply (rsum_delta_l 3 j (fun b => tensor_of (delta a) b k)). exact Hj.
    + intros b Hb. rewrite (rsum_ext 3 _ (fun c => delta k c * (delta j b * tensor_of (delta a) b c))) by (intros; ring).
      apply (rsum_delta_l 3 k (fun c => delta j b * tensor_of (delta a) b c)). exact Hk.
Qed.
Lemma one_turn Ns Nd f r : (r < 11 * Ns + 6 * Nd)%nat -> turn_vec one Ns f r = f r.
Proof.
  intros Hr. destruct (block_cover Ns Nd r Hr) as (k & p & i & V & Hi & ->). rewrite (turn_at one Ns Nd) by assumption.
  rewrite (rsum_ext _ _ (fun a => delta i a * f (kstart Ns k p + a)%nat)) by (intros; rewrite one_tmat by assumption; reflexivity).
  apply (rsum_delta_l (ksize k) i (fun a => f (kstart Ns k p + a)%nat)). exact Hi.
Qed.

(** Matrices with the same action. *)
Definition same_action (Ns Nd : nat) (M M' : mat) : Prop :=
  forall f r, (r < 11 * Ns + 6 * Nd)%nat -> mvec (11 * Ns + 6 * Nd) M' f r = mvec (11 * Ns + 6 * Nd) M f r.
Lemma one_same Ns Nd M M' : commutes one Ns Nd M M' -> same_action Ns Nd M M'.
Proof.
  intros H f r Hr. specialize (H f r Hr). rewrite (one_turn Ns Nd) in H by exact Hr. rewrite <- H.
  unfold mvec. apply rsum_ext. intros t Ht. rewrite (one_turn Ns Nd) by exact Ht. reflexivity.
Qed.
Lemma commutes_same Q Ns Nd A A' B B' : same_action Ns Nd A A' -> same_action Ns Nd B B' -> commutes Q Ns Nd A B -> commutes Q Ns Nd A' B'.
Proof.
  intros HA HB H f r Hr. rewrite HB by exact Hr. rewrite H by exact Hr. apply (turn_ext Q Ns Nd); [|exact Hr].
  intros t Ht. symmetry. apply HA. exact Ht.
Qed.
Lemma same_sym Ns Nd A B : same_action Ns Nd A B -> same_action Ns Nd B A.
Proof. intros H f r Hr. symmetry. apply H. exact Hr. Qed.

Section Configs.
Variable Q : mat.
Hypothesis HQ : orthogonal Q.
Variables Ns Nd : nat.
Variables p p' : config.
Hypothesis HT : config_turned Q Ns Nd p p'.
Let P := posdata_of Ns Nd p.
Let P' := posdata_of Ns Nd p'.

Lemma one_ext v w : (forall l, (l < 3)%nat -> v l = w l) -> rot one v = rot one w.
Proof. intros H. apply functional_extensionality. intros l. unfold rot, mvec. apply rsum_ext. intros j Hj. rewrite H by exact Hj. reflexivity. Qed.

(** The beads of the second configuration are the turned ones of the first. *)
Lemma beads_one b : (b < Ns + 2 * Nd)%nat ->
  bead_positions (turned one P') b = bead_positions (turned one (turned Q P)) b.
Proof.
  intros Hb. destruct HT as (_ & _ & HS & _ & HDu). unfold bead_positions, P, P', turned, posdata_of.
  cbn [num_spheres num_dumbbells sphere_positions dumbbell_positions dumbbell_deltax].
  destruct (Nat.ltb_spec b Ns).
  - apply one_ext. apply HS. assumption.
  - destruct (Nat.ltb_spec b (Ns + Nd)).
    + destruct (HDu (b - Ns)%nat ltac:(lia)) as [H1 H2]. f_equal; [apply one_ext, H1|f_equal; apply one_ext, H2].
    + destruct (HDu (b - Ns - Nd)%nat ltac:(lia)) as [H1 H2]. f_equal; [apply one_ext, H1|f_equal; apply one_ext, H2].
Qed.
Lemma sizes_same : bead_sizes P' = bead_sizes P.
Proof. destruct HT as (H1 & H2 & _). unfold bead_sizes, P, P', posdata_of. cbn [num_spheres num_dumbbells sphere_sizes dumbbell_sizes]. rewrite H1, H2. reflexivity. Qed.
Lemma sizes_turned A X : bead_sizes (turned A X) = bead_sizes X.
Proof. reflexivity. Qed.

Notation n := (Ns + 2 * Nd)%nat.
Hypothesis HD : distinct_beads n (bead_positions P) (bead_sizes P).

Lemma bead_turned A X b : bead_positions (turned A X) b = rot A (bead_positions X b).
Proof. apply functional_extensionality. intros l. unfold bead_positions, turned. cbn [num_spheres num_dumbbells sphere_positions dumbbell_positions dumbbell_deltax].
  destruct (Nat.ltb b _); [reflexivity|]. destruct (Nat.ltb b _).
  - rewrite rot_vsub. unfold vsub. f_equal. symmetry. apply rot_vscal.
  - rewrite rot_vadd. unfold vadd. f_equal. symmetry. apply rot_vscal.
Qed.

Lemma distinct_Q : distinct_beads n (bead_positions (turned Q P)) (bead_sizes (turned Q P)).
Proof.
  rewrite sizes_turned. destruct (distinct_turned Q HQ n (bead_positions P) (bead_sizes P) HD) as [A B]. split; [exact A|].
  intros a b Ha Hb N. rewrite !bead_turned. apply B; assumption.
Qed.
Lemma distinct' : distinct_beads n (bead_positions P') (bead_sizes P').
Proof.
  destruct distinct_Q as [A B]. rewrite sizes_turned in A. rewrite sizes_same. split; [exact A|].
  intros a b Ha Hb N. specialize (B a b Ha Hb N).
  assert (E : forall c, (c < n)%nat -> forall l, (l < 3)%nat -> bead_positions P' c l = bead_positions (turned Q P) c l).
  { intros c Hc l Hl. pose proof (beads_one c Hc) as K. rewrite !bead_turned in K.
    apply (f_equal (fun v => v l)) in K. rewrite !one_rot in K by exact Hl. rewrite K, bead_turned. reflexivity. }
  unfold norm, vsub in *. rewrite !E by (assumption || lia). exact B.
Qed.

Lemma minf_ext bb mu : generate_Minfinity bb (turned one P') mu = generate_Minfinity bb (turned one (turned Q P)) mu.
Proof.
  unfold generate_Minfinity. cbv zeta. change (num_spheres (turned one P')) with Ns. change (num_dumbbells (turned one P')) with Nd.
  change (num_spheres (turned one (turned Q P))) with Ns. change (num_dumbbells (turned one (turned Q P))) with Nd.
  rewrite (minf_loop_ext bb (bead_positions (turned one P')) (bead_positions (turned one (turned Q P)))) by exact beads_one.
  rewrite !sizes_turned, sizes_same. reflexivity.
Qed.

Lemma far_turned bb mu : commutes Q Ns Nd (generate_Minfinity bb P mu) (generate_Minfinity bb P' mu).
Proof.
  apply (commutes_same Q Ns Nd (generate_Minfinity bb P mu) (generate_Minfinity bb P mu) (generate_Minfinity bb (turned Q P) mu)).
  - intros f r _. reflexivity.
  - pose proof (one_same Ns Nd _ _ (far_commutes one one_orthogonal bb (turned Q P) mu distinct_Q)) as A.
    pose proof (one_same Ns Nd _ _ (far_commutes one one_orthogonal bb P' mu distinct')) as B.
    rewrite minf_ext in B. intros f r Hr. transitivity (mvec (11 * Ns + 6 * Nd) (generate_Minfinity bb (turned one (turned Q P)) mu) f r).
    + symmetry. apply B. exact Hr.
    + apply A. exact Hr.
  - exact (far_commutes Q HQ bb P mu HD).
Qed.

Lemma near_ext sc table bb cf mu : generate_R2Bexact_free sc table bb (turned one P') cf mu = generate_R2Bexact_free sc table bb (turned one (turned Q P)) cf mu.
Proof.
  unfold generate_R2Bexact_free. rewrite !sizes_turned, sizes_same.
  change (num_spheres (turned one P')) with Ns. change (num_dumbbells (turned one P')) with Nd.
  change (num_spheres (turned one (turned Q P))) with Ns. change (num_dumbbells (turned one (turned Q P))) with Nd.
  rewrite (close_ext _ _ _ _ _ beads_one). reflexivity.
Qed.

Lemma near_turned sc table bb cf mu G G' : 0 < cf -> generate_R2Bexact_free sc table bb P cf mu = Some G ->
  generate_R2Bexact_free sc table bb P' cf mu = Some G' -> commutes Q Ns Nd G G'.
Proof.
  intros Hcf E E'.
  destruct (generate_R2Bexact_free sc table bb (turned Q P) cf mu) as [GQ|] eqn:EQ.
  2: { apply (near_none Q HQ sc table bb P cf mu Hcf HD) in EQ. congruence. }
  destruct (generate_R2Bexact_free sc table bb (turned one P') cf mu) as [G1|] eqn:E1.
  2: { apply (near_none one one_orthogonal sc table bb P' cf mu Hcf distinct') in E1. congruence. }
  pose proof E1 as E2. rewrite near_ext in E2.
  pose proof (one_same Ns Nd _ _ (near_commutes one one_orthogonal sc table bb (turned Q P) cf mu distinct_Q _ _ Hcf EQ E2)) as A.
  pose proof (one_same Ns Nd _ _ (near_commutes one one_orthogonal sc table bb P' cf mu distinct' _ _ Hcf E' E1)) as B.
  apply (commutes_same Q Ns Nd G G GQ); [intros f r _; reflexivity| |exact (near_commutes Q HQ sc table bb P cf mu HD _ _ Hcf E EQ)].
  intros f r Hr. transitivity (mvec (11 * Ns + 6 * Nd) G1 f r); [symmetry; apply B; exact Hr|apply A; exact Hr].
Qed.
End Configs.

Lemma drag_turned Q (HQ : orthogonal Q) Ns Nd p p' (HT : config_turned Q Ns Nd p p') mu :
  commutes Q Ns Nd (drag_Minfinity_inverse (posdata_of Ns Nd p) mu) (drag_Minfinity_inverse (posdata_of Ns Nd p') mu).
Proof.
  pose proof (drag_commutes Q HQ (posdata_of Ns Nd p) mu) as H.
  replace (drag_Minfinity_inverse (posdata_of Ns Nd p') mu) with (drag_Minfinity_inverse (turned Q (posdata_of Ns Nd p)) mu); [exact H|].
  destruct HT as (H1 & H2 & _). unfold drag_Minfinity_inverse, posdata_of, turned. cbn [num_spheres num_dumbbells sphere_sizes dumbbell_sizes].
  rewrite H1, H2. reflexivity.
Qed.
