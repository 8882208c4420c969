(** The matrices after a change of the unit of length. *)
From Coq Require Import Reals Arith Bool List Lia Lra FunctionalExtensionality.
From Verif Require Import Base Py Model_Pack Model_Mob Model_Layout Model_Minf Model_L Model_Close Model_R2B Model_Grand Model_GrandP
  Spec_Layout Spec_Minf Spec_R2B Spec_Close Spec_Rescale
  Proof_Mob2 Proof_Layout Proof_Minf Proof_Minf2 Proof_Minf3 Proof_Minf4 Proof_R2B3 Proof_R2B4 Proof_Close Proof_Rotate5 Proof_Rotate8 Proof_Rescale1.
Import ListNotations.
Local Open Scope R_scope.

Section S.
Variable h : R.
Hypothesis Hh : 0 < h.
Notation kw := (kw h).

Lemma kw_pos k : 0 < kw k. Proof. destruct k; cbn; lra. Qed.
Lemma weight_at Ns Nd k p i : kvalid Ns Nd k p -> (i < ksize k)%nat -> weight h Ns (kstart Ns k p + i) = kw k.
Proof.
  intros V Hi. unfold weight. destruct k; cbn [kvalid ksize kstart kw] in *.
  - destruct (Nat.ltb_spec (3 * p + i) (3 * Ns)); [reflexivity|lia].
  - destruct (Nat.ltb_spec (3 * Ns + 3 * p + i) (3 * Ns)); [lia|]. destruct (Nat.ltb_spec (3 * Ns + 3 * p + i) (11 * Ns)); [reflexivity|lia].
  - destruct (Nat.ltb_spec (6 * Ns + 5 * p + i) (3 * Ns)); [lia|]. destruct (Nat.ltb_spec (6 * Ns + 5 * p + i) (11 * Ns)); [reflexivity|lia].
  - destruct (Nat.ltb_spec (11 * Ns + 3 * (p - Ns) + i) (3 * Ns)); [lia|]. destruct (Nat.ltb_spec (11 * Ns + 3 * (p - Ns) + i) (11 * Ns)); [lia|reflexivity].
Qed.
(** Block by block is entry by entry. *)
Definition blocks_scaled (Ns Nd : nat) (u : kind -> kind -> R) (M M' : mat) : Prop :=
  forall k1 p k2 b i j, kvalid Ns Nd k1 p -> kvalid Ns Nd k2 b -> (i < ksize k1)%nat -> (j < ksize k2)%nat ->
  ent Ns M' k1 p k2 b i j = u k1 k2 * ent Ns M k1 p k2 b i j.
Definition mu_ (k1 k2 : kind) : R := / (h * kw k1 * kw k2).
Definition ru_ (k1 k2 : kind) : R := h * kw k1 * kw k2.
Lemma blocks_mobility Ns Nd M M' : blocks_scaled Ns Nd mu_ M M' -> mobility_rescaled h Ns (11 * Ns + 6 * Nd) M M'.
Proof.
  intros H r c Hr Hc. destruct (block_cover Ns Nd r Hr) as (k1 & p & i & V1 & Hi & ->). destruct (block_cover Ns Nd c Hc) as (k2 & b & j & V2 & Hj & ->).
  rewrite (weight_at Ns Nd) by assumption. rewrite (weight_at Ns Nd) by assumption. unfold Rdiv. rewrite Rmult_comm. exact (H k1 p k2 b i j V1 V2 Hi Hj).
Qed.
Lemma blocks_resistance Ns Nd M M' : blocks_scaled Ns Nd ru_ M M' -> resistance_rescaled h Ns (11 * Ns + 6 * Nd) M M'.
Proof.
  intros H r c Hr Hc. destruct (block_cover Ns Nd r Hr) as (k1 & p & i & V1 & Hi & ->). destruct (block_cover Ns Nd c Hc) as (k2 & b & j & V2 & Hj & ->).
  rewrite (weight_at Ns Nd) by assumption. rewrite (weight_at Ns Nd) by assumption. exact (H k1 p k2 b i j V1 V2 Hi Hj).
Qed.
Lemma wsum_scal Ns Nd w k p u f : wsum Ns Nd w k p (fun p' => u * f p') = u * wsum Ns Nd w k p f.
Proof. unfold wsum. destruct k; try reflexivity. destruct (Nat.ltb p (Ns + Nd)); ring. Qed.

Lemma geom_scal x y a1 a2 : 0 < a1 -> 0 < a2 -> / 10 ^ 8 < norm (vsub x y) -> / 10 ^ 8 < h * norm (vsub x y) ->
  snd (pair_geometry (vscal h x) (vscal h y) (h * a1) (h * a2)) = h * snd (pair_geometry x y a1 a2) /\
  forall t, (t < 3)%nat -> fst (pair_geometry (vscal h x) (vscal h y) (h * a1) (h * a2)) t = vscal h (fst (pair_geometry x y a1 a2)) t.
Proof.
  intros H1 H2 A B. unfold pair_geometry. rewrite vsub_vscal, (norm_vscal h Hh).
  assert (P8 : 0 < / 10 ^ 8) by (apply Rinv_0_lt_compat, pow_lt; lra).
  set (r := vsub x y) in *. destruct (Rlt_dec (/ 10 ^ 8) (h * norm r)) as [_|N]; [|contradiction].
  destruct (Rlt_dec (/ 10 ^ 8) (norm r)) as [_|N]; [|contradiction].
  replace (2 * (h * norm r) / (h * a1 + h * a2)) with (2 * norm r / (a1 + a2)) by (field; split; nra).
  destruct (Rlt_dec (2 * norm r / (a1 + a2)) (2001 / 1000)).
  - cbn [fst snd]. split; [field|]. intros t Ht. unfold vscal. idx3 Ht; cbn [v3]; field; lra.
  - cbn [fst snd]. split; [reflexivity|]. reflexivity.
Qed.

Lemma bead_positions_rescaled p b : bead_positions (rescaled h p) b = vscal h (bead_positions p b).
Proof.
  unfold bead_positions, rescaled. cbn [num_spheres num_dumbbells sphere_positions dumbbell_positions dumbbell_deltax].
  destruct (Nat.ltb b (num_spheres p)); [reflexivity|]. destruct (Nat.ltb b (num_spheres p + num_dumbbells p));
  apply functional_extensionality; intros i; unfold vsub, vadd, vscal; ring.
Qed.
Lemma bead_sizes_rescaled p b : bead_sizes (rescaled h p) b = h * bead_sizes p b.
Proof.
  unfold bead_sizes, rescaled. cbn [num_spheres num_dumbbells sphere_sizes dumbbell_sizes].
  destruct (Nat.ltb b (num_spheres p)); [reflexivity|]. destruct (Nat.ltb b (num_spheres p + num_dumbbells p)); reflexivity.
Qed.
Lemma positions_fun p : bead_positions (rescaled h p) = fun b => vscal h (bead_positions p b).
Proof. apply functional_extensionality. apply bead_positions_rescaled. Qed.
Lemma sizes_fun p : bead_sizes (rescaled h p) = fun b => h * bead_sizes p b.
Proof. apply functional_extensionality. apply bead_sizes_rescaled. Qed.

Lemma e8_tiny z : / 10 ^ 8 < z -> tiny < z.
Proof.
  intros H. apply (Rlt_trans _ (/ 10 ^ 8)); [|exact H]. unfold tiny. apply Rinv_lt_contravar.
  - apply Rmult_lt_0_compat; apply pow_lt; lra.
  - apply Rlt_pow; [lra|lia].
Qed.
Section P.
Variables (bb : bool) (p : posdata) (mu : R).
Let Ns := num_spheres p.
Let Nd := num_dumbbells p.
Let n := (Ns + 2 * Nd)%nat.
Let x := bead_positions p.
Let a := bead_sizes p.
Hypothesis Ha : forall b, (b < n)%nat -> 0 < a b.
Hypothesis HX : apart n x.
Hypothesis HX' : apart n (fun b => vscal h (x b)).

Lemma dist_x : distinct_beads n x a.
Proof. split; [exact Ha|]. intros b q Hb Hq N. apply e8_tiny. apply HX; assumption. Qed.
Lemma dist_x' : distinct_beads n (fun b => vscal h (x b)) (fun b => h * a b).
Proof. split; [intros b Hb; specialize (Ha b Hb); nra|]. intros b q Hb Hq N. apply e8_tiny. apply HX'; assumption. Qed.
Lemma far_apart b q : (b < n)%nat -> (q < n)%nat -> b <> q -> / 10 ^ 8 < norm (vsub (x b) (x q)) /\ / 10 ^ 8 < h * norm (vsub (x b) (x q)).
Proof.
  intros Hb Hq N. split; [apply HX; assumption|]. pose proof (HX' b q Hb Hq N) as H. cbv beta in H. rewrite vsub_vscal, (norm_vscal h Hh) in H. exact H.
Qed.

Lemma bead_mob_scal k1 b k2 q i j : mu <> 0 -> (b < n)%nat -> (q < n)%nat -> (i < ksize k1)%nat -> (j < ksize k2)%nat ->
  bead_mobility bb (fun p b => pair_geometry (vscal h (x p)) (vscal h (x b)) (h * a p) (h * a b)) (fun b => h * a b) (1 / (8 * PI * mu)) mu k1 b k2 q i j
  = mu_ k1 k2 * bead_mobility bb (fun p b => pair_geometry (x p) (x b) (a p) (a b)) a (1 / (8 * PI * mu)) mu k1 b k2 q i j.
Proof.
  intros Hmu Hb Hq Hi Hj. set (c := 1 / (8 * PI * mu)).
  set (g := pair_geometry (x b) (x q) (a b) (a q)). set (g' := pair_geometry (vscal h (x b)) (vscal h (x q)) (h * a b) (h * a q)).
  pose proof (Ha b Hb) as A1. pose proof (Ha q Hq) as A2.
  assert (B : both h (fst g) /\ norm (fst g) = snd g /\ snd g' = h * snd g /\ forall t, (t < 3)%nat -> fst g' t = vscal h (fst g) t).
  { destruct (Nat.eq_dec b q) as [<-|N].
    - unfold g, g'. rewrite !geom_self. cbn [fst snd]. split; [|split; [apply norm_zero_vsub|split; [ring|]]].
      + right. intros t _. unfold vsub. ring.
      + intros t _. unfold vsub, vscal. ring.
    - destruct (far_apart b q Hb Hq N) as [F1 F2].
      destruct (geom_scal (x b) (x q) (a b) (a q) A1 A2 F1 F2) as [G1 G2].
      destruct (geom_far (x b) (x q) (a b) (a q)) as [G3 G4]; [lra|apply e8_tiny; exact F1|].
      fold g in G1, G2, G3, G4. fold g' in G1, G2. split; [|split; [exact G4|split; [exact G1|exact G2]]].
      left. rewrite G4. split; [exact G3|].
      destruct (geom_far (vscal h (x b)) (vscal h (x q)) (h * a b) (h * a q)) as [G5 _];
        [nra|rewrite vsub_vscal, (norm_vscal h Hh); apply e8_tiny; exact F2|]. fold g' in G5. rewrite G1 in G5. exact G5. }
  destruct B as (B1 & B2 & B3 & B4).
  assert (P : pmob k1 k2 (fst g') (snd g') (h * a b) (h * a q) c mu i j = mu_ k1 k2 * pmob k1 k2 (fst g) (snd g) (a b) (a q) c mu i j).
  { rewrite (pmob_ext3 k1 k2 _ (vscal h (fst g))) by assumption. rewrite B3, <- B2.
    rewrite (pmob_scal h Hh) by assumption. unfold mu_, Rdiv. apply Rmult_comm. }
  unfold bead_mobility. fold g g'. destruct k1, k2; try exact P. destruct (bb || Nat.eqb b q)%bool; [exact P|ring].
Qed.

Theorem far_scaled : mu <> 0 -> blocks_scaled Ns Nd mu_ (generate_Minfinity bb p mu) (generate_Minfinity bb (rescaled h p) mu).
Proof.
  intros Hmu.
  assert (L : blocks_scaled Ns Nd mu_
    (generate_Minfinity_loop bb x a Ns Nd (1 / (8 * PI * mu)) mu)
    (generate_Minfinity_loop bb (fun b => vscal h (x b)) (fun b => h * a b) Ns Nd (1 / (8 * PI * mu)) mu)).
  { intros k1 b1 k2 b2 i j V1 V2 Hi Hj.
    rewrite loop_entry by (assumption || exact dist_x'). rewrite loop_entry by (assumption || exact dist_x).
    apply bead_mob_scal; try assumption.
    - apply (kvalid_nb _ _ _ _ V1).
    - apply (kvalid_nb _ _ _ _ V2). }
  unfold generate_Minfinity. rewrite positions_fun, sizes_fun. cbn [rescaled num_spheres num_dumbbells]. fold x a Ns Nd.
  set (Ml := generate_Minfinity_loop _ x a _ _ _ _) in *. set (Ml' := generate_Minfinity_loop _ (fun b => vscal h (x b)) _ _ _ _ _) in *. clearbody Ml Ml'.
  destruct (Nat.ltb 0 Nd); [|exact L].
  fold (minf_transform Ns Nd Ml). fold (minf_transform Ns Nd Ml').
  intros k1 b1 k2 b2 i j V1 V2 Hi Hj. rewrite !transform_ent by assumption. rewrite <- wsum_scal.
  apply wsum_eq; [|assumption]. intros q' Vq. rewrite <- wsum_scal.
  apply wsum_eq; [|assumption]. intros p' Vp. apply L; assumption.
Qed.

(** Drag. *)
Theorem drag_scaled : blocks_scaled Ns Nd ru_ (drag_Minfinity_inverse p mu) (drag_Minfinity_inverse (rescaled h p) mu).
Proof.
  intros k1 b1 k2 b2 i j V1 V2 Hi Hj.
  change Ns with (num_spheres (rescaled h p)) at 1. rewrite drag_ent by assumption. unfold Ns. rewrite drag_ent by assumption.
  change (num_spheres (rescaled h p)) with (num_spheres p).
  destruct (Nat.eqb_spec (kstart (num_spheres p) k1 b1 + i) (kstart (num_spheres p) k2 b2 + j)) as [E|_]; [|ring].
  destruct (block_inj _ _ _ _ _ _ _ _ V1 V2 Hi Hj E) as (<- & _). unfold ru_, drag_of.
  destruct k1; cbn [Proof_Rescale1.kw rescaled sphere_sizes dumbbell_sizes num_spheres num_dumbbells]; ring.
Qed.

(** Near field. *)
Lemma scaled_distance_scal b q : 0 < a b -> 0 < a q -> scaled_distance (fun b => vscal h (x b)) (fun b => h * a b) b q = scaled_distance x a b q.
Proof. intros A B. unfold scaled_distance. rewrite vsub_vscal, (norm_vscal h Hh). field. split; nra. Qed.
Lemma direction_scal b q : 0 < norm (vsub (x q) (x b)) -> direction (fun b => vscal h (x b)) b q = direction x b q.
Proof.
  intros N. unfold direction. rewrite vsub_vscal, (norm_vscal h Hh). apply functional_extensionality. intros t. unfold vscal. field. split; lra.
Qed.
Lemma two_body_scal sc k1 k2 d b i j : (mrank k2 <= mrank k1)%nat -> two_body sc k1 k2 d (h * b) i j = ru_ k1 k2 * two_body sc k1 k2 d b i j.
Proof. unfold ru_. destruct k1, k2; cbn [mrank two_body Proof_Rescale1.kw]; intros; try lia; ring. Qed.
Lemma ru_sym k1 k2 : ru_ k1 k2 = ru_ k2 k1. Proof. unfold ru_. ring. Qed.
Lemma cross_scal sc ix k1 k2 d s ap aq i j : 0 < ap -> 0 < aq ->
  cross_block sc ix k1 k2 d s (h * ap) (h * aq) i j = ru_ k1 k2 * cross_block sc ix k1 k2 d s ap aq i j.
Proof.
  intros Hp Hq. unfold cross_block. replace (h * aq / (h * ap)) with (aq / ap) by (field; split; lra).
  replace (h * ap / (h * aq)) with (ap / aq) by (field; split; lra).
  destruct (Nat.leb_spec (mrank k2) (mrank k1)); rewrite two_body_scal by lia; [reflexivity|rewrite (ru_sym k2); reflexivity].
Qed.
Lemma self_scal sc ix k1 k2 d s ap aq i j : 0 < ap -> 0 < aq ->
  self_block sc ix k1 k2 d s (h * ap) (h * aq) i j = ru_ k1 k2 * self_block sc ix k1 k2 d s ap aq i j.
Proof.
  intros Hp Hq. unfold self_block. replace (h * aq / (h * ap)) with (aq / ap) by (field; split; lra).
  destruct (Nat.leb_spec (mrank k2) (mrank k1)); rewrite two_body_scal by lia; [reflexivity|rewrite (ru_sym k2); reflexivity].
Qed.
Lemma free_scal sc ix cf k1 b k2 q i j : (b < n)%nat -> (q < n)%nat ->
  free_resistance sc ix bb (fun b => vscal h (x b)) (fun b => h * a b) n cf k1 b k2 q i j
  = ru_ k1 k2 * free_resistance sc ix bb x a n cf k1 b k2 q i j.
Proof.
  intros Hb Hq.
  assert (U : forall q, (q < n)%nat -> q <> b -> 0 < norm (vsub (x q) (x b))).
  { intros q' Hq' N. pose proof (HX q' b Hq' Hb N). assert (0 < / 10 ^ 8) by (apply Rinv_0_lt_compat, pow_lt; lra). lra. }
  unfold free_resistance. destruct (Nat.eqb_spec b q) as [<-|N].
  - rewrite <- rsum_scal_l. apply rsum_ext. intros q' Hq'. rewrite scaled_distance_scal by auto.
    destruct (Nat.eqb_spec q' b) as [->|N']; cbn [negb andb]; [ring|]. rewrite direction_scal by auto.
    destruct (Rlt_dec (scaled_distance x a b q') (2 * cf)); [|ring]. apply self_scal; auto.
  - rewrite scaled_distance_scal, direction_scal by auto.
    assert (P : (if (if Rlt_dec (scaled_distance x a b q) (2 * cf) then true else false)
        then cross_block sc ix k1 k2 (direction x b q) (scaled_distance x a b q) (h * a b) (h * a q) i j else 0)
      = ru_ k1 k2 * (if (if Rlt_dec (scaled_distance x a b q) (2 * cf) then true else false)
        then cross_block sc ix k1 k2 (direction x b q) (scaled_distance x a b q) (a b) (a q) i j else 0)).
    { destruct (Rlt_dec (scaled_distance x a b q) (2 * cf)); [|ring]. apply cross_scal; auto. }
    destruct k1, k2; try exact P. destruct bb; [exact P|ring].
Qed.
Lemma close_scal cf : close_particles_free (fun b => vscal h (x b)) (fun b => h * a b) n cf = close_particles_free x a n cf.
Proof.
  unfold close_particles_free.
  assert (E : forall f : nat * nat, In f (flat_map (fun i => map (fun j => (i, j)) (seq 0 n)) (seq 0 n)) -> 0 < a (fst f) /\ 0 < a (snd f)).
  { intros f I. apply in_flat_map in I. destruct I as (i & Hi & I). apply in_map_iff in I. destruct I as (j & <- & Hj). apply in_seq in Hi, Hj.
    cbn [fst snd]. split; apply Ha; lia. }
  assert (D : forall f : nat * nat, 0 < a (fst f) -> 0 < a (snd f) ->
     norm (vsub (vscal h (x (fst f))) (vscal h (x (snd f)))) / (1 / 2 * (h * a (snd f) + h * a (fst f)))
     = norm (vsub (x (fst f)) (x (snd f))) / (1 / 2 * (a (snd f) + a (fst f)))).
  { intros f A B. rewrite vsub_vscal, (norm_vscal h Hh). field. split; nra. }
  assert (F : filter (fun f => Rltb (norm (vsub (vscal h (x (fst f))) (vscal h (x (snd f)))) / (1 / 2 * (h * a (snd f) + h * a (fst f)))) (2 * cf))
      (flat_map (fun i => map (fun j => (i, j)) (seq 0 n)) (seq 0 n))
    = filter (fun f => Rltb (norm (vsub (x (fst f)) (x (snd f))) / (1 / 2 * (a (snd f) + a (fst f)))) (2 * cf))
      (flat_map (fun i => map (fun j => (i, j)) (seq 0 n)) (seq 0 n))).
  { apply filter_ext_in. intros f I. destruct (E f I). rewrite D by assumption. reflexivity. }
  rewrite F. apply map_ext_in. intros f I. apply filter_In in I. destruct I as [I _]. apply filter_In in I. destruct I as [I _].
  destruct (E f I) as [A B]. rewrite D by assumption. f_equal.
  - apply functional_extensionality. intros t. unfold vscal, vsub. field. split; nra.
  - field. split; lra.
Qed.

Variables (sc : nat -> nat -> R -> nat -> R) (table : list R) (cf : R).
Hypothesis Hcf : 0 < cf.
Lemma Ha' b : (b < n)%nat -> 0 < h * a b. Proof. intros Hb. specialize (Ha b Hb). nra. Qed.
Lemma near_none_scal : generate_R2Bexact_free sc table bb (rescaled h p) cf mu = None <-> generate_R2Bexact_free sc table bb p cf mu = None.
Proof.
  unfold generate_R2Bexact_free. rewrite positions_fun, sizes_fun. cbn [rescaled num_spheres num_dumbbells]. fold x a Ns Nd n. rewrite close_scal.
  unfold generate_R2Bexact.
  assert (C' : close_list n (fun b => h * a b) (close_particles_free x a n cf)) by (rewrite <- close_scal; apply free_close_list; exact Hcf).
  pose proof (loop_fails_iff sc table bb (fun b => h * a b) Ns Nd (close_particles_free x a n cf) n C' Ha') as A.
  pose proof (loop_fails_iff sc table bb a Ns Nd (close_particles_free x a n cf) n (free_close_list x a n cf Hcf) Ha) as B.
  rewrite <- B in A.
  destruct (generate_R2Bexact_loop sc table bb (fun b => h * a b) Ns Nd (close_particles_free x a n cf));
  destruct (generate_R2Bexact_loop sc table bb a Ns Nd (close_particles_free x a n cf)); destruct A as [A1 A2]; split; intros H; try discriminate; try reflexivity.
  - discriminate (A2 eq_refl).
  - discriminate (A1 eq_refl).
Qed.
Lemma near_loop_scal M M' :
  generate_R2Bexact_loop sc table bb a Ns Nd (close_particles_free x a n cf) = Some M ->
  generate_R2Bexact_loop sc table bb (fun b => h * a b) Ns Nd (close_particles_free (fun b => vscal h (x b)) (fun b => h * a b) n cf) = Some M' ->
  blocks_scaled Ns Nd ru_ M M'.
Proof.
  intros HM HM'.
  assert (SY : forall a pairs G, generate_R2Bexact_loop sc table bb a Ns Nd pairs = Some G -> msym (11 * Ns + 6 * Nd) G).
  { intros a0 pairs G H. unfold generate_R2Bexact_loop in H. destruct (fold_left _ _ _); [|discriminate]. injection H as <-. apply symmetrise_sym. }
  assert (W : forall k1 p1 k2 p2 i j, kvalid Ns Nd k1 p1 -> kvalid Ns Nd k2 p2 -> (i < ksize k1)%nat -> (j < ksize k2)%nat ->
     (mrank k1 <> mrank k2 \/ (p1 <= p2)%nat) -> ent Ns M' k1 p1 k2 p2 i j = ru_ k1 k2 * ent Ns M k1 p1 k2 p2 i j).
  { intros k1 p1 k2 p2 i j V1 V2 Hi Hj O.
    assert (O' : forall P, mrank k1 <> mrank k2 \/ (p1 <= p2)%nat \/ P) by (intros; tauto).
    unfold ent. rewrite (free_loop_entry sc table bb (fun b => vscal h (x b)) (fun b => h * a b) Ns Nd cf k1 p1 k2 p2 i j Hcf Ha' V1 V2 Hi Hj (O' _) M' HM').
    rewrite (free_loop_entry sc table bb x a Ns Nd cf k1 p1 k2 p2 i j Hcf Ha V1 V2 Hi Hj (O' _) M HM).
    apply free_scal; unfold n; eapply kvalid_nb; eassumption. }
  intros k1 p1 k2 p2 i j V1 V2 Hi Hj.
  destruct (Nat.eq_dec (mrank k1) (mrank k2)) as [E|E]; [|apply W; auto].
  destruct (le_lt_dec p1 p2) as [L|L]; [apply W; auto|].
  unfold ent. rewrite (SY _ _ _ HM') by (apply block_range; assumption). rewrite (SY _ _ _ HM) by (apply block_range; assumption).
  rewrite ru_sym. apply W; try assumption. right. lia.
Qed.
Theorem near_scaled G G' : generate_R2Bexact_free sc table bb p cf mu = Some G ->
  generate_R2Bexact_free sc table bb (rescaled h p) cf mu = Some G' -> blocks_scaled Ns Nd ru_ G G'.
Proof.
  unfold generate_R2Bexact_free. rewrite positions_fun, sizes_fun. cbn [rescaled num_spheres num_dumbbells]. fold x a Ns Nd n. intros H H'.
  destruct (gen_r2b_some _ _ _ _ _ _ _ _ _ H) as (M & HM & _ & EG). destruct (gen_r2b_some _ _ _ _ _ _ _ _ _ H') as (M' & HM' & _ & EG').
  pose proof (near_loop_scal M M' HM HM') as L.
  intros k1 b1 k2 b2 i j V1 V2 Hi Hj. unfold ent. rewrite EG', EG by (apply block_range; assumption).
  rewrite <- Rmult_assoc, (Rmult_comm (ru_ k1 k2) mu), Rmult_assoc. f_equal.
  change (ent Ns (r2b_transform Ns Nd M') k1 b1 k2 b2 i j = ru_ k1 k2 * ent Ns (r2b_transform Ns Nd M) k1 b1 k2 b2 i j).
  rewrite !r2b_transform_ent by assumption. rewrite <- wsum_scal.
  apply wsum_eq; [|assumption]. intros q' Vq. rewrite <- wsum_scal.
  apply wsum_eq; [|assumption]. intros p' Vp. apply L; assumption.
Qed.
End P.

(** Inverses. *)
Lemma weight_pos Ns r : 0 < weight h Ns r.
Proof. unfold weight. destruct (Nat.ltb r (3 * Ns)); [lra|]. destruct (Nat.ltb r (11 * Ns)); lra. Qed.
Lemma inv_scaled Ns n M M' I I' : mobility_rescaled h Ns n M M' -> is_inv n M I -> is_inv n M' I' -> resistance_rescaled h Ns n I I'.
Proof.
  intros HM HI HI'. set (J := fun r c => h * weight h Ns r * weight h Ns c * I r c).
  assert (HJ : is_inv n M' J).
  { intros i j Hi Hj. destruct (HI i j Hi Hj) as [A B]. split.
    - unfold mmul. rewrite (rsum_ext n _ (fun k => weight h Ns j / weight h Ns i * (M i k * I k j))).
      + rewrite rsum_scal_l. unfold mmul in A. rewrite A. unfold delta. destruct (Nat.eqb_spec i j) as [->|_]; [|ring].
        field. apply Rgt_not_eq, weight_pos.
      + intros k Hk. rewrite HM by assumption. unfold J. field. repeat split; apply Rgt_not_eq; (apply weight_pos || lra).
    - unfold mmul. rewrite (rsum_ext n _ (fun k => weight h Ns i / weight h Ns j * (I i k * M k j))).
      + rewrite rsum_scal_l. unfold mmul in B. rewrite B. unfold delta. destruct (Nat.eqb_spec i j) as [->|_]; [|ring].
        field. apply Rgt_not_eq, weight_pos.
      + intros k Hk. rewrite HM by assumption. unfold J. field. repeat split; apply Rgt_not_eq; (apply weight_pos || lra). }
  intros r c Hr Hc. apply (is_inv_unique n M' I' J HI' HJ r c Hr Hc).
Qed.
Lemma inv_exists Ns n M M' I : mobility_rescaled h Ns n M M' -> is_inv n M I -> exists I', is_inv n M' I'.
Proof.
  intros HM HI. exists (fun r c => h * weight h Ns r * weight h Ns c * I r c).
  intros i j Hi Hj. destruct (HI i j Hi Hj) as [A B]. split.
  - unfold mmul. rewrite (rsum_ext n _ (fun k => weight h Ns j / weight h Ns i * (M i k * I k j))).
    + rewrite rsum_scal_l. unfold mmul in A. rewrite A. unfold delta. destruct (Nat.eqb_spec i j) as [->|_]; [|ring].
      field. apply Rgt_not_eq, weight_pos.
    + intros k Hk. rewrite HM by assumption. field. repeat split; apply Rgt_not_eq; (apply weight_pos || lra).
  - unfold mmul. rewrite (rsum_ext n _ (fun k => weight h Ns i / weight h Ns j * (I i k * M k j))).
    + rewrite rsum_scal_l. unfold mmul in B. rewrite B. unfold delta. destruct (Nat.eqb_spec i j) as [->|_]; [|ring].
      field. apply Rgt_not_eq, weight_pos.
    + intros k Hk. rewrite HM by assumption. field. repeat split; apply Rgt_not_eq; (apply weight_pos || lra).
Qed.
End S.
