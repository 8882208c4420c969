(** Relabelling of the periodic mobility; the lattice and wave vectors. *)
From Coq Require Import Reals Arith Bool List Lia Lra ZArith Permutation FunctionalExtensionality.
From Verif Require Import Base Model_Pack Model_Mob Model_Layout Model_Minf Model_Close Model_L Model_Ewald Model_MinfP
  Spec_Layout Spec_Minf Spec_MinfP Spec_Calc Spec_Shear Proof_Fold Proof_Layout Proof_Calc Proof_Mob Proof_Mob2
  Proof_Minf Proof_L Proof_Minf2 Proof_Minf3 Proof_Close Proof_MinfP1 Proof_MinfP2 Proof_MinfP3 Proof_MinfP4.
Import ListNotations.
Local Open Scope R_scope.

Section Relabel.
Variables (h : nat) (bb : bool) (p : posdata) (bl tr : vec) (mu : R) (Ot : vec) (Et : mat) (st : nat -> nat -> R) (s t : nat -> nat).
Let Ns := num_spheres p.
Let Nd := num_dumbbells p.
Hypothesis Hs : permutes Ns s.
Hypothesis Ht : permutes Nd t.
Let br := bead_relabel s t Ns Nd.
Let lat := build_lattice h bl tr Ot Et.

Lemma apart_relabel :
  apart lat (Ns + 2 * Nd) (bead_positions p) (bead_sizes p) ->
  apart lat (Ns + 2 * Nd) (bead_positions (relabel s t p)) (bead_sizes (relabel s t p)).
Proof.
  intros [HD HX]. split; [apply distinct_relabel; assumption|].
  intros b b' X Hb Hb' Hne HXi. rewrite !(br_positions p s t Hs Ht), !(br_sizes p s t Hs Ht) in * by assumption.
  apply HX; try assumption; apply br_lt; assumption.
Qed.

Lemma same_dumbbell_relabel b b' : kvalid Ns Nd KB b -> kvalid Ns Nd KB b' ->
  same_dumbbell Nd (br b) (br b') = same_dumbbell Nd b b'.
Proof.
  simpl. intros V1 V2.
  assert (S : forall y y', (Ns <= y < Ns + 2 * Nd)%nat -> (Ns <= y' < Ns + 2 * Nd)%nat ->
     (same_dumbbell Nd y y' = true <-> y = y' \/ partner Ns Nd y = y')).
  { intros y y' B1 B2. unfold same_dumbbell, partner.
    destruct (Nat.eqb_spec y y'), (Nat.eqb_spec (y + Nd) y'), (Nat.eqb_spec (y' + Nd) y), (Nat.ltb_spec y (Ns + Nd));
    cbn [orb]; split; intros; try reflexivity; try lia; try discriminate. }
  assert (R1 : (Ns <= br b < Ns + 2 * Nd)%nat) by exact (br_valid p s t Hs Ht KB b V1).
  assert (R2 : (Ns <= br b' < Ns + 2 * Nd)%nat) by exact (br_valid p s t Hs Ht KB b' V2).
  assert (PV : (Ns <= partner Ns Nd b < Ns + 2 * Nd)%nat) by exact (partner_valid p b V1).
  assert (E : same_dumbbell Nd (br b) (br b') = true <-> same_dumbbell Nd b b' = true).
  { rewrite (S _ _ R1 R2), (S _ _ V1 V2).
    assert (Q : br (partner Ns Nd b) = partner Ns Nd (br b)) by (apply br_partner; assumption).
    rewrite <- Q. split.
    - intros [H|H]; [left|right]; apply (br_inj p s t Hs Ht); unfold Ns, Nd in *; try lia; exact H.
    - intros [->|<-]; [left|right]; reflexivity. }
  destruct (same_dumbbell Nd (br b) (br b')), (same_dumbbell Nd b b'); try reflexivity;
  [symmetry|]; apply E; reflexivity.
Qed.

Lemma loopP_relabel k1 b k2 b' i j :
  apart lat (Ns + 2 * Nd) (bead_positions p) (bead_sizes p) ->
  kvalid Ns Nd k1 b -> kvalid Ns Nd k2 b' -> (i < ksize k1)%nat -> (j < ksize k2)%nat ->
  ent Ns (minfP_loop h bb (relabel s t p) bl tr mu Ot Et st) k1 b k2 b' i j =
  ent Ns (minfP_loop h bb p bl tr mu Ot Et st) k1 (br b) k2 (br b') i j.
Proof.
  intros HD V1 V2 Hi Hj.
  change Ns with (num_spheres (relabel s t p)) at 1.
  rewrite genP_entry by (try assumption; apply apart_relabel; assumption).
  unfold Ns. rewrite genP_entry by (try assumption; apply br_valid; assumption).
  assert (B1 : (b < Ns + 2 * Nd)%nat) by (apply (kvalid_nb Ns Nd k1); assumption).
  assert (B2 : (b' < Ns + 2 * Nd)%nat) by (apply (kvalid_nb Ns Nd k2); assumption).
  unfold periodic_bead_mobility. simpl num_dumbbells.
  rewrite !(br_positions p s t Hs Ht), !(br_sizes p s t Hs Ht) by assumption. fold Ns Nd. fold br.
  destruct k1, k2; cbn [mixed];
    lazymatch goal with
    | |- ?t = ?t => reflexivity
    | |- (match ?e with true => ?x | false => ?x end) = (match ?e' with true => ?x | false => ?x end) =>
        destruct e, e'; reflexivity
    | |- _ => rewrite same_dumbbell_relabel by assumption; reflexivity
    end.
Qed.

Lemma genP_relabel k1 b k2 b' i j :
  apart lat (Ns + 2 * Nd) (bead_positions p) (bead_sizes p) ->
  kvalid Ns Nd k1 b -> kvalid Ns Nd k2 b' -> (i < ksize k1)%nat -> (j < ksize k2)%nat ->
  generate_Minfinity_periodic h bb (relabel s t p) bl tr mu Ot Et st (kstart Ns k1 b + i)%nat (kstart Ns k2 b' + j)%nat =
  generate_Minfinity_periodic h bb p bl tr mu Ot Et st (kstart Ns k1 (br b) + i)%nat (kstart Ns k2 (br b') + j)%nat.
Proof.
  intros HD V1 V2 Hi Hj.
  assert (W1 : kvalid Ns Nd k1 (br b)) by (apply (br_valid p s t Hs Ht); exact V1).
  assert (W2 : kvalid Ns Nd k2 (br b')) by (apply (br_valid p s t Hs Ht); exact V2).
  rewrite !genP_transform by (apply block_range; assumption).
  change (ent Ns (minf_transform Ns Nd (minfP_loop h bb (relabel s t p) bl tr mu Ot Et st)) k1 b k2 b' i j =
          ent Ns (minf_transform Ns Nd (minfP_loop h bb p bl tr mu Ot Et st)) k1 (br b) k2 (br b') i j).
  rewrite !transform_ent by assumption.
  assert (Hiff : forall k x, kvalid Ns Nd k x -> (x < Ns + Nd <-> br x < Ns + Nd)%nat).
  { intros k x V. destruct (br_range p s t Hs Ht x) as [_ ?]; [apply (kvalid_nb Ns Nd k x V)|].
    unfold br, Ns, Nd in *. tauto. }
  assert (Inner : forall y, kvalid Ns Nd k2 y ->
     wsum Ns Nd (1 / 2) k1 b (fun p' => ent Ns (minfP_loop h bb (relabel s t p) bl tr mu Ot Et st) k1 p' k2 y i j) =
     wsum Ns Nd (1 / 2) k1 (br b) (fun p' => ent Ns (minfP_loop h bb p bl tr mu Ot Et st) k1 p' k2 (br y) i j)).
  { intros y Vy. apply wsum_ext; try assumption.
    - intros ->. apply (Hiff KB). exact V1.
    - apply loopP_relabel; assumption.
    - intros ->. rewrite loopP_relabel; try assumption; [|apply partner_valid; assumption].
      unfold br. rewrite (br_partner p s t Hs Ht) by (simpl in V1; unfold Ns, Nd in *; lia). reflexivity. }
  apply wsum_ext; try assumption.
  - intros ->. apply (Hiff KB). exact V2.
  - apply Inner. exact V2.
  - intros ->. rewrite Inner by (apply partner_valid; assumption).
    unfold br. rewrite (br_partner p s t Hs Ht) by (simpl in V2; unfold Ns, Nd in *; lia). reflexivity.
Qed.
End Relabel.

(** ** The lattice *)
Lemma gridpoints_in h x : In x (gridpoints h) <-> exists z : Z, (Z.abs z <= Z.of_nat h)%Z /\ x = IZR z.
Proof.
  unfold gridpoints. rewrite in_map_iff. split.
  - intros (n & <- & H). apply in_seq in H. exists (Z.of_nat n - Z.of_nat h)%Z. split; [lia|].
    rewrite minus_IZR, <- !INR_IZR_INZ. reflexivity.
  - intros (z & Hz & ->). exists (Z.to_nat (z + Z.of_nat h)). split.
    + rewrite INR_IZR_INZ, Z2Nat.id, plus_IZR, <- INR_IZR_INZ by lia. ring.
    + apply in_seq. lia.
Qed.
Lemma canonical_in h X : In X (X_canonical h) <->
  exists l m n : Z, (Z.abs l <= Z.of_nat h)%Z /\ (Z.abs m <= Z.of_nat h)%Z /\ (Z.abs n <= Z.of_nat h)%Z /\
    X = v3 (IZR l) (IZR m) (IZR n).
Proof.
  unfold X_canonical. rewrite in_flat_map. split.
  - intros (x & Hx & H). apply in_flat_map in H. destruct H as (y & Hy & H). apply in_map_iff in H.
    destruct H as (z & <- & Hz). apply gridpoints_in in Hx, Hy, Hz.
    destruct Hx as (l & Hl & ->), Hy as (m & Hm & ->), Hz as (n & Hn & ->). exists l, m, n. auto.
  - intros (l & m & n & Hl & Hm & Hn & ->). exists (IZR l). split; [apply gridpoints_in; eauto|].
    apply in_flat_map. exists (IZR m). split; [apply gridpoints_in; eauto|].
    apply in_map_iff. exists (IZR n). split; [reflexivity|apply gridpoints_in; eauto].
Qed.

(** Integer combination of basis vectors. *)
Definition combination (b : nat -> vec) (l m n : Z) : vec :=
  fun j => IZR l * b 0%nat j + IZR m * b 1%nat j + IZR n * b 2%nat j.
Lemma rowmul_combination l m n B : rowmul (v3 (IZR l) (IZR m) (IZR n)) B = combination B l m n.
Proof. apply functional_extensionality. intros j. unfold rowmul, combination. cbn [rsum v3]. ring. Qed.

Lemma lattice_X h bl tr Ot Et X :
  let lat := build_lattice h bl tr Ot Et in
  let B := shear_basis_vectors (diag3 (vsub tr bl)) (vsub tr bl) Ot Et in
  In X (X_lmn lat) <->
  exists l m n : Z, (Z.abs l <= Z.of_nat h)%Z /\ (Z.abs m <= Z.of_nat h)%Z /\ (Z.abs n <= Z.of_nat h)%Z /\
    X = combination B l m n /\ norm X <= 14142 / 10000 * INR h * lat_L lat.
Proof.
  intros lat B. unfold lat, build_lattice. cbn [X_lmn lat_L]. rewrite filter_In, Rleb_spec, in_map_iff. fold B.
  unfold grid_radius. split.
  - intros ((x & <- & H) & Hn). apply canonical_in in H. destruct H as (l & m & n & Hl & Hm & Hn' & ->).
    exists l, m, n. rewrite rowmul_combination in *. auto.
  - intros (l & m & n & Hl & Hm & Hn & -> & H). split; [|exact H].
    exists (v3 (IZR l) (IZR m) (IZR n)). split; [apply rowmul_combination|apply canonical_in; exists l, m, n; auto].
Qed.
Lemma lattice_Xdash h bl tr Ot Et X :
  let lat := build_lattice h bl tr Ot Et in
  In X (Xdash_lmn lat) <-> In X (X_lmn lat) /\ 0 < norm X.
Proof. intros lat. unfold lat, build_lattice. cbn [X_lmn Xdash_lmn]. rewrite (filter_In (fun X => Rltb 0 (norm X))), Rltb_spec. tauto. Qed.

Lemma lattice_K h bl tr Ot Et K :
  let lat := build_lattice h bl tr Ot Et in
  let B := shear_basis_vectors (diag3 (vsub tr bl)) (vsub tr bl) Ot Et in
  In K (K_lmn lat) <->
  exists l m n : Z, (Z.abs l <= Z.of_nat h)%Z /\ (Z.abs m <= Z.of_nat h)%Z /\ (Z.abs n <= Z.of_nat h)%Z /\
    0 < norm (combination B l m n) <= 14142 / 10000 * INR h * lat_L lat /\
    K = combination (k_basis (lat_L lat) B) l m n.
Proof.
  intros lat B. unfold lat, build_lattice. cbn [K_lmn lat_L]. rewrite in_map_iff. fold B. split.
  - intros (x & <- & H). apply filter_In in H. destruct H as [H HB]. apply andb_prop in HB. destruct HB as [H1 H2].
    apply canonical_in in H. destruct H as (l & m & n & Hl & Hm & Hn' & ->).
    rewrite rowmul_combination in *. apply Rleb_spec in H1. apply Rltb_spec in H2. unfold grid_radius in H1.
    exists l, m, n. auto 10.
  - intros (l & m & n & Hl & Hm & Hn & [H0 H] & ->).
    exists (v3 (IZR l) (IZR m) (IZR n)). split; [apply rowmul_combination|].
    apply filter_In. split; [apply canonical_in; exists l, m, n; auto|].
    rewrite rowmul_combination. apply andb_true_intro. split; [apply Rleb_spec; exact H|apply Rltb_spec; exact H0].
Qed.

(** Each lattice vector comes once if the basis is one. *)
Lemma gridpoints_nodup h : NoDup (gridpoints h).
Proof.
  unfold gridpoints. apply FinFun.Injective_map_NoDup; [|apply seq_NoDup].
  intros a b E. apply INR_eq. lra.
Qed.
Lemma nodup_app2 {A} (l l' : list A) : NoDup l -> NoDup l' -> (forall x, In x l -> In x l' -> False) -> NoDup (l ++ l').
Proof.
  intros H H' D. induction H as [|a l Ha Hl IH]; simpl; [exact H'|]. constructor.
  - intros Hin. apply in_app_or in Hin. destruct Hin as [Hin|Hin]; [contradiction|exact (D a (or_introl eq_refl) Hin)].
  - apply IH. intros x Hx. apply D. right. exact Hx.
Qed.
Lemma nodup_flat_map {A B} (F : A -> list B) l : NoDup l -> (forall a, NoDup (F a)) ->
  (forall a a' x, In x (F a) -> In x (F a') -> a = a') -> NoDup (flat_map F l).
Proof.
  intros Hl HF Hd. induction Hl as [|a l Ha Hl IH]; simpl; [constructor|].
  apply nodup_app2; auto. intros x H1 H2. apply in_flat_map in H2. destruct H2 as (a' & H2 & H3).
  rewrite (Hd _ _ _ H1 H3) in Ha. contradiction.
Qed.
Lemma canonical_nodup h : NoDup (X_canonical h).
Proof.
  unfold X_canonical. apply nodup_flat_map; [apply gridpoints_nodup| |].
  - intros l. apply nodup_flat_map; [apply gridpoints_nodup| |].
    + intros m. apply FinFun.Injective_map_NoDup; [|apply gridpoints_nodup].
      intros a b E. apply (f_equal (fun v => v 2%nat)) in E. exact E.
    + intros m m' x H1 H2. apply in_map_iff in H1, H2. destruct H1 as (n & <- & _), H2 as (n' & E & _).
      apply (f_equal (fun v => v 1%nat)) in E. symmetry. exact E.
  - intros l l' x H1 H2. apply in_flat_map in H1, H2. destruct H1 as (m & _ & H1), H2 as (m' & _ & H2).
    apply in_map_iff in H1, H2. destruct H1 as (n & <- & _), H2 as (n' & E & _).
    apply (f_equal (fun v => v 0%nat)) in E. symmetry. exact E.
Qed.

Lemma combination_inj b l m n l' m' n' : volume b <> 0 ->
  (forall j, (j < 3)%nat -> combination b l m n j = combination b l' m' n' j) -> l = l' /\ m = m' /\ n = n'.
Proof.
  intros V E.
  pose proof (E 0%nat ltac:(lia)) as E0. pose proof (E 1%nat ltac:(lia)) as E1. pose proof (E 2%nat ltac:(lia)) as E2.
  unfold combination in *.
  assert (D : forall x x' : Z, (IZR x - IZR x') * volume b = 0 -> x = x').
  { intros x x' H. apply Rmult_integral in H. destruct H as [H|H]; [|contradiction]. apply eq_IZR. lra. }
  unfold volume, dot3, cross, v3 in D.
  set (b00 := b 0%nat 0%nat) in *. set (b01 := b 0%nat 1%nat) in *. set (b02 := b 0%nat 2%nat) in *.
  set (b10 := b 1%nat 0%nat) in *. set (b11 := b 1%nat 1%nat) in *. set (b12 := b 1%nat 2%nat) in *.
  set (b20 := b 2%nat 0%nat) in *. set (b21 := b 2%nat 1%nat) in *. set (b22 := b 2%nat 2%nat) in *.
  set (dl := IZR l - IZR l'). set (dm := IZR m - IZR m'). set (dn := IZR n - IZR n').
  assert (F0 : dl * b00 + dm * b10 + dn * b20 = 0) by (unfold dl, dm, dn; lra).
  assert (F1 : dl * b01 + dm * b11 + dn * b21 = 0) by (unfold dl, dm, dn; lra).
  assert (F2 : dl * b02 + dm * b12 + dn * b22 = 0) by (unfold dl, dm, dn; lra).
  split; [|split]; apply D.
  - fold dl.
    transitivity ((dl * b00 + dm * b10 + dn * b20) * (b11 * b22 - b12 * b21)
      + (dl * b01 + dm * b11 + dn * b21) * (b12 * b20 - b10 * b22)
      + (dl * b02 + dm * b12 + dn * b22) * (b10 * b21 - b11 * b20)); [ring|rewrite F0, F1, F2; ring].
  - fold dm.
    transitivity ((dl * b00 + dm * b10 + dn * b20) * (b21 * b02 - b22 * b01)
      + (dl * b01 + dm * b11 + dn * b21) * (b22 * b00 - b20 * b02)
      + (dl * b02 + dm * b12 + dn * b22) * (b20 * b01 - b21 * b00)); [ring|rewrite F0, F1, F2; ring].
  - fold dn.
    transitivity ((dl * b00 + dm * b10 + dn * b20) * (b01 * b12 - b02 * b11)
      + (dl * b01 + dm * b11 + dn * b21) * (b02 * b10 - b00 * b12)
      + (dl * b02 + dm * b12 + dn * b22) * (b00 * b11 - b01 * b10)); [ring|rewrite F0, F1, F2; ring].
Qed.

Lemma nodup_map_on {A B} (f : A -> B) l : NoDup l -> (forall x y, In x l -> In y l -> f x = f y -> x = y) -> NoDup (map f l).
Proof.
  intros Hl. induction Hl as [|a l Ha Hl IH]; intros H; simpl; [constructor|]. constructor.
  - intros Hin. apply in_map_iff in Hin. destruct Hin as (x & E & Hx).
    apply Ha. rewrite <- (H x a (or_intror Hx) (or_introl eq_refl) E). exact Hx.
  - apply IH. intros x y Hx Hy. apply H; right; assumption.
Qed.

Lemma map_canonical_nodup h B (t : vec -> bool) : volume B <> 0 -> NoDup (map (fun n => rowmul n B) (filter t (X_canonical h))).
Proof.
  intros V. apply nodup_map_on; [apply NoDup_filter, canonical_nodup|].
  intros x y Hx Hy E. apply filter_In in Hx, Hy. destruct Hx as [Hx _], Hy as [Hy _]. apply canonical_in in Hx, Hy.
  destruct Hx as (l & m & n & _ & _ & _ & ->), Hy as (l' & m' & n' & _ & _ & _ & ->).
  rewrite !rowmul_combination in E.
  destruct (combination_inj B l m n l' m' n' V) as (-> & -> & ->); [|reflexivity].
  intros j _. rewrite E. reflexivity.
Qed.
Lemma filter_true {A} (l : list A) : filter (fun _ => true) l = l.
Proof. induction l; simpl; congruence. Qed.
Lemma lattice_X_nodup h bl tr Ot Et :
  volume (shear_basis_vectors (diag3 (vsub tr bl)) (vsub tr bl) Ot Et) <> 0 ->
  NoDup (X_lmn (build_lattice h bl tr Ot Et)).
Proof.
  intros V. unfold build_lattice. cbn [X_lmn]. apply NoDup_filter.
  rewrite <- (filter_true (X_canonical h)). apply map_canonical_nodup. exact V.
Qed.

(** ** Reciprocity *)
Lemma reciprocal_basis L B : L ^ 3 = volume B -> volume B <> 0 ->
  dot3 (k_basis L B 0%nat) (B 0%nat) = 0 /\ dot3 (k_basis L B 0%nat) (B 1%nat) = - (2 * PI) /\ dot3 (k_basis L B 0%nat) (B 2%nat) = 0 /\
  dot3 (k_basis L B 1%nat) (B 0%nat) = - (2 * PI) /\ dot3 (k_basis L B 1%nat) (B 1%nat) = 0 /\ dot3 (k_basis L B 1%nat) (B 2%nat) = 0 /\
  dot3 (k_basis L B 2%nat) (B 0%nat) = 0 /\ dot3 (k_basis L B 2%nat) (B 1%nat) = 0 /\ dot3 (k_basis L B 2%nat) (B 2%nat) = 2 * PI.
Proof.
  intros E V. unfold k_basis. rewrite E. unfold volume, dot3, cross, vscal, v3 in *.
  repeat split; field; exact V.
Qed.

Lemma reciprocal_combination L B l m n l' m' n' : L ^ 3 = volume B -> volume B <> 0 ->
  dot3 (combination (k_basis L B) l m n) (combination B l' m' n') = 2 * PI * IZR (n * n' - l * m' - m * l').
Proof.
  intros E V. destruct (reciprocal_basis L B E V) as (H00 & H01 & H02 & H10 & H11 & H12 & H20 & H21 & H22).
  rewrite !minus_IZR, !mult_IZR.
  transitivity (IZR l * IZR l' * dot3 (k_basis L B 0%nat) (B 0%nat) + IZR l * IZR m' * dot3 (k_basis L B 0%nat) (B 1%nat)
    + IZR l * IZR n' * dot3 (k_basis L B 0%nat) (B 2%nat) + IZR m * IZR l' * dot3 (k_basis L B 1%nat) (B 0%nat)
    + IZR m * IZR m' * dot3 (k_basis L B 1%nat) (B 1%nat) + IZR m * IZR n' * dot3 (k_basis L B 1%nat) (B 2%nat)
    + IZR n * IZR l' * dot3 (k_basis L B 2%nat) (B 0%nat) + IZR n * IZR m' * dot3 (k_basis L B 2%nat) (B 1%nat)
    + IZR n * IZR n' * dot3 (k_basis L B 2%nat) (B 2%nat)).
  - unfold dot3, combination. generalize (k_basis L B). intros k. ring.
  - rewrite H00, H01, H02, H10, H11, H12, H20, H21, H22. ring.
Qed.

Lemma cos_Z_period x (z : Z) : cos (x + 2 * PI * IZR z) = cos x.
Proof.
  destruct (Z_le_dec 0 z) as [H|H].
  - rewrite <- (Z2Nat.id z H), <- INR_IZR_INZ.
    replace (x + 2 * PI * INR (Z.to_nat z)) with (x + 2 * INR (Z.to_nat z) * PI) by ring. apply cos_period.
  - rewrite <- (cos_period (x + 2 * PI * IZR z) (Z.to_nat (- z))).
    f_equal. rewrite INR_IZR_INZ, Z2Nat.id, opp_IZR by lia. ring.
Qed.
