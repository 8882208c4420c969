(** Properties of [generate_Minfinity] at the level of particle data. *)
From Coq Require Import Reals Arith Bool List Lia Lra FunctionalExtensionality.
From Verif Require Import Base Model_Pack Model_Mob Model_Layout Model_Minf Model_L Model_Grand Spec_Layout Spec_Minf
  Spec_Calc Proof_Fold Proof_Layout Proof_Calc Proof_Mob Proof_Mob2 Proof_Minf Proof_L Proof_Minf2.
Import ListNotations.
Local Open Scope R_scope.

Definition minf_loop bb p mu :=
  generate_Minfinity_loop bb (bead_positions p) (bead_sizes p) (num_spheres p) (num_dumbbells p) (1 / (8 * PI * mu)) mu.
Notation side p := (11 * num_spheres p + 6 * num_dumbbells p)%nat (only parsing).
Notation nbeads p := (num_spheres p + 2 * num_dumbbells p)%nat (only parsing).

Lemma gen_transform bb p mu r t : (r < side p)%nat -> (t < side p)%nat ->
  generate_Minfinity bb p mu r t =
  minf_transform (num_spheres p) (num_dumbbells p) (minf_loop bb p mu) r t.
Proof.
  intros Hr Ht. unfold generate_Minfinity. destruct (Nat.ltb_spec 0 (num_dumbbells p)) as [H|H]; [reflexivity|].
  fold (minf_loop bb p mu). unfold minf_transform.
  rewrite (LML_entry _ _ _ _ (minf_L_closed _ _)) by assumption.
  unfold Lact. destruct (Nat.ltb_spec t (11 * num_spheres p)); [|lia].
  destruct (Nat.ltb_spec r (11 * num_spheres p)); [reflexivity|lia].
Qed.

Lemma gen_sym bb p mu : msym (side p) (generate_Minfinity bb p mu).
Proof.
  intros r t Hr Ht. rewrite !gen_transform by assumption. unfold minf_transform.
  apply LML_sym; try assumption. apply loop_sym.
Qed.

(** Weighted sum over the beads of a dumbbell. *)
Definition wsum (Ns Nd : nat) (h : R) (k : kind) (p : nat) (f : nat -> R) : R :=
  match k with
  | KB => if Nat.ltb p (Ns + Nd) then h * (f p + f (p + Nd)%nat) else h * (f p - f (p - Nd)%nat)
  | _ => f p
  end.

Lemma Lact_kstart Ns Nd h v k p i : kvalid Ns Nd k p -> (i < ksize k)%nat ->
  Lact Ns Nd h v (kstart Ns k p + i)%nat = wsum Ns Nd h k p (fun p' => v (kstart Ns k p' + i)%nat).
Proof.
  intros V Hi. unfold Lact, wsum.
  destruct k; cbn [kvalid ksize kstart] in *;
    try (destruct (Nat.ltb_spec (3 * p + i) (11 * Ns)); [reflexivity|lia]);
    try (destruct (Nat.ltb_spec (3 * Ns + 3 * p + i) (11 * Ns)); [reflexivity|lia]);
    try (destruct (Nat.ltb_spec (6 * Ns + 5 * p + i) (11 * Ns)); [reflexivity|lia]).
  destruct (Nat.ltb_spec (11 * Ns + 3 * (p - Ns) + i) (11 * Ns)); [lia|].
  destruct (Nat.ltb_spec (11 * Ns + 3 * (p - Ns) + i) (11 * Ns + 3 * Nd));
  destruct (Nat.ltb_spec p (Ns + Nd)); try lia.
  - do 3 f_equal. lia.
  - do 3 f_equal. lia.
Qed.

Lemma transform_ent Ns Nd M k1 p k2 q i j :
  kvalid Ns Nd k1 p -> kvalid Ns Nd k2 q -> (i < ksize k1)%nat -> (j < ksize k2)%nat ->
  ent Ns (minf_transform Ns Nd M) k1 p k2 q i j =
  wsum Ns Nd (1 / 2) k2 q (fun q' => wsum Ns Nd (1 / 2) k1 p (fun p' => ent Ns M k1 p' k2 q' i j)).
Proof.
  intros V1 V2 Hi Hj. unfold ent, minf_transform.
  rewrite (LML_entry Ns Nd _ _ (minf_L_closed Ns Nd)) by (apply block_range; assumption).
  rewrite Lact_kstart by assumption.
  unfold wsum at 1 3. destruct k2; rewrite ?Lact_kstart by assumption; reflexivity.
Qed.

(** Valid beads entering a weighted sum. *)
Definition partner (Ns Nd p : nat) : nat := (if Nat.ltb p (Ns + Nd) then p + Nd else p - Nd)%nat.
Lemma wsum_ext Ns Nd h k p f p2 f2 :
  kvalid Ns Nd k p -> kvalid Ns Nd k p2 ->
  (k = KB -> (p < Ns + Nd <-> p2 < Ns + Nd)%nat) ->
  f p = f2 p2 -> (k = KB -> f (partner Ns Nd p) = f2 (partner Ns Nd p2)) ->
  wsum Ns Nd h k p f = wsum Ns Nd h k p2 f2.
Proof.
  intros V V2 Hiff E E'. unfold wsum, partner in *. destruct k; try assumption.
  specialize (Hiff eq_refl). specialize (E' eq_refl).
  destruct (Nat.ltb_spec p (Ns + Nd)); destruct (Nat.ltb_spec p2 (Ns + Nd)); try lia;
  rewrite E, E'; reflexivity.
Qed.

(** ** Relabelling *)
Section Relabel.
Variables (bb : bool) (p : posdata) (mu : R) (s t : nat -> nat).
Let Ns := num_spheres p.
Let Nd := num_dumbbells p.
Hypothesis Hs : permutes Ns s.
Hypothesis Ht : permutes Nd t.
Let br := bead_relabel s t Ns Nd.

Ltac brcases := unfold br, bead_relabel;
  repeat match goal with |- context [Nat.ltb ?a ?b] => destruct (Nat.ltb_spec a b) end.

Lemma br_lt b : (b < Ns + 2 * Nd)%nat -> (br b < Ns + 2 * Nd)%nat.
Proof.
  destruct Hs as [S1 _], Ht as [T1 _]. intros Hb. brcases.
  - specialize (S1 b ltac:(lia)). lia.
  - specialize (T1 (b - Ns)%nat ltac:(lia)). lia.
  - specialize (T1 (b - Ns - Nd)%nat ltac:(lia)). lia.
Qed.
Lemma br_range b : (b < Ns + 2 * Nd)%nat -> (br b < Ns <-> b < Ns)%nat /\ (br b < Ns + Nd <-> b < Ns + Nd)%nat.
Proof.
  destruct Hs as [S1 _], Ht as [T1 _]. intros Hb. brcases.
  - specialize (S1 b ltac:(lia)). lia.
  - specialize (T1 (b - Ns)%nat ltac:(lia)). lia.
  - lia.
Qed.
Lemma br_inj b b' : (b < Ns + 2 * Nd)%nat -> (b' < Ns + 2 * Nd)%nat -> br b = br b' -> b = b'.
Proof.
  destruct Hs as [S1 S2], Ht as [T1 T2]. intros Hb Hb' E.
  destruct (br_range b Hb) as [R1 R2], (br_range b' Hb') as [R1' R2']. rewrite E in R1, R2.
  revert E. brcases; intros E; try lia.
  - apply S2; assumption.
  - assert (b - Ns = b' - Ns)%nat by (apply T2; lia). lia.
  - assert (b - Ns - Nd = b' - Ns - Nd)%nat by (apply T2; lia). lia.
Qed.
Lemma br_positions b : (b < Ns + 2 * Nd)%nat ->
  bead_positions (relabel s t p) b = bead_positions p (br b).
Proof.
  intros Hb. destruct (br_range b Hb) as [R1 R2]. unfold bead_positions. simpl. fold Ns Nd.
  destruct (Nat.ltb_spec b Ns); destruct (Nat.ltb_spec (br b) Ns); try lia.
  - unfold br, bead_relabel. rewrite (proj2 (Nat.ltb_lt b Ns)) by assumption. reflexivity.
  - destruct (Nat.ltb_spec b (Ns + Nd)); destruct (Nat.ltb_spec (br b) (Ns + Nd)); try lia.
    + replace (br b - Ns)%nat with (t (b - Ns)%nat); [reflexivity|]. brcases; lia.
    + replace (br b - Ns - Nd)%nat with (t (b - Ns - Nd)%nat); [reflexivity|]. brcases; lia.
Qed.
Lemma br_sizes b : (b < Ns + 2 * Nd)%nat ->
  bead_sizes (relabel s t p) b = bead_sizes p (br b).
Proof.
  intros Hb. destruct (br_range b Hb) as [R1 R2]. unfold bead_sizes. simpl. fold Ns Nd.
  destruct (Nat.ltb_spec b Ns); destruct (Nat.ltb_spec (br b) Ns); try lia.
  - unfold br, bead_relabel. rewrite (proj2 (Nat.ltb_lt b Ns)) by assumption. reflexivity.
  - destruct (Nat.ltb_spec b (Ns + Nd)); destruct (Nat.ltb_spec (br b) (Ns + Nd)); try lia.
    + replace (br b - Ns)%nat with (t (b - Ns)%nat); [reflexivity|]. brcases; lia.
    + replace (br b - Ns - Nd)%nat with (t (b - Ns - Nd)%nat); [reflexivity|]. brcases; lia.
Qed.
Lemma br_valid k b : kvalid Ns Nd k b -> kvalid Ns Nd k (br b).
Proof.
  intros V. assert (Hb : (b < Ns + 2 * Nd)%nat) by (destruct k; simpl in V; lia).
  destruct (br_range b Hb) as [R1 R2]. pose proof (br_lt b Hb).
  destruct k; simpl in *; lia.
Qed.
Lemma br_partner b : (Ns <= b < Ns + 2 * Nd)%nat -> br (partner Ns Nd b) = partner Ns Nd (br b).
Proof.
  intros Hb. destruct (br_range b ltac:(lia)) as [R1 R2]. unfold partner.
  destruct (Nat.ltb_spec b (Ns + Nd)); destruct (Nat.ltb_spec (br b) (Ns + Nd)); try lia.
  - unfold br, bead_relabel.
    destruct (Nat.ltb_spec (b + Nd) Ns); [lia|]. destruct (Nat.ltb_spec (b + Nd) (Ns + Nd)); [lia|].
    destruct (Nat.ltb_spec b Ns); [lia|]. destruct (Nat.ltb_spec b (Ns + Nd)); [|lia].
    replace (b + Nd - Ns - Nd)%nat with (b - Ns)%nat by lia. lia.
  - unfold br, bead_relabel.
    destruct (Nat.ltb_spec (b - Nd) Ns); [lia|]. destruct (Nat.ltb_spec (b - Nd) (Ns + Nd)); [|lia].
    destruct (Nat.ltb_spec b Ns); [lia|]. destruct (Nat.ltb_spec b (Ns + Nd)); [lia|].
    replace (b - Nd - Ns)%nat with (b - Ns - Nd)%nat by lia. lia.
Qed.
Lemma partner_valid b : kvalid Ns Nd KB b -> kvalid Ns Nd KB (partner Ns Nd b).
Proof. unfold partner. simpl. intros. destruct (Nat.ltb_spec b (Ns + Nd)); lia. Qed.

Lemma distinct_relabel :
  distinct_beads (Ns + 2 * Nd) (bead_positions p) (bead_sizes p) ->
  distinct_beads (Ns + 2 * Nd) (bead_positions (relabel s t p)) (bead_sizes (relabel s t p)).
Proof.
  intros [Ha Hx]. split.
  - intros b Hb. rewrite br_sizes by exact Hb. apply Ha, br_lt, Hb.
  - intros b b' Hb Hb' Hne. rewrite !br_positions by assumption. apply Hx; try (apply br_lt; assumption).
    intros E. apply Hne, br_inj; assumption.
Qed.

Lemma loop_relabel k1 b k2 b' i j :
  distinct_beads (Ns + 2 * Nd) (bead_positions p) (bead_sizes p) ->
  kvalid Ns Nd k1 b -> kvalid Ns Nd k2 b' -> (i < ksize k1)%nat -> (j < ksize k2)%nat ->
  ent Ns (minf_loop bb (relabel s t p) mu) k1 b k2 b' i j =
  ent Ns (minf_loop bb p mu) k1 (br b) k2 (br b') i j.
Proof.
  intros HD V1 V2 Hi Hj. unfold minf_loop. simpl num_spheres; simpl num_dumbbells. fold Ns Nd.
  rewrite loop_entry by (try assumption; apply distinct_relabel; assumption).
  rewrite loop_entry by (try assumption; apply br_valid; assumption).
  assert (B1 : (b < Ns + 2 * Nd)%nat) by (apply (kvalid_nb Ns Nd k1); assumption).
  assert (B2 : (b' < Ns + 2 * Nd)%nat) by (apply (kvalid_nb Ns Nd k2); assumption).
  unfold bead_mobility. rewrite !br_positions, !br_sizes by assumption.
  replace (Nat.eqb (br b) (br b')) with (Nat.eqb b b'); [reflexivity|].
  destruct (Nat.eqb_spec b b') as [->|Hne]; [symmetry; apply Nat.eqb_refl|].
  symmetry. apply Nat.eqb_neq. intros E. apply Hne, br_inj; assumption.
Qed.

Lemma gen_relabel k1 b k2 b' i j :
  distinct_beads (Ns + 2 * Nd) (bead_positions p) (bead_sizes p) ->
  kvalid Ns Nd k1 b -> kvalid Ns Nd k2 b' -> (i < ksize k1)%nat -> (j < ksize k2)%nat ->
  generate_Minfinity bb (relabel s t p) mu (kstart Ns k1 b + i)%nat (kstart Ns k2 b' + j)%nat =
  generate_Minfinity bb p mu (kstart Ns k1 (br b) + i)%nat (kstart Ns k2 (br b') + j)%nat.
Proof.
  intros HD V1 V2 Hi Hj.
  pose proof (br_valid _ _ V1) as W1. pose proof (br_valid _ _ V2) as W2.
  rewrite !gen_transform by (apply block_range; assumption).
  change (ent Ns (minf_transform Ns Nd (minf_loop bb (relabel s t p) mu)) k1 b k2 b' i j =
          ent Ns (minf_transform Ns Nd (minf_loop bb p mu)) k1 (br b) k2 (br b') i j).
  rewrite !transform_ent by assumption.
  assert (Hiff : forall k x, kvalid Ns Nd k x -> (x < Ns + Nd <-> br x < Ns + Nd)%nat).
  { intros k x V. destruct (br_range x) as [_ ?]; [apply (kvalid_nb Ns Nd k x V)|]. tauto. }
  assert (Inner : forall y, kvalid Ns Nd k2 y ->
     wsum Ns Nd (1 / 2) k1 b (fun p' => ent Ns (minf_loop bb (relabel s t p) mu) k1 p' k2 y i j) =
     wsum Ns Nd (1 / 2) k1 (br b) (fun p' => ent Ns (minf_loop bb p mu) k1 p' k2 (br y) i j)).
  { intros y Vy. apply wsum_ext; try assumption.
    - intros ->. apply (Hiff KB). exact V1.
    - apply loop_relabel; assumption.
    - intros ->. rewrite loop_relabel; try assumption; [|apply partner_valid; assumption].
      rewrite br_partner by (simpl in V1; lia). reflexivity. }
  apply wsum_ext; try assumption.
  - intros ->. apply (Hiff KB). exact V2.
  - apply Inner. exact V2.
  - intros ->. rewrite Inner by (apply partner_valid; assumption).
    rewrite br_partner by (simpl in V2; lia). reflexivity.
Qed.
End Relabel.

(** ** Translation *)
Lemma bead_positions_translate d p b : bead_positions (translate d p) b = vadd (bead_positions p b) d.
Proof.
  unfold bead_positions. simpl. destruct (Nat.ltb b (num_spheres p)); [reflexivity|].
  destruct (Nat.ltb b _); apply functional_extensionality; intros i; unfold vadd, vsub; ring.
Qed.

Lemma gen_translate bb p mu d : generate_Minfinity bb (translate d p) mu = generate_Minfinity bb p mu.
Proof.
  assert (E : generate_Minfinity_loop bb (bead_positions (translate d p)) (bead_sizes p) (num_spheres p) (num_dumbbells p) (1 / (8 * PI * mu)) mu
     = generate_Minfinity_loop bb (bead_positions p) (bead_sizes p) (num_spheres p) (num_dumbbells p) (1 / (8 * PI * mu)) mu).
  { unfold generate_Minfinity_loop. f_equal.
    assert (S : forall M pr, minf_step bb (bead_positions (translate d p)) (bead_sizes p) (num_spheres p) (num_dumbbells p) (1 / (8 * PI * mu)) mu M pr
        = minf_step bb (bead_positions p) (bead_sizes p) (num_spheres p) (num_dumbbells p) (1 / (8 * PI * mu)) mu M pr).
    { intros M [u v]. unfold minf_step.
      assert (G : pair_geometry (bead_positions (translate d p) u) (bead_positions (translate d p) v) (bead_sizes p u) (bead_sizes p v)
         = pair_geometry (bead_positions p u) (bead_positions p v) (bead_sizes p u) (bead_sizes p v)).
      { unfold pair_geometry. rewrite !bead_positions_translate.
        replace (vsub (vadd (bead_positions p u) d) (vadd (bead_positions p v) d)) with (vsub (bead_positions p u) (bead_positions p v)).
        - reflexivity.
        - apply functional_extensionality. intros i. unfold vsub, vadd. ring. }
      rewrite G. reflexivity. }
    generalize mzero. generalize (upper_pairs (num_spheres p + 2 * num_dumbbells p)) as l.
    induction l as [|pr l IH]; intros M; simpl; [reflexivity|]. rewrite S. apply IH. }
  unfold generate_Minfinity. simpl num_spheres; simpl num_dumbbells.
  replace (bead_sizes (translate d p)) with (bead_sizes p) by reflexivity.
  rewrite E. reflexivity.
Qed.

(** ** Viscosity *)
Lemma condense_scal k f m : condense_idx (fun a b => k * f a b) m = k * condense_idx f m.
Proof. unfold condense_idx. cbn [rsum]. ring. Qed.

Lemma pmob_mu k1 k2 r s ap aq c mu k i j :
  pmob k1 k2 r s ap aq (/ k * c) (k * mu) i j = / k * pmob k1 k2 r s ap aq c mu i j.
Proof.
  assert (D : forall n d1 d2, d1 = k * d2 -> n / d1 = / k * (n / d2)).
  { intros n d1 d2 ->. unfold Rdiv. rewrite Rinv_mult. ring. }
  assert (A11 : forall i j, M11 (r i) (r j) s ap aq i j (/ k * c) (k * mu) = / k * M11 (r i) (r j) s ap aq i j c mu).
  { intros. unfold M11. destruct (Rlt_dec tiny s); [ring|apply D; ring]. }
  assert (A12 : forall r b1 b2 i j, M12 r s b1 b2 i j (/ k * c) (k * mu) = / k * M12 r s b1 b2 i j c mu).
  { intros. unfold M12. destruct (Rlt_dec tiny s); ring. }
  assert (A13 : forall r b1 b2 i j l, M13 r s b1 b2 i j l (/ k * c) (k * mu) = / k * M13 r s b1 b2 i j l c mu).
  { intros. unfold M13. destruct (Rlt_dec tiny s); ring. }
  assert (A23 : forall r b1 b2 i j l, M23 r s b1 b2 i j l (/ k * c) (k * mu) = / k * M23 r s b1 b2 i j l c mu).
  { intros. unfold M23. destruct (Rlt_dec _ _); ring. }
  destruct k1, k2; unfold pmob; try (apply A11); try (apply A12);
    try (rewrite <- condense_scal; apply condense_ext; intros; (apply A13 || apply A23)).
  - unfold M22. destruct (Rlt_dec _ _); [ring|apply D; ring].
  - destruct (Rlt_dec tiny s); [|apply D; ring].
    rewrite <- condense_scal. apply condense_ext. intros. rewrite <- condense_scal. apply condense_ext. intros.
    unfold M33. ring.
Qed.

Lemma loop_mu bb x a Ns Nd c mu k r t : (r < 11 * Ns + 6 * Nd)%nat -> (t < 11 * Ns + 6 * Nd)%nat ->
  generate_Minfinity_loop bb x a Ns Nd (/ k * c) (k * mu) r t =
  / k * generate_Minfinity_loop bb x a Ns Nd c mu r t.
Proof.
  assert (Up : forall r t, (r < 11 * Ns + 6 * Nd)%nat -> (t < 11 * Ns + 6 * Nd)%nat -> (r <= t)%nat ->
    generate_Minfinity_loop bb x a Ns Nd (/ k * c) (k * mu) r t =
    / k * generate_Minfinity_loop bb x a Ns Nd c mu r t).
  { clear r t. intros r t Hr Ht Hle.
    destruct (block_cover Ns Nd r Hr) as (k1 & p & i & V1 & Hi & ->).
    destruct (block_cover Ns Nd t Ht) as (k2 & q & j & V2 & Hj & ->).
    pose proof (loop_upper bb x a Ns Nd (/ k * c) (k * mu) k1 p k2 q i j V1 V2 Hi Hj Hle) as E1.
    pose proof (loop_upper bb x a Ns Nd c mu k1 p k2 q i j V1 V2 Hi Hj Hle) as E2.
    unfold ent in E1, E2. rewrite E1, E2. unfold bead_mobility.
    destruct k1, k2; destruct (bb || Nat.eqb p q)%bool; try (apply pmob_mu); ring. }
  intros Hr Ht. destruct (le_lt_dec r t) as [H|H]; [apply Up; assumption|].
  rewrite (loop_sym bb x a Ns Nd (/ k * c) (k * mu) r t), (loop_sym bb x a Ns Nd c mu r t) by assumption.
  apply Up; [assumption|assumption|lia].
Qed.

Lemma Lact_scal Ns Nd h k v i : Lact Ns Nd h (fun l => k * v l) i = k * Lact Ns Nd h v i.
Proof. unfold Lact. destruct (Nat.ltb i _); [ring|]. destruct (Nat.ltb i _); ring. Qed.
Lemma Lact_ext Ns Nd h v w i : (i < 11 * Ns + 6 * Nd)%nat ->
  (forall l, (l < 11 * Ns + 6 * Nd)%nat -> v l = w l) -> Lact Ns Nd h v i = Lact Ns Nd h w i.
Proof.
  intros Hi H. unfold Lact. destruct (Nat.ltb_spec i (11 * Ns)); [apply H; lia|].
  destruct (Nat.ltb_spec i (11 * Ns + 3 * Nd)); rewrite !H by lia; reflexivity.
Qed.

Lemma gen_mu bb p mu k r t : (r < side p)%nat -> (t < side p)%nat -> 
  generate_Minfinity bb p (k * mu) r t = / k * generate_Minfinity bb p mu r t.
Proof.
  intros Hr Ht. rewrite !gen_transform by assumption. unfold minf_transform.
  rewrite !(LML_entry _ _ _ _ (minf_L_closed _ _)) by assumption.
  rewrite <- Lact_scal. apply Lact_ext; [assumption|]. intros l Hl. cbv beta.
  rewrite <- Lact_scal. apply Lact_ext; [assumption|]. intros m Hm. cbv beta.
  unfold minf_loop. replace (1 / (8 * PI * (k * mu))) with (/ k * (1 / (8 * PI * mu))).
  - apply loop_mu; assumption.
  - unfold Rdiv. rewrite !Rinv_mult. ring.
Qed.
