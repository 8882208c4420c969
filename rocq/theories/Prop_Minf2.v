(** Property C10 for dumbbells: which points and radii the matrix uses for the
    beads of a dumbbell, and how the two beads are combined. *)
From Coq Require Import Reals Arith Bool List Lia Lra FunctionalExtensionality.
From Verif Require Import Base Model_Pack Model_Mob Model_Layout Model_Minf Model_L Model_Grand
  Spec_Layout Spec_Minf Spec_L Proof_Layout Proof_Mob Proof_Minf Proof_Minf2 Proof_Minf3 Proof_Minf4 Proof_L Prop_Minf.
Local Open Scope R_scope.

(** Bead s (= -1, +1) of dumbbell d: half the displacement from the centre. *)
Definition bead (p : posdata) (s : R) (d : nat) : vec := fun c => dumbbell_positions p d c + s * (dumbbell_deltax p d c / 2).
(** Mobility of a body of radius a at x due to one of radius a' at x'. *)
Definition mob (k1 : kind) (x : vec) (a : R) (k2 : kind) (x' : vec) (a' : R) (mu : R) (i j : nat) : R :=
  pmob k1 k2 (fst (pair_geometry x x' a a')) (snd (pair_geometry x x' a a')) a a' (1 / (8 * PI * mu)) mu i j.
(** Row i of the velocity of the centre, or of half the difference of the beads'
    velocities, of dumbbell d. *)
Definition dumbbell_row (p : posdata) (half : bool) (d i : nat) : nat :=
  (11 * num_spheres p + (if half then 3 * num_dumbbells p else 0) + 3 * d + i)%nat.
Definition weight (half : bool) (s : R) : R := if half then s else 1.
Definition over_beads (f : R -> R) : R := (f (- (1)) + f 1) / 2.

Section Beads.
Context (p : posdata).
Notation Ns := (num_spheres p).
Notation Nd := (num_dumbbells p).

Lemma bead_1 d : (d < Nd)%nat -> bead_positions p (Ns + d) = bead p (- (1)) d /\ bead_sizes p (Ns + d)%nat = dumbbell_sizes p d.
Proof.
  intros Hd. unfold bead_positions, bead_sizes, bead.
  destruct (Nat.ltb_spec (Ns + d) Ns); [lia|]. destruct (Nat.ltb_spec (Ns + d) (Ns + Nd)); [|lia].
  replace (Ns + d - Ns)%nat with d by lia. split; [|reflexivity]. extensionality c. unfold vsub, vscal. field.
Qed.
Lemma bead_2 d : (d < Nd)%nat -> bead_positions p (Ns + Nd + d) = bead p 1 d /\ bead_sizes p (Ns + Nd + d)%nat = dumbbell_sizes p d.
Proof.
  intros Hd. unfold bead_positions, bead_sizes, bead.
  destruct (Nat.ltb_spec (Ns + Nd + d) Ns); [lia|]. destruct (Nat.ltb_spec (Ns + Nd + d) (Ns + Nd)); [lia|].
  replace (Ns + Nd + d - Ns - Nd)%nat with d by lia. split; [|reflexivity]. extensionality c. unfold vadd, vscal. field.
Qed.
Lemma bead_0 b : (b < Ns)%nat -> bead_positions p b = sphere_positions p b /\ bead_sizes p b = sphere_sizes p b.
Proof. intros Hb. unfold bead_positions, bead_sizes. destruct (Nat.ltb_spec b Ns); [split; reflexivity|lia]. Qed.

Definition bead_no (half : bool) (d : nat) : nat := if half then (Ns + Nd + d)%nat else (Ns + d)%nat.
Lemma row_kstart half d i : dumbbell_row p half d i = (kstart Ns KB (bead_no half d) + i)%nat.
Proof. unfold dumbbell_row, bead_no. destruct half; cbn [kstart]; lia. Qed.
Lemma bead_valid half d : (d < Nd)%nat -> kvalid Ns Nd KB (bead_no half d).
Proof. intros Hd. unfold bead_no. destruct half; cbn [kvalid]; lia. Qed.
Lemma wsum_beads half d f : (d < Nd)%nat ->
  wsum Ns Nd (1 / 2) KB (bead_no half d) f = (weight half (- (1)) * f (Ns + d)%nat + weight half 1 * f (Ns + Nd + d)%nat) / 2.
Proof.
  intros Hd. unfold wsum, bead_no, weight. destruct half.
  - destruct (Nat.ltb_spec (Ns + Nd + d) (Ns + Nd)); [lia|]. replace (Ns + Nd + d - Nd)%nat with (Ns + d)%nat by lia. field.
  - destruct (Nat.ltb_spec (Ns + d) (Ns + Nd)); [|lia]. replace (Ns + d + Nd)%nat with (Ns + Nd + d)%nat by lia. field.
Qed.

Context (bb : bool) (mu : R) (apart : distinct_beads (Ns + 2 * Nd) (bead_positions p) (bead_sizes p)).

Lemma bead_ent k1 b k2 b' i j : kvalid Ns Nd k1 b -> kvalid Ns Nd k2 b' -> (i < ksize k1)%nat -> (j < ksize k2)%nat ->
  ent Ns (minf_loop bb p mu) k1 b k2 b' i j =
  match k1, k2, (bb || Nat.eqb b b')%bool with
  | KB, KB, false => 0
  | _, _, _ => mob k1 (bead_positions p b) (bead_sizes p b) k2 (bead_positions p b') (bead_sizes p b') mu i j
  end.
Proof.
  intros V1 V2 Hi Hj. unfold minf_loop. rewrite loop_entry by assumption. reflexivity.
Qed.

(** A dumbbell and a sphere. *)
Theorem C10_dumbbell_sphere half d i k b j :
  (d < Nd)%nat -> (b < Ns)%nat -> k <> KB -> (i < 3)%nat -> (j < ksize k)%nat ->
  generate_Minfinity bb p mu (dumbbell_row p half d i) (kstart Ns k b + j)%nat =
  over_beads (fun s => weight half s * mob KB (bead p s d) (dumbbell_sizes p d) k (sphere_positions p b) (sphere_sizes p b) mu i j).
Proof.
  intros Hd Hb Hk Hi Hj. assert (V2 : kvalid Ns Nd k b) by (destruct k; try congruence; exact Hb).
  pose proof (bead_valid half d Hd) as V1. rewrite row_kstart, gen_transform by (apply block_range; assumption).
  change (ent Ns (minf_transform Ns Nd (minf_loop bb p mu)) KB (bead_no half d) k b i j = over_beads (fun s => weight half s * mob KB (bead p s d) (dumbbell_sizes p d) k (sphere_positions p b) (sphere_sizes p b) mu i j)).
  rewrite transform_ent by assumption.
  replace (wsum Ns Nd (1 / 2) k b (fun q' => wsum Ns Nd (1 / 2) KB (bead_no half d) (fun p' => ent Ns (minf_loop bb p mu) KB p' k q' i j)))
    with (wsum Ns Nd (1 / 2) KB (bead_no half d) (fun p' => ent Ns (minf_loop bb p mu) KB p' k b i j)) by (destruct k; try congruence; reflexivity).
  rewrite wsum_beads by assumption. unfold over_beads.
  rewrite !bead_ent by (assumption || (cbn [kvalid]; lia)).
  destruct (bead_1 d Hd) as [-> ->]. destruct (bead_2 d Hd) as [-> ->]. destruct (bead_0 b Hb) as [-> ->].
  destruct k; try congruence; reflexivity.
Qed.

(** Two dumbbells (or one with itself): all four pairs of beads; without
    bead-bead interactions only a bead with itself. *)
Theorem C10_dumbbell_dumbbell half d i half' e j :
  (d < Nd)%nat -> (e < Nd)%nat -> (i < 3)%nat -> (j < 3)%nat ->
  generate_Minfinity bb p mu (dumbbell_row p half d i) (dumbbell_row p half' e j) =
  over_beads (fun s => over_beads (fun t => weight half s * weight half' t *
    (if bb then mob KB (bead p s d) (dumbbell_sizes p d) KB (bead p t e) (dumbbell_sizes p e) mu i j
     else if Nat.eqb d e then if Req_EM_T s t then mob KB (bead p s d) (dumbbell_sizes p d) KB (bead p t e) (dumbbell_sizes p e) mu i j else 0 else 0))).
Proof.
  intros Hd He Hi Hj. pose proof (bead_valid half d Hd) as V1. pose proof (bead_valid half' e He) as V2.
  rewrite !row_kstart, gen_transform by (apply block_range; assumption).
  match goal with |- _ = ?r => change (ent Ns (minf_transform Ns Nd (minf_loop bb p mu)) KB (bead_no half d) KB (bead_no half' e) i j = r) end.
  rewrite transform_ent by assumption. rewrite wsum_beads by assumption. rewrite !wsum_beads by assumption. unfold over_beads.
  rewrite !bead_ent by (assumption || (cbn [kvalid]; lia)).
  destruct (bead_1 d Hd) as [P1 S1]. destruct (bead_2 d Hd) as [P2 S2]. destruct (bead_1 e He) as [P3 S3]. destruct (bead_2 e He) as [P4 S4].
  rewrite P1, P2, P3, P4, S1, S2, S3, S4.
  destruct bb; cbn [orb].
  - field.
  - destruct (Req_EM_T (- (1)) (- (1))) as [_|]; [|lra]. destruct (Req_EM_T (- (1)) 1) as [|_]; [lra|]. destruct (Req_EM_T 1 (- (1))) as [|_]; [lra|]. destruct (Req_EM_T 1 1) as [_|]; [|lra].
    destruct (Nat.eqb_spec (Ns + d) (Ns + Nd + e)); [lia|]. destruct (Nat.eqb_spec (Ns + Nd + d) (Ns + e)); [lia|].
    destruct (Nat.eqb_spec d e) as [->|Ne].
    + rewrite !Nat.eqb_refl. field.
    + destruct (Nat.eqb_spec (Ns + d) (Ns + e)); [lia|]. destruct (Nat.eqb_spec (Ns + Nd + d) (Ns + Nd + e)); [lia|]. field.
Qed.
End Beads.
Print Assumptions C10_dumbbell_sphere.
Print Assumptions C10_dumbbell_dumbbell.

Example C10_dumbbell_example :
  distinct_beads (num_spheres ex_pos + 2 * num_dumbbells ex_pos) (bead_positions ex_pos) (bead_sizes ex_pos) /\
  bead ex_pos (- (1)) 0 0%nat = - (2) /\ bead ex_pos 1 0 0%nat = 2 /\ dumbbell_row ex_pos true 0 1 = 26%nat.
Proof.
  split; [exact (proj1 C10_example)|]. unfold bead, ex_pos, dumbbell_row; simpl. unfold v3; simpl. repeat split; lra || lia || auto.
Qed.
