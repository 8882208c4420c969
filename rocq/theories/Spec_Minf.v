(** The mobility relating two beads, for every ordered pair. *)
From Coq Require Import Reals Arith Bool.
From Verif Require Import Base Model_Pack Model_Mob Model_Layout Model_Minf Spec_Layout.
Local Open Scope R_scope.

(** Contraction of the strain index pair of [f] to the condensed index [m]:
    sum over j,k of E_mjk f_jk (E of Model_Pack). *)
Definition condense_idx (f : nat -> nat -> R) (m : nat) : R :=
  rsum 3 (fun j => rsum 3 (fun k => contraction m j k * f j k)).

(** Motion of kind [k1] of a bead of radius [ap] due to a force moment of kind
    [k2] on a bead of radius [aq]; [r] points from the second to the first bead
    and [s] is its length.  Entry [i j].  The blocks below the diagonal are
    expressed by the reciprocal theorem. *)
Definition pmob (k1 k2 : kind) (r : vec) (s ap aq c mu : R) (i j : nat) : R :=
  match k1, k2 with
  | KU, KU | KU, KB | KB, KU | KB, KB => M11 (r i) (r j) s ap aq i j c mu
  | KU, KO | KB, KO => M12 r s ap aq i j c mu
  | KO, KU | KO, KB => M12 (vopp r) s aq ap j i c mu
  | KU, KS | KB, KS => condense_idx (fun k l => M13 r s ap aq i k l c mu) j
  | KS, KU | KS, KB => condense_idx (fun k l => M13 (vopp r) s aq ap j k l c mu) i
  | KO, KO => M22 r s ap aq i j c mu
  | KO, KS => condense_idx (fun k l => M23 r s ap aq i k l c mu) j
  | KS, KO => condense_idx (fun k l => M23 (vopp r) s aq ap j k l c mu) i
  | KS, KS =>
      if Rlt_dec tiny s then
        condense_idx (fun k l => condense_idx (fun k' l' => M33 r s ap aq k l k' l' c mu) j) i
      else delta i j / (20 / 3 * PI * mu * ap ^ 3)
  end.

(** Displacement from bead 2 to bead 1 used for the pair, and its length. *)
Definition overlapping (x1 x2 : vec) (a1 a2 : R) : Prop :=
  / 10 ^ 8 < norm (vsub x1 x2) /\ 2 * norm (vsub x1 x2) / (a1 + a2) < 2001 / 1000.

(** Motion of kind [k1] of bead [p] per unit moment of kind [k2] on bead [q],
    for the displacement [g p q] (vector and length) of the pair.  Without
    bead-bead interactions distinct dumbbell beads do not see each other. *)
Definition bead_mobility (bb : bool) (g : nat -> nat -> vec * R) (a : nat -> R) (c mu : R)
    (k1 : kind) (p : nat) (k2 : kind) (q : nat) (i j : nat) : R :=
  match k1, k2, (bb || Nat.eqb p q)%bool with
  | KB, KB, false => 0
  | _, _, _ => pmob k1 k2 (fst (g p q)) (snd (g p q)) (a p) (a q) c mu i j
  end.

(** Radii are positive and no two of the [n] beads are within 1e-10. *)
Definition distinct_beads (n : nat) (x : nat -> vec) (a : nat -> R) : Prop :=
  (forall p, (p < n)%nat -> 0 < a p) /\
  (forall p q, (p < n)%nat -> (q < n)%nat -> p <> q -> / 10 ^ 10 < norm (vsub (x p) (x q))).

(** [s] restricted to [0..n-1] is a permutation. *)
Definition permutes (n : nat) (s : nat -> nat) : Prop :=
  (forall i, i < n -> s i < n)%nat /\ (forall i j, i < n -> j < n -> s i = s j -> i = j)%nat.

(** The same particles numbered differently: new sphere i is old sphere [s i],
    new dumbbell i is old dumbbell [t i]. *)
Definition relabel (s t : nat -> nat) (p : posdata) : posdata :=
  mkPos (num_spheres p) (num_dumbbells p)
    (fun i => sphere_sizes p (s i)) (fun i => sphere_positions p (s i))
    (fun i => dumbbell_sizes p (t i)) (fun i => dumbbell_positions p (t i)) (fun i => dumbbell_deltax p (t i)).

(** Old number of the bead with new number [b]. *)
Definition bead_relabel (s t : nat -> nat) (Ns Nd : nat) (b : nat) : nat :=
  (if Nat.ltb b Ns then s b
  else if Nat.ltb b (Ns + Nd) then Ns + t (b - Ns)
  else Ns + Nd + t (b - Ns - Nd))%nat.

(** All particles moved by [d]. *)
Definition translate (d : vec) (p : posdata) : posdata :=
  mkPos (num_spheres p) (num_dumbbells p)
    (sphere_sizes p) (fun i => vadd (sphere_positions p i) d)
    (dumbbell_sizes p) (fun i => vadd (dumbbell_positions p i) d) (dumbbell_deltax p).

(** Separation at which a pair is to be evaluated: not below 2.001 times the
    mean radius. *)
Definition used_separation (x1 x2 : vec) (a1 a2 : R) : R :=
  Rmax (norm (vsub x1 x2)) (2001 / 1000 * ((a1 + a2) / 2)).
(** Vector of length [l] in the direction of x1 - x2. *)
Definition along (x1 x2 : vec) (l : R) : vec := vscal (l / norm (vsub x1 x2)) (vsub x1 x2).

(** Mobilities of an isolated bead of radius [a]: 1/(6 pi mu a) for force,
    1/(8 pi mu a^3) for torque, 1/(20/3 pi mu a^3) for stresslet, no coupling. *)
Definition self_value (k1 k2 : kind) (a mu : R) (i j : nat) : R :=
  match k1, k2 with
  | KU, KU | KB, KB => delta i j / (6 * PI * mu * a)
  | KO, KO => delta i j / (8 * PI * mu * a ^ 3)
  | KS, KS => delta i j / (20 / 3 * PI * mu * a ^ 3)
  | _, _ => 0
  end.
