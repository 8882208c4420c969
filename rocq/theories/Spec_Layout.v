(** Which entry of a grand vector belongs to which particle. *)
From Coq Require Import Arith.

(** Kinds of components: sphere velocity/force, sphere angular
    velocity/torque, sphere strain/stresslet, dumbbell bead velocity/force. *)
Inductive kind := KU | KO | KS | KB.

Definition ksize (k : kind) : nat := match k with KS => 5 | _ => 3 end.

(** Order of the kinds in the vector. *)
Definition krank (k : kind) : nat := match k with KU => 0 | KO => 1 | KS => 2 | KB => 3 end.

(** Beads are numbered spheres first, then all first beads, then all second
    beads of the dumbbells. *)
Definition kvalid (Ns Nd : nat) (k : kind) (p : nat) : Prop :=
  match k with
  | KB => Ns <= p < Ns + 2 * Nd
  | _ => p < Ns
  end.

(** First entry of the components of kind [k] of bead [p] in the vector
    (U, O, E, Ub1, Ub2). *)
Definition kstart (Ns : nat) (k : kind) (p : nat) : nat :=
  match k with
  | KU => 3 * p
  | KO => 3 * Ns + 3 * p
  | KS => 6 * Ns + 5 * p
  | KB => 11 * Ns + 3 * (p - Ns)
  end.

(** The entry (r, c) lies in the block with corner [fst b] and size [snd b]. *)
Definition in_block (b : (nat * nat) * (nat * nat)) (r c : nat) : Prop :=
  fst (fst b) <= r < fst (fst b) + fst (snd b) /\ snd (fst b) <= c < snd (fst b) + snd (snd b).
