(** Model of the repulsion forces.
    Source: stokesian_dynamics/setups/functions_inputs.py 11-81.
    Arrays over particles are functions of the particle number.  The given
    forces are numbers (a placeholder there raises TypeError in Python). *)
From Coq Require Import Reals List Arith Bool.
From Verif Require Import Base Py Model_Mob Model_Close.
Import ListNotations.
Local Open Scope R_scope.

Section Repulsion.
Variables (strength tau : R) (Ns Nd : nat).
Variables (spos dpos ddx : nat -> vec) (ssizes dsizes : nat -> R).

(** 30-35: spheres, then first beads, then second beads. *)
Definition bead_positions (b : nat) : vec :=
  if Nat.ltb b Ns then spos b
  else if Nat.ltb b (Ns + Nd) then fun l => dpos (b - Ns)%nat l - 5 / 10 * ddx (b - Ns)%nat l
  else fun l => dpos (b - Ns - Nd)%nat l + 5 / 10 * ddx (b - Ns - Nd)%nat l.
Definition bead_sizes (b : nat) : R :=
  if Nat.ltb b Ns then ssizes b
  else if Nat.ltb b (Ns + Nd) then dsizes (b - Ns)%nat
  else dsizes (b - Ns - Nd)%nat.
Let n := (Ns + 2 * Nd)%nat.

(** 36-39 *)
Definition scaled_distance_matrix (i j : nat) : R :=
  norm (vsub (bead_positions j) (bead_positions i)) / (5 / 10 * (bead_sizes j + bead_sizes i)).

(** 41-51: row-major; [index_matrix[i, j] = j - i]. *)
Definition overlapping_or_close_pairs : list (nat * nat) :=
  filter (fun p => (Rltb 0 (scaled_distance_matrix (fst p) (snd p))
                    && (Rltb (scaled_distance_matrix (fst p) (snd p)) (22 / 10)
                        && Nat.leb (fst p) (snd p)))%bool)
    (flat_map (fun i => map (fun j => (i, j)) (seq 0 n)) (seq 0 n)).

(** 53-72: one pass of the loop. *)
Definition add_at (f : nat -> vec) (b : nat) (v : vec) : nat -> vec :=
  fun k l => if Nat.eqb k b then f k l + v l else f k l.
Definition repel (f : nat -> vec) (p : nat * nat) : nat -> vec :=
  let h := scaled_distance_matrix (fst p) (snd p) - 2 in
  let r := vsub (bead_positions (snd p)) (bead_positions (fst p)) in
  let unit_vector := fun l => r l / norm r in
  let a1 := bead_sizes (fst p) in
  let a2 := bead_sizes (snd p) in
  let force := if Rleb 0 h then strength * (2 * a1 * a2 / (a1 + a2)) * exp (- tau * h)
               else strength * (2 * a1 * a2 / (a1 + a2)) in
  add_at (add_at f (fst p) (fun l => force * unit_vector l)) (snd p) (fun l => - (force * unit_vector l)).

Definition bead_force : nat -> vec := fold_left repel overlapping_or_close_pairs (fun _ _ => 0).

(** 73-81.  The first [2*lid] spheres are exempt.  If there are spheres and all
    of them are exempt, line 73 subtracts an array of shape (0,) from one of
    shape (0, 3), which do not broadcast. *)
Definition repulsion_forces (lid : nat) (Fa Fb DFb : nat -> vec) : res ((nat -> vec) * (nat -> vec) * (nat -> vec)) :=
  let f := bead_force in
  if (Nat.ltb 0 Ns && Nat.leb Ns (2 * lid))%bool then Raise ValueError else
  Ok (fun i l => if (Nat.leb (2 * lid) i && Nat.ltb i Ns)%bool then Fa i l - f i l else Fa i l,
      fun i l => Fb i l - (f (Ns + i)%nat l + f (Ns + Nd + i)%nat l),
      fun i l => DFb i l - (f (Ns + Nd + i)%nat l - f (Ns + i)%nat l)).
End Repulsion.
