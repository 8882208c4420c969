(** The same layout said in other ways, and how to read a time. *)
From Coq Require Import ZArith Arith List String Ascii.
From Verif Require Import Spec_Layout.
Import ListNotations.

(** The places of [b] in a block in the words of [range]: rows and columns from
    the corner on, as many as it is high and wide. *)
Definition as_ranges (b : (nat * nat) * (nat * nat)) : (Z * Z) * (Z * Z) :=
  ((Z.of_nat (fst (fst b)), Z.of_nat (fst (fst b) + fst (snd b))),
   (Z.of_nat (snd (fst b)), Z.of_nat (snd (fst b) + snd (snd b)))).

(** The component [c] of quantity number [k] (velocity, spin, strain of spheres,
    velocity of first, of second beads) of the sphere or dumbbell [e]: elements
    of the right type, counted from the first one of that type. *)
Definition has_quantity (Ns Nd k e : nat) : Prop :=
  (k < 3 /\ e < Ns) \/ (3 <= k < 5 /\ Ns <= e < Ns + Nd).
Definition place_of (uv_start uv_size element_start_count : list nat) (k e c : nat) : nat :=
  nth k uv_start 0 + nth k uv_size 0 * (e - nth k element_start_count 0) + c.

(** Left to right: digits build up a number, "h" ends hours, "m" minutes and "s"
    seconds. *)
Fixpoint read_hms (sum number : Z) (s : string) : Z :=
  match s with
  | EmptyString => sum
  | String c t =>
      if Ascii.eqb c "h" then read_hms (sum + number * 3600) 0 t
      else if Ascii.eqb c "m" then read_hms (sum + number * 60) 0 t
      else if Ascii.eqb c "s" then read_hms (sum + number) 0 t
      else read_hms sum (10 * number + (Z.of_nat (nat_of_ascii c) - 48)) t
  end.
