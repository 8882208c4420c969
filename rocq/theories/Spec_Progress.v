(** Reading a duration back. *)
From Coq Require Import ZArith String Ascii.
Local Open Scope Z_scope.

(** Left to right: digits build up a number; "d" ends a number of days, ":" a
    number of hours or minutes; blanks are skipped.  [sum] is in the unit of
    the number being read. *)
Fixpoint read (sum number : Z) (s : string) : Z :=
  match s with
  | EmptyString => sum + number
  | String c t =>
      if Ascii.eqb c ":" then read ((sum + number) * 60) 0 t
      else if Ascii.eqb c "d" then read ((sum + number) * 24) 0 t
      else if Ascii.eqb c " " then read sum number t
      else read sum (10 * number + (Z.of_nat (nat_of_ascii c) - 48)) t
  end.
