(** Schedules: which frames are due. *)
From Coq Require Import Reals Arith Bool List.
From Verif Require Import Base Model_Frame.
Import ListNotations.

(** Frame [f] is due for a new far-field inverse in a run starting at [start]. *)
Definition inversion_due (start every f : nat) : Prop := (exists q, f = q * every) \/ f = start.

(** [h] is the latest frame up to [f] due for a new far-field inverse. *)
Definition latest_due (start every f h : nat) : Prop :=
  start <= h <= f /\ inversion_due start every h /\ forall h', h < h' <= f -> ~ inversion_due start every h'.

(** Frame [f] is due for saving: a multiple of [every] from [after] on. *)
Definition save_due (every after f : nat) : bool := (Nat.eqb (f mod every) 0 && Nat.leb after f)%bool.
Definition due_frames (every after n : nat) : list nat := filter (save_due every after) (seq 0 n).
