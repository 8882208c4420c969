(** Python exceptions as values, numpy-like list slicing and reshaping. *)
From Coq Require Import List Arith Reals.
Import ListNotations.

Inductive exn := IndexError | TypeError | ValueError | NameError | UnboundLocalError
               | ZeroDivisionError | AttributeError | SystemExit.

Inductive res (A : Type) :=
| Ok (a : A)
| Raise (e : exn).
Arguments Ok {A} a.
Arguments Raise {A} e.

Definition bind {A B} (x : res A) (f : A -> res B) : res B :=
  match x with Ok a => f a | Raise e => Raise e end.
Notation "'do' x <- a ;; b" := (bind a (fun x => b))
  (at level 200, x pattern, a at level 100, b at level 200).

(** [l[lo:hi]] for [0 <= lo <= hi]; python truncates silently at the end. *)
Definition lslice {A} (l : list A) (lo hi : nat) : list A := firstn (hi - lo) (skipn lo l).

(** Rows of length [w] of a flat list, [n] of them. *)
Fixpoint chunks {A} (n w : nat) (l : list A) : list (list A) :=
  match n with
  | O => []
  | S k => firstn w l :: chunks k w (skipn w l)
  end.

(** [l.reshape(n, w)] of a one-dimensional array. *)
Definition reshape {A} (n w : nat) (l : list A) : res (list (list A)) :=
  if Nat.eqb (length l) (n * w) then Ok (chunks n w l) else Raise ValueError.

(** All rows have length [w]. *)
Definition rows_ok {A} (w : nat) (l : list (list A)) : bool :=
  forallb (fun r => Nat.eqb (length r) w) l.
