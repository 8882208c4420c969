(** Specification vocabulary for condensation and packing: what a symmetric
    traceless tensor is, full double contraction, power. Independent of the
    model's own helpers. *)
From Coq Require Import Reals List Arith.
Import ListNotations.
Local Open Scope R_scope.

(** Entry of a nested list. *)
Definition ent (m : list (list R)) (i j : nat) : R := nth j (nth i m []) 0.

(** A 3x3 tensor, symmetric and with zero trace. *)
Definition is33 (m : list (list R)) : Prop :=
  length m = 3%nat /\ (forall r, In r m -> length r = 3%nat).
Definition sym_traceless (m : list (list R)) : Prop :=
  is33 m /\
  (forall i j, (i < 3)%nat -> (j < 3)%nat -> ent m i j = ent m j i) /\
  ent m 0 0 + ent m 1 1 + ent m 2 2 = 0.

(** Plain dot product of two lists (same length intended). *)
Fixpoint ldot (a b : list R) : R :=
  match a, b with
  | x :: a', y :: b' => x * y + ldot a' b'
  | _, _ => 0
  end.

(** Sum over rows of the dot products: [sum_p F_p . U_p]. *)
Fixpoint rowdot (a b : list (list R)) : R :=
  match a, b with
  | x :: a', y :: b' => ldot x y + rowdot a' b'
  | _, _ => 0
  end.

(** Double contraction [S : E] = sum over all nine products. *)
Definition ddot (s e : list (list R)) : R :=
  ent s 0 0 * ent e 0 0 + ent s 0 1 * ent e 0 1 + ent s 0 2 * ent e 0 2 +
  (ent s 1 0 * ent e 1 0 + ent s 1 1 * ent e 1 1 + ent s 1 2 * ent e 1 2) +
  (ent s 2 0 * ent e 2 0 + ent s 2 1 * ent e 2 1 + ent s 2 2 * ent e 2 2).
Fixpoint sumddot (a b : list (list (list R))) : R :=
  match a, b with
  | x :: a', y :: b' => ddot x y + sumddot a' b'
  | _, _ => 0
  end.

(** [n] rows of [w] numbers each. *)
Definition shaped (n w : nat) (l : list (list R)) : Prop :=
  length l = n /\ (forall r, In r l -> length r = w).
Definition shaped_st (n : nat) (l : list (list (list R))) : Prop :=
  length l = n /\ (forall t, In t l -> sym_traceless t).
