(** What a solved configuration must satisfy: prescribed values are kept and
    forces equal the resistance matrix times velocities. *)
From Coq Require Import Reals List Arith.
From Verif Require Import Base Spec_Convert.
Import ListNotations.
Local Open Scope R_scope.

(** The five independent components of a 3x3 tensor. *)
Definition five (m : list (list R)) : list R :=
  let e := fun i j => nth j (nth i m []) 0 in
  [ (sqrt 3 + 1) / 2 * e 0%nat 0%nat + (sqrt 3 - 1) / 2 * e 1%nat 1%nat;
    sqrt 2 * e 0%nat 1%nat;
    (sqrt 3 - 1) / 2 * e 0%nat 0%nat + (sqrt 3 + 1) / 2 * e 1%nat 1%nat;
    sqrt 2 * e 0%nat 2%nat;
    sqrt 2 * e 1%nat 2%nat ].

(** One long vector: linear, angular, strain-like, dumbbell centre, dumbbell
    difference components. *)
Definition grand (f t : list (list R)) (s : list (list (list R))) (fb dfb : list (list R)) : list R :=
  concat f ++ concat t ++ flat_map five s ++ concat fb ++ concat dfb.

Definition lvec (l : list R) : vec := fun i => nth i l 0.

(** forces = R * velocities, all of them of the right number. *)
Definition resistance_relation (Ns Nd : nat) (R0 : mat)
    (F T : list (list R)) (S : list (list (list R))) (Fb DFb : list (list R))
    (U O : list (list R)) (E : list (list (list R))) (Ub HDU : list (list R)) : Prop :=
  length (grand F T S Fb DFb) = (11 * Ns + 6 * Nd)%nat /\
  length (grand U O E Ub HDU) = (11 * Ns + 6 * Nd)%nat /\
  linrel (11 * Ns + 6 * Nd) R0 (lvec (grand U O E Ub HDU)) (lvec (grand F T S Fb DFb)).

(** All [n] rows are prescribed, with [w] numbers each. *)
Definition all_given (n w : nat) (l : list (option (list R))) : Prop :=
  length l = n /\ forall o, In o l -> exists r, o = Some r /\ length r = w.
Definition all_given33 (n : nat) (l : list (option (list (list R)))) : Prop :=
  length l = n /\
  forall o, In o l -> exists m, o = Some m /\ length m = 3%nat /\ (forall r, In r m -> length r = 3%nat).

(** Of [n] particles the first [k] have a prescribed value in [u], the others
    in [f] (entries of [f] before [k] and of [u] from [k] on are ignored). *)
Definition split_given (n k : nat) (u f : list (option (list R))) : Prop :=
  (k <= n)%nat /\ length u = n /\ length f = n /\
  (forall i, (i < k)%nat -> exists r, nth_error u i = Some (Some r) /\ length r = 3%nat) /\
  (forall i, (k <= i < n)%nat -> exists r, nth_error f i = Some (Some r) /\ length r = 3%nat).
(** From [k] on, [u] holds only placeholders. *)
Definition rest_missing (n k : nat) (u : list (option (list R))) : Prop :=
  forall i, (k <= i < n)%nat -> nth_error u i = Some None.

(** The output agrees with every value prescribed at positions [lo <= i < hi]. *)
Definition keeps {A} (lo hi : nat) (given : list (option A)) (out : list A) : Prop :=
  forall i, (lo <= i < hi)%nat -> nth_error given i = Some (nth_error out i).

(** The linear solver returned a solution of [A x = b]. *)
Definition solve_ok (solve : nat -> mat -> list R -> list R) (n : nat) (A : mat) : Prop :=
  forall b, length b = n -> length (solve n A b) = n /\ linrel n A (lvec (solve n A b)) (lvec b).
