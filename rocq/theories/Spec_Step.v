(** Rigid rotations, lattices and background flows, independently of how the
    code computes them. *)
From Coq Require Import Reals Arith.
From Verif Require Import Base Model_Mob.
Local Open Scope R_scope.

(** Rotation of [v] by the angle [theta] about the direction of [w]
    (Rodrigues' formula). *)
Definition rodrigues (w : vec) (theta : R) (v : vec) : vec :=
  let k := vscal (/ norm w) w in
  fun l => cos theta * v l + sin theta * cross k v l + (1 - cos theta) * dot3 k v * k l.

(** A routine which inverts every invertible 3 by 3 matrix. *)
Definition inverts (inv : mat -> mat) : Prop :=
  forall A, (exists B, is_inv 3 A B) -> is_inv 3 A (inv A).

(** A linear flow: velocity at [x] of the flow with velocity [U], angular
    velocity [W] and rate of strain [E] about the point [c]. *)
Definition linear_flow (U W : vec) (E : mat) (c x : vec) : vec :=
  fun l => U l + cross W (vsub x c) l + mvec 3 E (vsub x c) l.

(** The two beads of a dumbbell. *)
Definition bead_minus (xbar dx : vec) : vec := fun l => xbar l - / 2 * dx l.
Definition bead_plus (xbar dx : vec) : vec := fun l => xbar l + / 2 * dx l.
