(** Partial derivatives of functions of three real variables. *)
From Coq Require Import Reals Arith.
From Verif Require Import Base.
Local Open Scope R_scope.

(** [r] with component [l] replaced by [t]. *)
Definition upd (r : vec) (l : nat) (t : R) : vec := fun i => if Nat.eqb i l then t else r i.

(** The partial derivative of [f] in direction [l] at [r] exists and is [v]. *)
Definition partial (l : nat) (f : vec -> R) (r : vec) (v : R) : Prop :=
  derivable_pt_lim (fun t => f (upd r l t)) (r l) v.

(** Euclidean length, and [r] is not the zero vector. *)
Definition len (r : vec) : R := sqrt (dot3 r r).
Definition nonzero (r : vec) : Prop := 0 < dot3 r r.

(** The Laplacian of [f] at [r] exists and is [v]: [f] has first partial
    derivatives at every nonzero point, these have second partial derivatives
    at [r], and the latter add up to [v]. *)
Definition laplacian (f : vec -> R) (r : vec) (v : R) : Prop :=
  exists (g : nat -> vec -> R) (h : nat -> R),
    (forall l q, (l < 3)%nat -> nonzero q -> partial l f q (g l q)) /\
    (forall l, (l < 3)%nat -> partial l (g l) r (h l)) /\
    v = rsum 3 h.

(** The divergence of the vector field [f] at [r] exists and is [v]. *)
Definition divergence (f : nat -> vec -> R) (r : vec) (v : R) : Prop :=
  exists h, (forall l, (l < 3)%nat -> partial l (f l) r (h l)) /\ v = rsum 3 h.

(** Permutation symbol, as a polynomial in the indices 0, 1, 2. *)
Definition eps (i j k : nat) : R :=
  (INR j - INR i) * (INR k - INR j) * (INR k - INR i) / 2.

(** Symmetric traceless in two tensor indices. *)
Definition sym_traceless (f : nat -> nat -> R) : Prop :=
  (forall i j, (i < 3)%nat -> (j < 3)%nat -> f i j = f j i) /\
  f 0%nat 0%nat + f 1%nat 1%nat + f 2%nat 2%nat = 0.

(** ** Faxén's laws
    A sphere of radius [a] placed at [r] in the flow [u] (component, position),
    with no force, torque or rigidity constraint, has velocity
    u + a^2/6 lap u, angular velocity curl u / 2, and is in the strain
    e + a^2/10 lap e, where e is the symmetric part of grad u. *)
Definition faxen_U (a : R) (u : nat -> vec -> R) (r : vec) (i : nat) (v : R) : Prop :=
  exists w, laplacian (u i) r w /\ v = u i r + a ^ 2 / 6 * w.

Definition faxen_O (u : nat -> vec -> R) (r : vec) (i : nat) (v : R) : Prop :=
  exists G : nat -> nat -> R,
    (forall k l, (k < 3)%nat -> (l < 3)%nat -> partial k (u l) r (G k l)) /\
    v = 1 / 2 * rsum 3 (fun k => rsum 3 (fun l => eps i k l * G k l)).

Definition faxen_E (a : R) (u : nat -> vec -> R) (r : vec) (i j : nat) (v : R) : Prop :=
  exists (Lu : nat -> vec -> R) (G H : nat -> nat -> R),
    (forall k l, (k < 3)%nat -> (l < 3)%nat -> partial k (u l) r (G k l)) /\
    (forall l q, (l < 3)%nat -> nonzero q -> laplacian (u l) q (Lu l q)) /\
    (forall k l, (k < 3)%nat -> (l < 3)%nat -> partial k (Lu l) r (H k l)) /\
    v = 1 / 2 * (G i j + G j i) + a ^ 2 / 10 * (1 / 2 * (H i j + H j i)).
