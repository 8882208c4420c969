(** Specification of the pair mobilities as differential operators applied to
    a Green's tensor [Jf i j] (velocity component [i] due to a force along
    [j]), whatever that tensor is. *)
From Coq Require Import Reals Arith.
From Verif Require Import Base Spec_Calc.
Local Open Scope R_scope.

(** [v] is the second derivative d_i d_j of [f] at [r]. *)
Definition second (i j : nat) (f : vec -> R) (r : vec) (v : R) : Prop :=
  exists g, (forall q, nonzero q -> partial j f q (g q)) /\ partial i g r v.

(** [f] tends to [v] at the origin. *)
Definition lim0 (f : vec -> R) (v : R) : Prop :=
  forall ep, 0 < ep -> exists d, 0 < d /\ forall q, nonzero q -> len q < d -> Rabs (f q - v) < ep.

(** The derivatives of [Jf] used by the pair mobilities: [D l i j] = d_l J_ij,
    [DD m l i j] = d_m d_l J_ij, [LJ i j] = lap J_ij, [DLJ k i j] = d_k lap J_ij,
    [DDLJ l k i j] = d_l d_k lap J_ij, at all points of [dom]. *)
Record derivatives (dom : vec -> Prop) (Jf : nat -> nat -> vec -> R)
    (D : nat -> nat -> nat -> vec -> R) (DD : nat -> nat -> nat -> nat -> vec -> R)
    (LJ : nat -> nat -> vec -> R) (DLJ : nat -> nat -> nat -> vec -> R)
    (DDLJ : nat -> nat -> nat -> nat -> vec -> R) : Prop := {
  has_D : forall l i j q, (l < 3)%nat -> (i < 3)%nat -> (j < 3)%nat -> dom q ->
    partial l (Jf i j) q (D l i j q);
  has_DD : forall m l i j q, (m < 3)%nat -> (l < 3)%nat -> (i < 3)%nat -> (j < 3)%nat -> dom q ->
    partial m (D l i j) q (DD m l i j q);
  has_LJ : forall i j q, (i < 3)%nat -> (j < 3)%nat -> dom q ->
    laplacian (Jf i j) q (LJ i j q);
  has_DLJ : forall k i j q, (k < 3)%nat -> (i < 3)%nat -> (j < 3)%nat -> dom q ->
    partial k (LJ i j) q (DLJ k i j q);
  has_DDLJ : forall l k i j q, (l < 3)%nat -> (k < 3)%nat -> (i < 3)%nat -> (j < 3)%nat -> dom q ->
    partial l (DLJ k i j) q (DDLJ l k i j q)
}.

Section Ops.
Variables (D DLJ : nat -> nat -> nat -> vec -> R) (DD DDLJ : nat -> nat -> nat -> nat -> vec -> R)
  (Jf LJ : nat -> nat -> vec -> R).
(** Curl contracted on the second index of the tensor, and symmetric gradient. *)
Definition rot (G : nat -> nat -> R) (j : nat) : R :=
  rsum 3 (fun k => rsum 3 (fun l => eps j k l * G k l)).

(** velocity due to a force *)
Definition op_a (c a1 a2 : R) (q : vec) (i j : nat) : R :=
  c * (Jf i j q + (a1 ^ 2 + a2 ^ 2) / 6 * LJ i j q).
(** velocity due to a torque *)
Definition op_b (c a1 : R) (q : vec) (i j : nat) : R :=
  c * (- (1 / 2) * rot (fun k l => D k i l q) j
       + a1 ^ 2 / 6 * (- (1 / 2) * rot (fun k l => DLJ k i l q) j)).
(** angular velocity due to a torque *)
Definition op_c (c : R) (q : vec) (i j : nat) : R :=
  c * (1 / 2 * rot (fun k l => - (1 / 2) * rot (fun m n => DD k m l n q) j) i).
(** velocity due to a stresslet *)
Definition op_g (c a1 a2 : R) (q : vec) (i j k : nat) : R :=
  - c * (1 / 2 * (D k i j q + D j i k q)
         + (a1 ^ 2 / 6 + a2 ^ 2 / 10) * (1 / 2 * (DLJ k i j q + DLJ j i k q))).
(** angular velocity due to a stresslet; [w] weighs the Laplacian term *)
Definition op_h (c w : R) (q : vec) (i j k : nat) : R :=
  - c * (1 / 2 * rot (fun l m => 1 / 2 * (DD l k m j q + DD l j m k q)
                                + w * (1 / 2 * (DDLJ l k m j q + DDLJ l j m k q))) i).
(** rate of strain due to a stresslet *)
Definition op_m (c a1 a2 : R) (q : vec) (i j k l : nat) : R :=
  - c * (1 / 2 * (1 / 2 * (DD j l i k q + DD j k i l q) + 1 / 2 * (DD i l j k q + DD i k j l q))
         + (a1 ^ 2 + a2 ^ 2) / 10
           * (1 / 2 * (1 / 2 * (DDLJ j l i k q + DDLJ j k i l q)
                       + 1 / 2 * (DDLJ i l j k q + DDLJ i k j l q)))).
End Ops.
