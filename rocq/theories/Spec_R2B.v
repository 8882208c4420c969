(** Two-body resistance functions and the near-field matrix they make up. *)
From Coq Require Import Reals Arith Bool List.
From Verif Require Import Base Model_Pack Model_Mob Model_Layout Model_Minf Model_Close Spec_Layout Spec_Minf.
Import ListNotations.
Local Open Scope R_scope.

(** Rank of the moment: force 0, torque 1, stresslet 2. *)
Definition mrank (k : kind) : nat := match k with KU | KB => 0 | KO => 1 | KS => 2 end.

(** d_i d_j - delta_ij / 3 *)
Definition dev (d : vec) (i j : nat) : R := d i * d j - delta i j / 3.
(** part of delta transverse to d *)
Definition trans (d : vec) (i j : nat) : R := delta i j - d i * d j.

(** Moment of kind [k1] on a particle of radius [a] per unit motion of kind
    [k2] of the particle itself (gamma = 0) or of the other particle of the
    pair (gamma = 1), where [d] is the unit vector from the particle to the
    other one; viscosity 1.  Jeffrey (1992), Kim and Karrila chapter 11; X, Y, Z
    scalars in the order XA YA YB XC YC XG YG YH XM YM ZM.  Only used for
    [mrank k2 <= mrank k1]. *)
Definition two_body (sc : nat -> R) (k1 k2 : kind) (d : vec) (a : R) (i j : nat) : R :=
  match k1, k2 with
  | KU, KU | KU, KB | KB, KU | KB, KB =>
      6 * PI * a * (sc 0%nat * (d i * d j) + sc 1%nat * trans d i j)
  | KO, KU | KO, KB => 4 * PI * a ^ 2 * (sc 2%nat * rsum 3 (fun k => levi i j k * d k))
  | KO, KO => 8 * PI * a ^ 3 * (sc 3%nat * (d i * d j) + sc 4%nat * trans d i j)
  | KS, KU | KS, KB =>
      4 * PI * a ^ 2 *
      condense_idx (fun k l => sc 5%nat * (dev d k l * d j)
                              + sc 6%nat * (d k * trans d l j + d l * trans d k j)) i
  | KS, KO =>
      8 * PI * a ^ 3 *
      condense_idx (fun k l => sc 7%nat * (d k * rsum 3 (fun m => levi l j m * d m)
                                           + d l * rsum 3 (fun m => levi k j m * d m))) i
  | KS, KS =>
      20 / 3 * PI * a ^ 3 *
      condense_idx (fun k l => condense_idx (fun m n =>
          sc 8%nat * (3 / 2 * dev d k l * dev d m n)
        + sc 9%nat * (1 / 2 * (d k * d m * trans d l n + d l * d m * trans d k n
                               + d k * d n * trans d l m + d l * d n * trans d k m))
        + sc 10%nat * (1 / 2 * (trans d k m * trans d l n + trans d l m * trans d k n
                                - trans d k l * trans d m n))) j) i
  | _, _ => 0
  end.

(** Block (k1 of p, k2 of q) of two distinct beads: resistance function seen
    from the bead with the higher moment; [d] from p to q. *)
Definition cross_block (sc : nat -> nat -> R -> nat -> R) (ix : R -> nat) (k1 k2 : kind)
    (d : vec) (s ap aq : R) (i j : nat) : R :=
  if Nat.leb (mrank k2) (mrank k1)
  then two_body (fun n => sc n 1%nat s (ix (aq / ap))) k1 k2 d ap i j
  else two_body (fun n => sc n 1%nat s (ix (ap / aq))) k2 k1 (vopp d) aq j i.
(** Block of one bead, contribution of a neighbour. *)
Definition self_block (sc : nat -> nat -> R -> nat -> R) (ix : R -> nat) (k1 k2 : kind)
    (d : vec) (s ap aq : R) (i j : nat) : R :=
  if Nat.leb (mrank k2) (mrank k1)
  then two_body (fun n => sc n 0%nat s (ix (aq / ap))) k1 k2 d ap i j
  else two_body (fun n => sc n 0%nat s (ix (aq / ap))) k2 k1 d ap j i.

(** Sum over the close pairs that contain [p] of a function of the other bead,
    the unit vector towards it and the scaled distance. *)
Definition contact_term (p : nat) (f : nat -> vec -> R -> R) (t : cpair) : R :=
  if Nat.eqb (cp1 t) (cp2 t) then 0
  else if Nat.eqb (cp1 t) p then f (cp2 t) (vscal (/ cp_dist t) (cp_disp t)) (cp_dist t)
  else if Nat.eqb (cp2 t) p then f (cp1 t) (vscal (/ cp_dist t) (vopp (cp_disp t))) (cp_dist t)
  else 0.
Definition contact_sum (pairs : list cpair) (p : nat) (f : nat -> vec -> R -> R) : R :=
  fold_right Rplus 0 (map (contact_term p f) pairs).

(** What the list of close pairs has to be: every pair once, lower index
    first, with the ratio of the radii; every bead with itself. *)
Definition close_list (nb : nat) (a : nat -> R) (l : list cpair) : Prop :=
  NoDup (map (fun t => (cp1 t, cp2 t)) l) /\
  (forall t, In t l -> (cp1 t <= cp2 t < nb)%nat /\ cp_ratio t = a (cp2 t) / a (cp1 t)) /\
  (forall p, (p < nb)%nat -> exists t, In t l /\ cp1 t = p /\ cp2 t = p).

(** Reciprocal theorem for the tabulated A, C and M scalars of a pair. *)
Definition reciprocal_scalars (sc : nat -> nat -> R -> nat -> R) (ix : R -> nat) (s ap aq : R) : Prop :=
  (forall n, (n < 2)%nat -> ap * sc n 1%nat s (ix (aq / ap)) = aq * sc n 1%nat s (ix (ap / aq))) /\
  (forall n, (n = 3 \/ n = 4 \/ n = 8 \/ n = 9 \/ n = 10)%nat ->
     ap ^ 3 * sc n 1%nat s (ix (aq / ap)) = aq ^ 3 * sc n 1%nat s (ix (ap / aq))).

(** Every block of the near-field matrix: sum over the contacts of bead [p]
    with bead [q], or over all contacts of [p] if q = p.  Without bead-bead
    interactions distinct dumbbell beads are not coupled. *)
Definition bead_resistance (sc : nat -> nat -> R -> nat -> R) (ix : R -> nat) (bb : bool) (a : nat -> R)
    (pairs : list cpair) (k1 : kind) (p : nat) (k2 : kind) (q : nat) (i j : nat) : R :=
  if Nat.eqb p q then
    contact_sum pairs p (fun q' d s => self_block sc ix k1 k2 d s (a p) (a q') i j)
  else match k1, k2, bb with
  | KB, KB, false => 0
  | _, _, _ =>
    contact_sum pairs p (fun q' d s =>
      if Nat.eqb q' q then cross_block sc ix k1 k2 d s (a p) (a q) i j else 0)
  end.

(** [p] and [q] are a close pair of the list. *)
Definition in_contact (pairs : list cpair) (p q : nat) : Prop :=
  exists t, In t pairs /\ ((cp1 t = p /\ cp2 t = q) \/ (cp1 t = q /\ cp2 t = p)).

(** The beads of the particle that has component (k, p). *)
Definition bead_of (Ns Nd : nat) (k : kind) (p b : nat) : Prop :=
  match k with
  | KB => b = p \/ b = (if Nat.ltb p (Ns + Nd) then p + Nd else p - Nd)%nat
  | _ => b = p
  end.

(** A strictly increasing list. *)
Definition increasing (l : list R) : Prop :=
  forall i j, (i < j)%nat -> (j < length l)%nat -> nth i l 0 < nth j l 0.
