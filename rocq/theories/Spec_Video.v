(** What the pictures of a saved run should show (C84). *)
From Coq Require Import Reals List Arith ZArith.
From Verif Require Import Base Model_Mob Model_Frame Model_Inputs Model_Checkpoint Spec_Checkpoint Spec_Shear Model_Video.
Import ListNotations.
Local Open Scope R_scope.

(** Timesteps as python prints them: the first digit of a float is not 0. *)
Definition normal_timestep (t : tstep) : Prop :=
  match t with TInt n => (0 <= n)%Z | TFloat ds _ => decimal ds /\ hd 0%nat ds <> 0%nat end.

(** A disc of radius 1 at [x], lines to [e1] and [e2], reddened by the force [F]. *)
Definition shows (d : disc) (x e1 e2 F : vec) : Prop :=
  d_radius d = 1 /\
  (forall l, (l < 3)%nat -> d_centre d l = x l /\ d_end1 d l = e1 l /\ d_end2 d l = e2 l) /\
  d_red d = Rmin 1 (norm F).

(** The discs are the [Ns] spheres of [row], each once for every displacement
    of [copies]. *)
Definition pictured (Ns : nat) (copies : vec -> Prop) (row : snapshot) (F : nat -> vec) (discs : list disc) : Prop :=
  (forall d, In d discs -> exists i X, (i < Ns)%nat /\ copies X /\
     shows d (vadd (n_pos row i) X) (vadd (n_rot row i 0%nat) X) (vadd (n_rot row i 1%nat) X) (F i)) /\
  (forall i X, (i < Ns)%nat -> copies X -> exists d, In d discs /\
     shows d (vadd (n_pos row i) X) (vadd (n_rot row i 0%nat) X) (vadd (n_rot row i 1%nat) X) (F i)).

(** Basis of the lattice: the edges of the box carried along by the accumulated
    rotation and strain, up to multiples of the box. *)
Definition carried_basis (f : flow) (b : nat -> vec) : Prop :=
  let box := vsub (f_tr f) (f_bl f) in
  forall k l, (k < 3)%nat -> (l < 3)%nat ->
    exists m : Z, b k l = edges box k l + (cross (f_Ot f) (edges box k) l + rsum 3 (fun j => f_Et f l j * edges box k j)) - IZR m * box l
                  /\ 0 <= b k l - edges box k l < box l.

(** Displacements by at most one box along x and along z, not further than
    1.4142 times the edge of a cube of the same volume. *)
Definition unbounded_domain (f : flow) : Prop := forall l, (l < 3)%nat -> f_bl f l = f_tr f l.
Definition small_step (a : Z) : Prop := (a = -1 \/ a = 0 \/ a = 1)%Z.
Definition seen (f : flow) (b : nat -> vec) (X : vec) : Prop :=
  let box := vsub (f_tr f) (f_bl f) in
  (unbounded_domain f -> forall l, (l < 3)%nat -> X l = 0) /\
  (~ unbounded_domain f ->
     (exists a c, small_step a /\ small_step c /\ forall l, (l < 3)%nat -> X l = IZR a * b 0%nat l + IZR c * b 2%nat l) /\
     exists edge, 0 < edge /\ edge ^ 3 = box 0%nat * box 1%nat * box 2%nat /\ norm X <= 14142 / 10000 * edge).

(** A box with positive sides, or none. *)
Definition proper_box (f : flow) : Prop := unbounded_domain f \/ forall l, (l < 3)%nat -> f_bl f l < f_tr f l.

(** The periodic box in the plane y = 0. *)
Definition box_outline (f : flow) (c : vec * vec * vec * vec) : Prop :=
  let '(c1, c2, c3, c4) := c in
  forall l, (l < 3)%nat ->
    c1 l = v3 (f_bl f 0%nat) 0 (f_bl f 2%nat) l /\ c2 l = v3 (f_bl f 0%nat) 0 (f_tr f 2%nat) l /\
    c3 l = v3 (f_tr f 0%nat) 0 (f_tr f 2%nat) l /\ c4 l = v3 (f_tr f 0%nat) 0 (f_bl f 2%nat) l.
Definition unstrained (f : flow) : Prop :=
  forall l, (l < 3)%nat -> f_Ot f l = 0 /\ forall j, (j < 3)%nat -> f_Et f l j = 0.

(** The picture shows the spheres of [row], reddened by the forces [F]: each once
    in an unbounded domain; with a periodic box, also the copies one box to the
    left, to the right, above and below, in the carried lattice, and a red box,
    which is the periodic one if nothing is strained. *)
Definition picture_of (Ns : nat) (row : snapshot) (F : nat -> vec) (f : flow) (pic : picture) : Prop :=
  exists b, (~ unbounded_domain f -> carried_basis f b) /\
    pictured Ns (seen f b) row F (pic_discs pic) /\
    (unbounded_domain f -> List.length (pic_discs pic) = Ns /\ pic_box pic = None) /\
    (~ unbounded_domain f -> exists box, pic_box pic = Some box /\ (unstrained f -> box_outline f box)).
