(** Model of the time stepping formulas.
    Source: stokesian_dynamics/functions/timestepping.py.
    Arrays over particles are functions of the particle number; the numbers of
    spheres and dumbbells appear where the result depends on them. *)
From Coq Require Import Reals Arith Bool List.
From Verif Require Import Base Model_Mob Model_Close.
Local Open Scope R_scope.

(** 22-25 [euler_timestep], one particle (numpy broadcasts over the array). *)
Definition euler_timestep (x u : vec) (dt : R) : vec := fun l => x l + dt * u l.

(** 28-30 [ab2_timestep] *)
Definition ab2_timestep (x u u_previous : vec) (dt : R) : vec :=
  fun l => x l + dt * (15 / 10 * u l - 5 / 10 * u_previous l).

(** [np.arctan2(y, x)] over the reals. *)
Definition arctan2 (y x : R) : R :=
  if Rlt_dec 0 x then atan (y / x)
  else if Rlt_dec x 0 then (if Rle_dec 0 y then atan (y / x) + PI else atan (y / x) - PI)
  else if Rlt_dec 0 y then PI / 2
  else if Rlt_dec y 0 then - (PI / 2)
  else 0.

(** [np.allclose(v, w)] of 3-vectors, default tolerances. *)
Definition allclose3 (v w : vec) : bool :=
  (Rleb (Rabs (v 0%nat - w 0%nat)) (1 / 10 ^ 8 + 1 / 10 ^ 5 * Rabs (w 0%nat))
   && Rleb (Rabs (v 1%nat - w 1%nat)) (1 / 10 ^ 8 + 1 / 10 ^ 5 * Rabs (w 1%nat))
   && Rleb (Rabs (v 2%nat - w 2%nat)) (1 / 10 ^ 8 + 1 / 10 ^ 5 * Rabs (w 2%nat)))%bool.

Definition Reqb (x y : R) : bool := if Req_EM_T x y then true else false.
(** [np.array_equal(v, np.array([0., 0., 0.]))] *)
Definition is_zero3 (v : vec) : bool := (Reqb (v 0%nat) 0 && Reqb (v 1%nat) 0 && Reqb (v 2%nat) 0)%bool.

(** 85 *)
Definition speed (O : vec) : R := sqrt (O 0%nat ^ 2 + O 1%nat ^ 2 + O 2%nat ^ 2).

(** 101-110: the columns of [rot_matrix] for a sphere with angular velocity O. *)
Definition rot_matrix (O : vec) : mat :=
  if is_zero3 O then delta
  else
    let Otest := fun l => Rabs (O l / speed O) in
    let perp1 := if allclose3 Otest (v3 1 0 0) then v3 0 0 1 else v3 1 0 0 in
    fun i j => match j with
      | 0%nat => cross O perp1 i / speed O
      | 1%nat => cross O (cross O perp1) i / speed O ^ 2
      | _ => O i / speed O
      end.

(** 112-138, one of the two orientation points of one sphere: [R0] old centre,
    [R] new centre, [rb0] old orientation point.  [inv] is [np.linalg.inv] of 3
    by 3 matrices.  (When [rb0 = R0], line 128 divides by zero in Python;
    statements about this function assume it is not so.) *)
Definition rotate_point (inv : mat -> mat) (R0 Rnew O rb0 : vec) (dt : R) : vec :=
  let rot := rot_matrix O in
  let b := mvec 3 (inv rot) (vsub rb0 R0) in
  let x0 := b 0%nat in let y0 := b 1%nat in let z0 := b 2%nat in
  let r0 := sqrt (x0 ^ 2 + y0 ^ 2 + z0 ^ 2) in
  let t0 := acos (z0 / r0) in
  let p0 := if (Reqb x0 0 && Reqb y0 0)%bool then 0 else arctan2 y0 x0 in
  let p := p0 + dt * speed O in
  let x := r0 * sin t0 * cos p in
  let y := r0 * sin t0 * sin p in
  let z := r0 * cos t0 in
  fun l => Rnew l + mvec 3 rot (v3 x y z) l.

(** 73-139 [euler_timestep_rotation]: orientation points [rot i j], j = 0, 1. *)
Definition euler_timestep_rotation (inv : mat -> mat) (pos : nat -> vec) (rot : nat -> nat -> vec)
    (new_pos : nat -> vec) (Oa : nat -> vec) (dt : R) : nat -> nat -> vec :=
  fun i j => rotate_point inv (pos i) (new_pos i) (Oa i) (rot i j) dt.

(** 142-153 [ab2_timestep_rotation] *)
Definition ab2_timestep_rotation (inv : mat -> mat) (pos : nat -> vec) (rot : nat -> nat -> vec)
    (new_pos : nat -> vec) (Oa Oa_previous : nat -> vec) (dt : R) : nat -> nat -> vec :=
  euler_timestep_rotation inv pos rot new_pos
    (fun i l => 15 / 10 * Oa i l - 5 / 10 * Oa_previous i l) dt.

(** 33-69 [did_something_go_wrong_with_dumbells]: only the effect on the error
    flag; the angle test merely prints. *)
Definition did_something_go_wrong (error : bool) (Nd : nat) (new_deltax : nat -> vec) (explosion_protection : bool) : bool :=
  fold_left (fun e i => if (explosion_protection && Rltb 5 (norm (new_deltax i)))%bool then true else e)
            (seq 0 Nd) error.

(** 653-678 [wrap_around], one position. *)
Definition wrap_around (inv : mat -> mat) (x : vec) (bottom_left top_right Ot : vec) (Et : mat) : vec :=
  let box := vsub top_right bottom_left in
  let sheared := shear_basis_vectors (diag3 box) box Ot Et in
  rowmul (fun k => rmod (rowmul x (inv sheared) k + 1 / 2) 1 - 1 / 2) sheared.

(** 681-699 [add_background_flow_spheres], one sphere: velocity and angular velocity. *)
Definition add_background_flow_sphere (Ua Oa : vec) (Ea : mat) (Uinf Oinf x centre : vec) : vec * vec :=
  (fun l => Ua l + Uinf l + cross Oinf (vsub x centre) l + mvec 3 Ea (vsub x centre) l,
   fun l => Oa l + Oinf l).

(** 702-725 [add_background_flow_dumbbells], one dumbbell; [Ea0] is the entry
    of [Ea_out] for sphere 0. *)
Definition add_background_flow_dumbbell (Ub HalfDUb : vec) (Ea0 : mat) (Uinf Oinf xbar dx centre : vec) : vec * vec :=
  (fun l => Ub l + Uinf l + cross Oinf (vsub xbar centre) l + mvec 3 Ea0 (vsub xbar centre) l,
   fun l => HalfDUb l + 5 / 10 * (cross Oinf dx l + mvec 3 Ea0 dx l)).
