(** Model of the assembly of the far-field grand mobility matrix.
    Source: stokesian_dynamics/functions/generate_Minfinity.py 267-503.
    [bead_bead_interactions] is imported from settings there and is an
    argument here.  Work arrays (M33_temp, M34_temp, M35_temp), which are
    completely overwritten before each use, are not represented. *)
From Coq Require Import Reals Arith Bool List.
From Verif Require Import Base Model_Pack Model_Mob Model_Layout.
Import ListNotations.
Local Open Scope R_scope.

(** 358-365: displacement and distance used for a pair, after the repair of
    overlapping pairs.  1e-8 and 2.001 are the literals of line 362. *)
Definition pair_geometry (x1 x2 : vec) (a1 a2 : R) : vec * R :=
  let r := vsub x1 x2 in
  let s := norm r in
  if Rlt_dec (/ 10 ^ 8) s then
    if Rlt_dec (2 * s / (a1 + a2)) (2001 / 1000) then
      let ss_out := 2001 / 1000 * (a1 + a2) / 2 in
      (v3 (r 0%nat * ss_out / s) (r 1%nat * ss_out / s) (r 2%nat * ss_out / s), ss_out)
    else (r, s)
  else (r, s).

(** 356-498: the body of the loop. *)
Definition minf_step (bb : bool) (x : nat -> vec) (a : nat -> R) (Ns Nd : nat) (c mu : R)
    (M : mat) (pr : nat * nat) : mat :=
  let '(u, v) := pr in
  let a1 := a u in
  let a2 := a v in
  let '(r, s) := pair_geometry (x u) (x v) a1 a2 in
  let cs := submatrix_coords_tuple u v Ns Nd in
  let m11 := fun i j => M11 (r i) (r j) s a1 a2 i j c mu in
  let mr := vopp r in
  if (is_sphere u Ns && is_sphere v Ns)%bool then
    (* sphere to sphere, 373-434 *)
    let M := mset M (A_c cs) 3 3 m11 in
    let M := mset M (Bt_c cs) 3 3 (fun i j => M12 r s a1 a2 i j c mu) in
    let M := mset M (C_c cs) 3 3 (fun i j => M22 r s a1 a2 i j c mu) in
    let M := mset_rows M (Gt_c cs) 3 5 (fun i => con_M13_row r s a1 a2 i c mu) in
    let M := mset_rows M (Ht_c cs) 3 5 (fun i => con_M23_row r s a1 a2 i c mu) in
    let M := if Rlt_dec tiny s then
               mset M (M_c cs) 5 5
                 (mmul 5 (mmul 5 cond_E
                    (fun i j => M33 r s a1 a2 (fst (cond_idx i)) (snd (cond_idx i))
                                             (fst (cond_idx j)) (snd (cond_idx j)) c mu)) cond_E)
             else mset_diag M (M_c cs) 5 (1 / (20 / 3 * PI * mu * a1 ^ 3)) in
    if Req_EM_T a1 a2 then
      let M := mset M (Bt21_c cs) 3 3 (mopp (mget M (Bt_c cs))) in
      let M := mset M (Gt21_c cs) 3 5 (mopp (mget M (Gt_c cs))) in
      mset M (Ht21_c cs) 3 5 (mget M (Ht_c cs))
    else
      let M := mset M (Bt21_c cs) 3 3 (fun i j => M12 mr s a2 a1 i j c mu) in
      let M := mset_rows M (Gt21_c cs) 3 5 (fun i => con_M13_row mr s a2 a1 i c mu) in
      mset_rows M (Ht21_c cs) 3 5 (fun i => con_M23_row mr s a2 a1 i c mu)
  else if (is_sphere u Ns && is_dumbbell_bead_1 v Ns Nd)%bool then
    (* sphere to dumbbell bead 1, 436-454 *)
    let M := mset M (M14_c cs) 3 3 m11 in
    let M := mset M (M24_c cs) 3 3 (fun i j => M12 mr s a2 a1 j i c mu) in
    mset M (M34_c cs) 5 3
      (mmul 5 cond_E (fun i j => M13 mr s a2 a1 j (fst (cond_idx i)) (snd (cond_idx i)) c mu))
  else if is_sphere u Ns then
    (* sphere to dumbbell bead 2, 457-472 *)
    let M := mset M (M15_c cs) 3 3 m11 in
    let M := mset M (M25_c cs) 3 3 (fun i j => M12 mr s a2 a1 j i c mu) in
    mset M (M35_c cs) 5 3
      (mmul 5 cond_E (fun i j => M13 mr s a2 a1 j (fst (cond_idx i)) (snd (cond_idx i)) c mu))
  else if (is_dumbbell_bead_1 u Ns Nd && is_dumbbell_bead_1 v Ns Nd)%bool then
    (* 474-481 *)
    if (bb || Nat.eqb u v)%bool then mset M (M44_c cs) 3 3 m11 else M
  else if (is_dumbbell_bead_1 u Ns Nd && is_dumbbell_bead_2 v Ns Nd)%bool then
    (* 483-490 *)
    if bb then mset M (M45_c cs) 3 3 m11 else M
  else
    (* 492-498 *)
    if (bb || Nat.eqb u v)%bool then mset M (M55_c cs) 3 3 m11 else M.

(** 331-503 [generate_Minfinity_loop].  [len(bead_sizes)] is Ns + 2 Nd.  The
    inner loops over [i] at 428-434 interleave the rows of two disjoint blocks;
    here one block is written after the other. *)
Definition generate_Minfinity_loop (bb : bool) (x : nat -> vec) (a : nat -> R) (Ns Nd : nat)
    (c mu : R) : mat :=
  symmetrise (fold_left (minf_step bb x a Ns Nd c mu) (upper_pairs (Ns + 2 * Nd)) mzero).

(** Positions, sizes and counts (shared.py 192-218; rotations do not enter). *)
Record posdata := mkPos {
  num_spheres : nat; num_dumbbells : nat;
  sphere_sizes : nat -> R; sphere_positions : nat -> vec;
  dumbbell_sizes : nat -> R; dumbbell_positions : nat -> vec; dumbbell_deltax : nat -> vec }.

(** 288-291: concatenation of spheres, beads 1, beads 2. *)
Definition bead_positions (p : posdata) (b : nat) : vec :=
  if Nat.ltb b (num_spheres p) then sphere_positions p b
  else if Nat.ltb b (num_spheres p + num_dumbbells p) then
    let d := (b - num_spheres p)%nat in
    vsub (dumbbell_positions p d) (vscal (1 / 2) (dumbbell_deltax p d))
  else
    let d := (b - num_spheres p - num_dumbbells p)%nat in
    vadd (dumbbell_positions p d) (vscal (1 / 2) (dumbbell_deltax p d)).
Definition bead_sizes (p : posdata) (b : nat) : R :=
  if Nat.ltb b (num_spheres p) then sphere_sizes p b
  else if Nat.ltb b (num_spheres p + num_dumbbells p) then dumbbell_sizes p (b - num_spheres p)
  else dumbbell_sizes p (b - num_spheres p - num_dumbbells p).

(** scipy.sparse.coo_matrix: duplicate coordinates add up. *)
Definition coo_matrix (data : list R) (rows cols : list nat) : mat := fun i j =>
  fold_right Rplus 0
    (map (fun t => if (Nat.eqb (fst (snd t)) i && Nat.eqb (snd (snd t)) j)%bool then fst t else 0)
         (combine data (combine rows cols))).

(** 311-322: the sparse matrix L. *)
Definition minf_L (Ns Nd : nat) : mat :=
  let Lrow := seq 0 (11 * Ns + 6 * Nd)
              ++ map (fun i => i + 11 * Ns)%nat (seq 0 (3 * Nd))
              ++ map (fun i => i + 11 * Ns + 3 * Nd)%nat (seq 0 (3 * Nd)) in
  let Lcol := seq 0 (11 * Ns + 6 * Nd)
              ++ map (fun i => i + 11 * Ns + 3 * Nd)%nat (seq 0 (3 * Nd))
              ++ map (fun i => i + 11 * Ns)%nat (seq 0 (3 * Nd)) in
  let Ldata := repeat 1 (11 * Ns) ++ repeat (1 / 2) (9 * Nd) ++ repeat (- (1 / 2)) (3 * Nd) in
  coo_matrix Ldata Lrow Lcol.

(** 267-327 [generate_Minfinity] (the matrix; the returned name is omitted). *)
Definition generate_Minfinity (bb : bool) (p : posdata) (mu : R) : mat :=
  let Ns := num_spheres p in
  let Nd := num_dumbbells p in
  let c := 1 / (8 * PI * mu) in
  let M := generate_Minfinity_loop bb (bead_positions p) (bead_sizes p) Ns Nd c mu in
  let N := (11 * Ns + 6 * Nd)%nat in
  if Nat.ltb 0 Nd then
    let L := minf_L Ns Nd in mmul N (mmul N L M) (mtr L)
  else M.
