(** Model of the near-field resistance matrix.
    Source: stokesian_dynamics/functions/generate_R2Bexact.py. *)
From Coq Require Import Reals Arith Bool List.
From Verif Require Import Base Model_Pack Model_Mob Model_Layout Model_Minf Model_L Model_Close.
Import ListNotations.
Local Open Scope R_scope.

(** [k not in [i, j]] for k in range(3) *)
Definition others (i j : nat) : list nat :=
  filter (fun k => negb (Nat.eqb k i || Nat.eqb k j)) (seq 0 3).
Definition lsum (l : list nat) (f : nat -> R) : R := fold_right Rplus 0 (map f l).

(** 27-98: unit displacement tensors. *)
Definition L1t (d : vec) (i j : nat) : R := d i * d j.
Definition L2t (d : vec) (i j : nat) : R := delta i j - d i * d j.
Definition L3t (d : vec) (i j : nat) : R :=
  if Nat.eqb i j then 0 else lsum (others i j) (fun k => levi i j k * d k).
Definition L4t (d : vec) (i j k : nat) : R := (d i * d j - delta i j / 3) * d k.
Definition L5t (d : vec) (i j k : nat) : R :=
  d i * delta j k + d j * delta i k - 2 * d i * d j * d k.
Definition L6t (d : vec) (i j k : nat) : R :=
  lsum (others i k) (fun l => levi i k l * d l * d j)
  + lsum (others k j) (fun l => levi j k l * d l * d i).
Definition L7t (d : vec) (i j k l : nat) : R :=
  3 / 2 * (d i * d j - delta i j / 3) * (d k * d l - delta k l / 3).
Definition L8t (d : vec) (i j k l : nat) : R :=
  1 / 2 * (d i * delta j l * d k + d j * delta i l * d k + d i * delta j k * d l
           + d j * delta i k * d l - 4 * d i * d j * d k * d l).
Definition L9t (d : vec) (i j k l : nat) : R :=
  1 / 2 * (delta i k * delta j l + delta j k * delta i l - delta i j * delta k l
           + d i * d j * delta k l + delta i j * d k * d l
           - d i * delta j l * d k - d j * delta i l * d k
           - d i * delta j k * d l - d j * delta i k * d l
           + d i * d j * d k * d l).

(** [np.interp(x, xp, fp)]: piecewise linear, constant outside. *)
Fixpoint interp_from (x0 y0 x : R) (l : list (R * R)) : R :=
  match l with
  | [] => y0
  | (x1, y1) :: l' =>
      if Rle_dec x x1 then y0 + (y1 - y0) / (x1 - x0) * (x - x0)
      else interp_from x1 y1 x l'
  end.
Definition np_interp (x : R) (tab : list (R * R)) : R :=
  match tab with
  | [] => 0
  | (x0, y0) :: l => if Rle_dec x x0 then y0 else interp_from x0 y0 x l
  end.
(** 239-251 [XYZ]: [raw] is XYZ_raw (scalar, gamma, separation index, ratio
    index), [srange] is s_dash_range.  The printed warning is omitted. *)
Definition XYZ (raw : nat -> nat -> nat -> nat -> R) (srange : list R)
    (scalar gamma : nat) (s_dash : R) (lam_index : nat) : R :=
  np_interp s_dash (combine srange (map (fun t => raw scalar gamma t lam_index) (seq 0 (length srange)))).

(** [np.where(np.isclose(table, lam))[0][0]]; no match raises IndexError. *)
Definition isclose (x y : R) : bool := Rleb (Rabs (x - y)) (/ 10 ^ 8 + / 10 ^ 5 * Rabs y).
Fixpoint lam_index_from (k : nat) (table : list R) (lam : R) : option nat :=
  match table with
  | [] => None
  | x :: t => if isclose x lam then Some k else lam_index_from (S k) t lam
  end.
Definition lam_index (table : list R) (lam : R) : option nat := lam_index_from 0 table lam.
Definition lam_ix (table : list R) (lam : R) : nat :=
  match lam_index table lam with Some k => k | None => 0 end.
Definition found (table : list R) (lam : R) : bool :=
  match lam_index table lam with Some _ => true | None => false end.

(** 402-420, 565-583, 618-636: beads near bead [p], with displacement from [p] and distance. *)
Definition nearby (pairs : list cpair) (p : nat) : list (nat * vec * R) :=
  flat_map (fun t =>
    (if (Nat.eqb (cp1 t) p && negb (Nat.eqb (cp1 t) (cp2 t)))%bool
     then [(cp2 t, cp_disp t, cp_dist t)] else [])
    ++ (if (Nat.eqb (cp2 t) p && negb (Nat.eqb (cp1 t) (cp2 t)))%bool
        then [(cp1 t, vopp (cp_disp t), cp_dist t)] else [])) pairs.

(** [+=] over the nearby beads *)
Definition near_sum (near : list (nat * vec * R)) (f : nat -> vec -> R -> mat) : mat :=
  fold_left (fun S n => madd S (f (fst (fst n)) (vscal (/ snd n) (snd (fst n))) (snd n))) near mzero.

Section R2B.
(** [sc scalar gamma s' lam_index] is [XYZ]. *)
Variable sc : nat -> nat -> R -> nat -> R.

(** 157-206 *)
Definition Af (gamma : nat) (d : vec) (li : nat) (ss : R) (i j : nat) : R :=
  sc 0%nat gamma ss li * L1t d i j + sc 1%nat gamma ss li * L2t d i j.
Definition Bf (gamma : nat) (d : vec) (li : nat) (ss : R) (i j : nat) : R :=
  sc 2%nat gamma ss li * L3t d i j.
Definition Cf (gamma : nat) (d : vec) (li : nat) (ss : R) (i j : nat) : R :=
  sc 3%nat gamma ss li * L1t d i j + sc 4%nat gamma ss li * L2t d i j.
Definition Gf (gamma : nat) (d : vec) (li : nat) (ss : R) (i j k : nat) : R :=
  sc 5%nat gamma ss li * L4t d i j k + sc 6%nat gamma ss li * L5t d i j k.
Definition Hf (gamma : nat) (d : vec) (li : nat) (ss : R) (i j k : nat) : R :=
  sc 7%nat gamma ss li * L6t d i j k.
Definition Mf (gamma : nat) (d : vec) (li : nat) (ss : R) (i j k l : nat) : R :=
  sc 8%nat gamma ss li * L7t d i j k l + sc 9%nat gamma ss li * L8t d i j k l
  + sc 10%nat gamma ss li * L9t d i j k l.

(** 209-236: condensed rows (index 0..4). *)
Definition con_Gf_row (gamma : nat) (d : vec) (li : nat) (ss : R) (i : nat) : nat -> R :=
  con_row (fun j k => Gf gamma d li ss j k i).
Definition con_Hf_row (gamma : nat) (d : vec) (li : nat) (ss : R) (i : nat) : nat -> R :=
  con_row (fun j k => Hf gamma d li ss j k i).

Variables (table : list R) (bb : bool) (a : nat -> R) (Ns Nd : nat) (pairs : list cpair).

Definition con_Mf (gamma : nat) (d : vec) (li : nat) (ss : R) : mat :=
  mmul 5 (mmul 5 cond_E
    (fun i j => Mf gamma d li ss (fst (cond_idx i)) (snd (cond_idx i)) (fst (cond_idx j)) (snd (cond_idx j)))) cond_E.
Definition con_Gf_mat (d : vec) (li : nat) (ss : R) : mat :=
  mmul 5 cond_E (fun i j => Gf 1 d li ss (fst (cond_idx i)) (snd (cond_idx i)) j).

(** 368-658: the assignments made for one pair, when all ratios are found.
    [R33_temp] etc. are overwritten before each use. *)
Definition r2b_write (M : mat) (t : cpair) : mat :=
  let u := cp1 t in
  let v := cp2 t in
  let s := cp_dist t in
  let d := vscal (/ s) (cp_disp t) in
  let md := vopp d in
  let lam := cp_ratio t in
  let li := lam_ix table lam in
  let lr := lam_ix table (1 / lam) in
  let a1 := a u in
  let a2 := a v in
  let scale_A := 6 * PI * a1 in
  let scale_B := 4 * PI * a1 ^ 2 in
  let scale_C := 8 * PI * a1 ^ 3 in
  let scale_G := 4 * PI * a1 ^ 2 in
  let scale_H := 8 * PI * a1 ^ 3 in
  let scale_M := 20 / 3 * PI * a1 ^ 3 in
  let scale_B2 := 4 * PI * a2 ^ 2 in
  let scale_G2 := 4 * PI * a2 ^ 2 in
  let scale_H2 := 8 * PI * a2 ^ 3 in
  let cs := submatrix_coords_tuple u v Ns Nd in
  let near := nearby pairs u in
  let lp := fun q => lam_ix table (a q / a u) in
  let A_sum := near_sum near (fun q d s i j => Af 0 d (lp q) s i j * scale_A) in
  let A12 := fun i j => Af 1 d li s i j * scale_A in
  if (is_sphere u Ns && is_sphere v Ns)%bool then
    if Nat.eqb u v then
      let M := mset M (A_c cs) 3 3 A_sum in
      let M := mset M (Bt_c cs) 3 3 (near_sum near (fun q d s i j => Bf 0 d (lp q) s j i * scale_B)) in
      let M := mset M (C_c cs) 3 3 (near_sum near (fun q d s i j => Cf 0 d (lp q) s i j * scale_C)) in
      let M := mset M (Gt_c cs) 3 5 (near_sum near (fun q d s i j => con_Gf_row 0 d (lp q) s i j * scale_G)) in
      let M := mset M (Ht_c cs) 3 5 (near_sum near (fun q d s i j => con_Hf_row 0 d (lp q) s i j * scale_H)) in
      mset M (M_c cs) 5 5 (near_sum near (fun q d s i j => con_Mf 0 d (lp q) s i j * scale_M))
    else
      let M := mset M (A_c cs) 3 3 A12 in
      let M := mset M (Bt_c cs) 3 3 (fun i j => Bf 1 md lr s j i * scale_B2) in
      let M := mset M (C_c cs) 3 3 (fun i j => Cf 1 d li s i j * scale_C) in
      let M := mset_rows M (Gt_c cs) 3 5 (fun i j => con_Gf_row 1 md lr s i j * scale_G2) in
      let M := mset_rows M (Ht_c cs) 3 5 (fun i j => con_Hf_row 1 md lr s i j * scale_H2) in
      let M := mset M (M_c cs) 5 5 (fun i j => con_Mf 1 d li s i j * scale_M) in
      if Req_EM_T lam 1 then
        let M := mset M (Bt21_c cs) 3 3 (mopp (mget M (Bt_c cs))) in
        let M := mset M (Gt21_c cs) 3 5 (mopp (mget M (Gt_c cs))) in
        mset M (Ht21_c cs) 3 5 (mget M (Ht_c cs))
      else
        let M := mset M (Bt21_c cs) 3 3 (fun i j => Bf 1 d li s j i * scale_B) in
        let M := mset_rows M (Gt21_c cs) 3 5 (fun i j => con_Gf_row 1 d li s i j * scale_G) in
        mset_rows M (Ht21_c cs) 3 5 (fun i j => con_Hf_row 1 d li s i j * scale_H)
  else if (is_sphere u Ns && is_dumbbell_bead_1 v Ns Nd)%bool then
    let M := mset M (M14_c cs) 3 3 A12 in
    let M := mset M (M24_c cs) 3 3 (fun i j => Bf 1 d li s i j * scale_B) in
    mset M (M34_c cs) 5 3 (fun i j => con_Gf_mat d li s i j * scale_G)
  else if is_sphere u Ns then
    let M := mset M (M15_c cs) 3 3 A12 in
    let M := mset M (M25_c cs) 3 3 (fun i j => Bf 1 d li s i j * scale_B) in
    mset M (M35_c cs) 5 3 (fun i j => con_Gf_mat d li s i j * scale_G)
  else if (is_dumbbell_bead_1 u Ns Nd && is_dumbbell_bead_1 v Ns Nd)%bool then
    if Nat.eqb u v then mset M (M44_c cs) 3 3 A_sum
    else if bb then mset M (M44_c cs) 3 3 A12 else M
  else if (is_dumbbell_bead_1 u Ns Nd && is_dumbbell_bead_2 v Ns Nd)%bool then
    if bb then mset M (M45_c cs) 3 3 A12 else M
  else
    if Nat.eqb u v then mset M (M55_c cs) 3 3 A_sum
    else if bb then mset M (M55_c cs) 3 3 A12 else M.

(** Look-ups of the iteration: 377-379 for every pair, 429-431, 587-589, 640-642 for the
    beads near a self pair. *)
Definition lookups_ok (t : cpair) : bool :=
  (found table (cp_ratio t) && found table (1 / cp_ratio t)
   && (if Nat.eqb (cp1 t) (cp2 t)
       then forallb (fun n => found table (a (fst (fst n)) / a (cp1 t))) (nearby pairs (cp1 t))
       else true))%bool.

(** [None] is the IndexError of a failed look-up. *)
Definition r2b_step (M : option mat) (t : cpair) : option mat :=
  match M with
  | None => None
  | Some M => if lookups_ok t then Some (r2b_write M t) else None
  end.

(** 341-663 *)
Definition generate_R2Bexact_loop : option mat :=
  match fold_left r2b_step pairs (Some mzero) with
  | Some M => Some (symmetrise M)
  | None => None
  end.

(** 260-337 (the matrix), given the list of close pairs. *)
Definition generate_R2Bexact (mu : R) : option mat :=
  match generate_R2Bexact_loop with
  | Some M => Some (mscal mu (if Nat.ltb 0 Nd then r2b_transform Ns Nd M else M))
  | None => None
  end.
End R2B.

(** 292-308, not periodic: beads, close pairs, loop. *)
Definition generate_R2Bexact_free (sc : nat -> nat -> R -> nat -> R) (table : list R) (bb : bool) (p : posdata)
    (cutoff_factor mu : R) : option mat :=
  generate_R2Bexact sc table bb (bead_sizes p) (num_spheres p) (num_dumbbells p)
    (close_particles_free (bead_positions p) (bead_sizes p) (num_spheres p + 2 * num_dumbbells p) cutoff_factor) mu.
(** The same with a periodic box. *)
Definition generate_R2Bexact_periodic (inv : mat -> mat) (sc : nat -> nat -> R -> nat -> R) (table : list R) (bb : bool)
    (p : posdata) (cutoff_factor mu : R) (box Ot : vec) (Et : mat) : option mat :=
  generate_R2Bexact sc table bb (bead_sizes p) (num_spheres p) (num_dumbbells p)
    (close_particles_periodic inv (bead_positions p) (bead_sizes p) (num_spheres p + 2 * num_dumbbells p)
       cutoff_factor box Ot Et) mu.
