(** Model of the block layout of the grand matrices.
    Source: stokesian_dynamics/functions/shared.py 148-189 and 247-263. *)
From Coq Require Import Reals Arith Bool List.
From Verif Require Import Base.
Import ListNotations.

(** shared.py 247-263. *)
Definition is_sphere (a Ns : nat) : bool := Nat.ltb a Ns.
Definition is_dumbbell (a Ns : nat) : bool := Nat.leb Ns a.
Definition is_dumbbell_bead_1 (a Ns Nd : nat) : bool := (Nat.leb Ns a && Nat.ltb a (Ns + Nd))%bool.
Definition is_dumbbell_bead_2 (a Ns Nd : nat) : bool := Nat.leb (Ns + Nd) a.

Record coords := mkCoords {
  A_c : nat * nat; Bt_c : nat * nat; Bt21_c : nat * nat; Gt_c : nat * nat; Gt21_c : nat * nat;
  C_c : nat * nat; Ht_c : nat * nat; Ht21_c : nat * nat; M_c : nat * nat;
  M14_c : nat * nat; M24_c : nat * nat; M34_c : nat * nat; M44_c : nat * nat;
  M15_c : nat * nat; M25_c : nat * nat; M35_c : nat * nat; M45_c : nat * nat; M55_c : nat * nat }.

(** shared.py 149-189 [submatrix_coords_tuple].  Python integers may go
    negative where natural numbers stop at 0 (R4, C4, R5, C5 of a sphere, R5,
    C5 of a first bead); none of the callers uses those. *)
Definition submatrix_coords_tuple (a1 a2 Ns Nd : nat) : coords :=
  let R1 := a1 * 3 in
  let R2 := 3 * Ns + a1 * 3 in
  let R3 := 6 * Ns + a1 * 5 in
  let C1 := a2 * 3 in
  let C2 := 3 * Ns + a2 * 3 in
  let C3 := 6 * Ns + a2 * 5 in
  let R4 := 11 * Ns + (a1 - Ns) * 3 in
  let C4 := 11 * Ns + (a2 - Ns) * 3 in
  let R5 := 11 * Ns + 3 * Nd + (a1 - Ns - Nd) * 3 in
  let C5 := 11 * Ns + 3 * Nd + (a2 - Ns - Nd) * 3 in
  mkCoords (R1, C1) (R1, C2) (C1, R2) (R1, C3) (C1, R3) (R2, C2) (R2, C3) (C2, R3) (R3, C3)
    (R1, C4) (R2, C4) (R3, C4) (R4, C4) (R1, C5) (R2, C5) (R3, C5) (R4, C5) (R5, C5).

(** [[(u, v) for u in range(n) for v in range(u, n)]] *)
Definition upper_pairs (n : nat) : list (nat * nat) :=
  flat_map (fun u => map (fun v => (u, v)) (seq u (n - u))) (seq 0 n).

(** [M[c[0]:c[0]+h, c[1]:c[1]+w] = B] *)
Definition mset (M : mat) (c : nat * nat) (h w : nat) (B : mat) : mat :=
  put M (fst c) (fst c + h) (snd c) (snd c + w) B.
(** [for i in range(h): M[c[0]+i, c[1]:c[1]+w] = row(i)] *)
Definition mset_rows (M : mat) (c : nat * nat) (h w : nat) (row : nat -> nat -> R) : mat :=
  fold_left (fun M i => put M (fst c + i) (fst c + i + 1) (snd c) (snd c + w) (fun _ j => row i j))
            (seq 0 h) M.
(** [for i in range(h): M[c[0]+i, c[1]+i] = v] *)
Definition mset_diag (M : mat) (c : nat * nat) (h : nat) (v : R) : mat :=
  fold_left (fun M i => put M (fst c + i) (fst c + i + 1) (snd c + i) (snd c + i + 1) (fun _ _ => v))
            (seq 0 h) M.
(** [M[c[0]:, c[1]:]] *)
Definition mget (M : mat) (c : nat * nat) : mat := slice M (fst c) (snd c).

(** [np.triu(M) + np.triu(M, k=1).transpose()] *)
Definition symmetrise (M : mat) : mat := fun i j =>
  ((if Nat.leb i j then M i j else 0) + (if Nat.ltb j i then M j i else 0))%R.

(** Coordinates, height and width of the blocks that one step of the assembly
    assigns for the pair (u, v): generate_Minfinity.py 375-498 and
    generate_R2Bexact.py 449-655 (the 21-blocks of a self pair, which
    coincide with its own blocks, are left out). *)
Definition written_blocks (u v Ns Nd : nat) : list ((nat * nat) * (nat * nat)) :=
  let cs := submatrix_coords_tuple u v Ns Nd in
  if (is_sphere u Ns && is_sphere v Ns)%bool then
    [(A_c cs, (3, 3)); (Bt_c cs, (3, 3)); (C_c cs, (3, 3)); (Gt_c cs, (3, 5));
     (Ht_c cs, (3, 5)); (M_c cs, (5, 5))]
    ++ (if Nat.eqb u v then []
        else [(Bt21_c cs, (3, 3)); (Gt21_c cs, (3, 5)); (Ht21_c cs, (3, 5))])
  else if (is_sphere u Ns && is_dumbbell_bead_1 v Ns Nd)%bool then
    [(M14_c cs, (3, 3)); (M24_c cs, (3, 3)); (M34_c cs, (5, 3))]
  else if is_sphere u Ns then
    [(M15_c cs, (3, 3)); (M25_c cs, (3, 3)); (M35_c cs, (5, 3))]
  else if (is_dumbbell_bead_1 u Ns Nd && is_dumbbell_bead_1 v Ns Nd)%bool then
    [(M44_c cs, (3, 3))]
  else if (is_dumbbell_bead_1 u Ns Nd && is_dumbbell_bead_2 v Ns Nd)%bool then
    [(M45_c cs, (3, 3))]
  else [(M55_c cs, (3, 3))].
