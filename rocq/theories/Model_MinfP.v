(** Model of the periodic far-field grand mobility matrix: lattice sums over
    the pair functions of Model_Ewald, and their assembly.
    Source: stokesian_dynamics/functions/generate_Minfinity_periodic.py 547-1199.
    The parallel arrays Sdash_lmn, erfcs_Sdash_lmn, Ks_lmn and RR_K, which the
    code computes entry by entry from Xdash_lmn and K_lmn, are written as
    functions of the entry.  [bead_bead_interactions] and
    [how_far_to_reproduce_gridpoints] are imported from settings there and are
    arguments here.  [frameno], [printout] have no effect and are omitted. *)
From Coq Require Import Reals Arith Bool List ZArith.
From Verif Require Import Base Model_Pack Model_Mob Model_Layout Model_Minf Model_Close Model_Ewald.
Import ListNotations.
Local Open Scope R_scope.

(** Accumulation over a list of vectors, as in the loops [sum += f(...)]. *)
Definition vsum (l : list vec) (f : vec -> R) : R := fold_right (fun X t => f X + t) 0 l.

(** What the loop is handed: box length, switch between real and wave space,
    lattice vectors, non-zero ones, wave vectors (832-872). *)
Record lattice := mkLat {
  lat_L : R; lat_lamb : R;
  X_lmn : list vec; Xdash_lmn : list vec; K_lmn : list vec }.

(** 870-872 [RR_K], as a function of ks. *)
Definition RR_of (lamb ks : R) : R :=
  - 8 * PI / ks ^ 4 * (1 + ks ^ 2 / (4 * lamb ^ 2) + ks ^ 4 / (8 * lamb ^ 4))
  * exp (- ks ^ 2 / (4 * lamb ^ 2)).

Definition spi : R := sqrt PI.

Section PairFunctions.
Variable lat : lattice.
Let L := lat_L lat.
Let lamb := lat_lamb lat.
Let er := fun s => generate_erfcs s lamb.
Let RR := fun K => RR_of lamb (norm K).

(** 550-597 [M11].  [sl X] is the entry of s_lmn for X; erfcs_lmn are its
    erfcs. [erfcs] is only handed on to [ar] at separation at most 1e-10. *)
Definition M11P (i j : nat) (r : vec) (s a1 a2 : R) (erfcs : nat -> R) (c mu : R) (sl : vec -> R) : R :=
  if Rlt_dec tiny s then
    let sum_ar := vsum (X_lmn lat) (fun X => ar (vadd r X) (sl X) a1 a2 i j (er (sl X)) c mu) in
    let sum_ak := vsum (K_lmn lat) (fun K => cos (dot3 K r) * aktilde K (norm K) a1 a2 i j (RR K) c) in
    sum_ar + 1 / L ^ 3 * sum_ak
  else
    let a_aa := ar r s a1 a2 i j erfcs c mu in
    let sum_ar := vsum (Xdash_lmn lat) (fun X => ar X (norm X) a1 a1 i j (er (norm X)) c mu) in
    let sum_ak := vsum (K_lmn lat) (fun K => aktilde K (norm K) a1 a1 i j (RR K) c) * (1 / L ^ 3) in
    let a_k0 := c * delta i j * (8 * lamb / spi + (a1 ^ 2 + a2 ^ 2) / 6 * (- 160 * lamb ^ 3 / (3 * spi))) in
    a_aa + sum_ar + sum_ak - a_k0.

(** 600-619 [M12] *)
Definition M12P (i j : nat) (r : vec) (s a1 a2 : R) (c mu : R) (sl : vec -> R) : R :=
  if Rlt_dec tiny s then
    vsum (X_lmn lat) (fun X => btr (vadd r X) (sl X) a1 a2 i j (er (sl X)) c mu)
  else 0.

(** 622-639 [M13] *)
Definition M13P (i j k : nat) (r : vec) (s a1 a2 : R) (c mu : R) (sl : vec -> R) : R :=
  if Rlt_dec tiny s then
    vsum (X_lmn lat) (fun X => gtr (vadd r X) (sl X) a1 a2 i j k (er (sl X)) c mu)
  else 0.

(** 642-677 [M22] *)
Definition M22P (i j : nat) (r : vec) (s a1 a2 : R) (erfcs : nat -> R) (c mu : R) (sl : vec -> R) : R :=
  if Rlt_dec tiny s then
    let sum_cr := vsum (X_lmn lat) (fun X => cr (vadd r X) (sl X) a1 a2 i j (er (sl X)) c mu) in
    let sum_ck := vsum (K_lmn lat) (fun K => cos (dot3 K r) * cktilde K (norm K) a1 a2 i j (RR K) c) in
    sum_cr + sum_ck * (1 / L ^ 3)
  else
    let c_aa := cr r s a1 a2 i j erfcs c mu in
    let sum_cr := vsum (Xdash_lmn lat) (fun X => cr X (norm X) a1 a1 i j (er (norm X)) c mu) in
    let sum_ck := vsum (K_lmn lat) (fun K => cktilde K (norm K) a1 a1 i j (RR K) c) in
    c_aa + sum_cr + sum_ck * (1 / L ^ 3).

(** 680-711 [M23] *)
Definition M23P (i j k : nat) (r : vec) (s a1 a2 : R) (c mu : R) (sl : vec -> R) : R :=
  if Rlt_dec tiny s then
    let sum_htr := vsum (X_lmn lat) (fun X => htr (vadd r X) (sl X) a1 a2 i j k (er (sl X)) c mu) in
    let sum_htk := vsum (K_lmn lat) (fun K => cos (dot3 K r) * htktilde K (norm K) a1 a2 i j k (RR K) c) in
    sum_htr + sum_htk * (1 / L ^ 3)
  else
    let sum_hr := vsum (Xdash_lmn lat) (fun X => htr X (norm X) a1 a1 i j k (er (norm X)) c mu) in
    let sum_hk := vsum (K_lmn lat) (fun K => htktilde K (norm K) a1 a1 i j k (RR K) c) in
    sum_hr + sum_hk * (1 / L ^ 3).

(** 714-757 [M33] *)
Definition M33P (i j k l : nat) (r : vec) (s a1 a2 : R) (erfcs : nat -> R) (c mu : R) (sl : vec -> R) : R :=
  if Rlt_dec tiny s then
    let sum_mr := vsum (X_lmn lat) (fun X => mr (vadd r X) (sl X) a1 a2 i j k l (er (sl X)) c mu) in
    let sum_mk := vsum (K_lmn lat) (fun K => cos (dot3 K r) * mktilde K (norm K) a1 a2 i j k l (RR K) c) in
    sum_mr + sum_mk * (1 / L ^ 3)
  else
    let m_aa := mr r s a1 a2 i j k l erfcs c mu in
    let sum_mr := vsum (Xdash_lmn lat) (fun X => mr X (norm X) a1 a1 i j k l (er (norm X)) c mu) in
    let sum_mk := vsum (K_lmn lat) (fun K => mktilde K (norm K) a1 a1 i j k l (RR K) c) in
    let m_k0 := c * ((- 8 * lamb ^ 3 / (3 * spi) + (a1 ^ 2 + a2 ^ 2) / 10 * (168 * lamb ^ 5) / (5 * spi))
                     * - (3) * kron3traceless i j k l) in
    m_aa + sum_mr + sum_mk * (1 / L ^ 3) - m_k0.

(** 760-787 [con_M13_row], [con_M23_row] *)
Definition con_M13P_row (i : nat) (r : vec) (s a1 a2 c mu : R) (sl : vec -> R) (m : nat) : R :=
  con_row (fun j k => M13P i j k r s a1 a2 c mu sl) m.
Definition con_M23P_row (i : nat) (r : vec) (s a1 a2 c mu : R) (sl : vec -> R) (m : nat) : R :=
  con_row (fun j k => M23P i j k r s a1 a2 c mu sl) m.

(** 948-1194: the body of the loop.  [stale] is the value the variable
    [erfcs] has been left with by an earlier pair, which the sphere-bead
    branches hand to [M11]. *)
Definition minfP_step (bb : bool) (x : nat -> vec) (a : nat -> R) (Ns Nd : nat) (c mu : R)
    (stale : nat -> R) (M : mat) (pr : nat * nat) : mat :=
  let '(u, v) := pr in
  let a1 := a u in
  let a2 := a v in
  let '(r, s) := pair_geometry (x u) (x v) a1 a2 in   (* 953-961 *)
  let cs := submatrix_coords_tuple u v Ns Nd in
  let mr := vopp r in
  let erfcs := er s in
  let s_lmn := fun X => norm (vadd r X) in
  let m_s_lmn := fun X => norm (vadd mr X) in
  let m11 := fun e i j => M11P i j r s a1 a2 e c mu s_lmn in
  let m34 := mmul 5 cond_E
       (fun i j => M13P j (fst (cond_idx i)) (snd (cond_idx i)) mr s a1 a2 c mu m_s_lmn) in
  let m24 := fun i j => M12P j i mr s a1 a2 c mu m_s_lmn in
  if (is_sphere u Ns && is_sphere v Ns)%bool then
    (* 968-1064 *)
    let M := mset M (A_c cs) 3 3 (m11 erfcs) in
    let M := mset M (Bt_c cs) 3 3 (fun i j => M12P i j r s a1 a2 c mu s_lmn) in
    let M := mset M (C_c cs) 3 3 (fun i j => M22P i j r s a1 a2 erfcs c mu s_lmn) in
    let M := mset_rows M (Gt_c cs) 3 5 (fun i => con_M13P_row i r s a1 a2 c mu s_lmn) in
    let M := mset_rows M (Ht_c cs) 3 5 (fun i => con_M23P_row i r s a1 a2 c mu s_lmn) in
    let M := mset M (M_c cs) 5 5
               (mmul 5 (mmul 5 cond_E
                  (fun i j => M33P (fst (cond_idx i)) (snd (cond_idx i))
                                   (fst (cond_idx j)) (snd (cond_idx j)) r s a1 a2 erfcs c mu s_lmn)) cond_E) in
    if Req_EM_T a1 a2 then
      let M := mset M (Bt21_c cs) 3 3 (mopp (mget M (Bt_c cs))) in
      let M := mset M (Gt21_c cs) 3 5 (mopp (mget M (Gt_c cs))) in
      mset M (Ht21_c cs) 3 5 (mget M (Ht_c cs))
    else
      let M := mset M (Bt21_c cs) 3 3 (fun i j => M12P i j mr s a2 a1 c mu m_s_lmn) in
      let M := mset_rows M (Gt21_c cs) 3 5 (fun i => con_M13P_row i mr s a2 a1 c mu m_s_lmn) in
      mset_rows M (Ht21_c cs) 3 5 (fun i => con_M23P_row i mr s a2 a1 c mu m_s_lmn)
  else if (is_sphere u Ns && is_dumbbell_bead_1 v Ns Nd)%bool then
    (* 1066-1101 *)
    let M := mset M (M14_c cs) 3 3 (m11 stale) in
    let M := mset M (M24_c cs) 3 3 m24 in
    mset M (M34_c cs) 5 3 m34
  else if is_sphere u Ns then
    (* 1103-1135 *)
    let M := mset M (M15_c cs) 3 3 (m11 stale) in
    let M := mset M (M25_c cs) 3 3 m24 in
    mset M (M35_c cs) 5 3 m34
  else if (is_dumbbell_bead_1 u Ns Nd && is_dumbbell_bead_1 v Ns Nd)%bool then
    (* 1137-1155 *)
    if (bb || Nat.eqb (u - Ns) (v - Ns))%bool then mset M (M44_c cs) 3 3 (m11 erfcs) else M
  else if (is_dumbbell_bead_1 u Ns Nd && is_dumbbell_bead_2 v Ns Nd)%bool then
    (* 1157-1175 *)
    if (bb || Nat.eqb (u - Ns) (v - Ns - Nd))%bool then mset M (M45_c cs) 3 3 (m11 erfcs) else M
  else
    (* 1177-1194 *)
    if (bb || Nat.eqb (u - Ns - Nd) (v - Ns - Nd))%bool then mset M (M55_c cs) 3 3 (m11 erfcs) else M.

(** 908-1199 [generate_Minfinity_loop].  [stale k] is the left-over value when
    the pair at place k of the list is reached; it is not modelled further,
    results hold whatever it is. *)
Fixpoint number {A} (k : nat) (l : list A) : list (nat * A) :=
  match l with [] => [] | h :: t => (k, h) :: number (S k) t end.
Definition generate_Minfinity_periodic_loop (bb : bool) (x : nat -> vec) (a : nat -> R) (Ns Nd : nat)
    (c mu : R) (stale : nat -> nat -> R) : mat :=
  symmetrise (fold_left (fun M kp => minfP_step bb x a Ns Nd c mu (stale (fst kp)) M (snd kp))
                        (number 0 (upper_pairs (Ns + 2 * Nd))) mzero).
End PairFunctions.

(** 832-841: the grid -h..h in three directions, lexicographic. *)
Definition gridpoints (h : nat) : list R := map (fun n => INR n - INR h) (seq 0 (2 * h + 1)).
Definition X_canonical (h : nat) : list vec :=
  flat_map (fun l => flat_map (fun m => map (fun n => v3 l m n) (gridpoints h)) (gridpoints h)) (gridpoints h).

(** 1.4142*how_far_to_reproduce_gridpoints*L (850, 866) *)
Definition grid_radius (h : nat) (L : R) : R := 14142 / 10000 * INR h * L.

(** 861-864: rows are the basis vectors of wave space. *)
Definition k_basis (L : R) (B : mat) : mat := fun i =>
  vscal (2 * PI * / L ^ 3)
    (match i with 0%nat => cross (B 0%nat) (B 2%nat)
                | 1%nat => cross (B 2%nat) (B 1%nat)
                | _ => cross (B 0%nat) (B 1%nat) end).

(** 827-872.  [L] is the cube root of a positive box volume (a negative volume
    would make it complex). *)
Definition build_lattice (h : nat) (bl tr : vec) (Ot : vec) (Et : mat) : lattice :=
  let Lx := tr 0%nat - bl 0%nat in
  let Ly := tr 1%nat - bl 1%nat in
  let Lz := tr 2%nat - bl 2%nat in
  let L := Rpower (Lx * Ly * Lz) (1 / 3) in
  let lamb := spi / L in
  let box := vsub tr bl in
  let B := shear_basis_vectors (diag3 box) box Ot Et in
  let inside := fun n => Rleb (norm (rowmul n B)) (grid_radius h L) in
  let X := filter (fun X => Rleb (norm X) (grid_radius h L)) (map (fun n => rowmul n B) (X_canonical h)) in
  let Xd := filter (fun X => Rltb 0 (norm X)) X in
  let K := map (fun n => rowmul n (k_basis L B))
             (filter (fun n => (inside n && Rltb 0 (norm (rowmul n B)))%bool) (X_canonical h)) in
  mkLat L lamb X Xd K.

(** 790-905 [generate_Minfinity_periodic] (the matrix; the name is omitted). *)
Definition generate_Minfinity_periodic (h : nat) (bb : bool) (p : posdata) (bl tr : vec) (mu : R)
    (Ot : vec) (Et : mat) (stale : nat -> nat -> R) : mat :=
  let Ns := num_spheres p in
  let Nd := num_dumbbells p in
  let c := 1 / (8 * PI * mu) in
  let lat := build_lattice h bl tr Ot Et in
  let M := generate_Minfinity_periodic_loop lat bb (bead_positions p) (bead_sizes p) Ns Nd c mu stale in
  let N := (11 * Ns + 6 * Nd)%nat in
  if Nat.ltb 0 Nd then
    let Lm := minf_L Ns Nd in mmul N (mmul N Lm M) (mtr Lm)
  else M.
