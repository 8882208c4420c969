(** Model of the conversions between the forms of the grand resistance matrix.
    Source: stokesian_dynamics/functions/simulation_tools.py 160-532.
    [posdata] enters these functions only through the numbers of spheres and
    dumbbells.  [inv n A] stands for [np.linalg.inv] of the [n] by [n] matrix
    [A] (a parameter; its defining property is a hypothesis of the theorems). *)
From Coq Require Import Reals List Arith Bool.
From Verif Require Import Base Py.
Import ListNotations.
Local Open Scope R_scope.

Definition nthm (l : list mat) (i : nat) : mat := nth i l mzero.
Definition nthn (l : list nat) (i : nat) : nat := nth i l 0%nat.

(** The double loop [for Ai in range(items): for Ci in range(items)]. *)
Definition grid (items : nat) : list (nat * nat) :=
  list_prod (seq 0 items) (seq 0 items).

(** simulation_tools.py 161-180 [vecmat_mat_vecmat]. [k] is the common inner
    dimension of the products (the side of the square matrix [B]). *)
Definition vecmat_mat_vecmat (k : nat) (A : list mat) (B : mat) (C : list mat)
    (items_in_vector : nat) (starts : list nat) : mat :=
  fold_left (fun D ac =>
      let '(Ai, Ci) := ac in
      let E := mmul k (nthm A Ai) B in
      put D (nthn starts Ai) (nthn starts (Ai + 1))
            (nthn starts Ci) (nthn starts (Ci + 1)) (mmul k E (nthm C Ci)))
    (grid items_in_vector) mzero.

(** simulation_tools.py 184-216 [vec_mat_cross]. *)
Definition vec_mat_cross (k : nat) (A : list mat) (B : mat) (C : list mat)
    (items_in_vector : nat) (starts : list nat) (crosspoint : nat) : mat :=
  fold_left (fun D ac =>
      let '(Ai, Ci) := ac in
      let E := mmul k (nthm A Ai) B in
      let wr X := put D (nthn starts Ai) (nthn starts (Ai + 1))
                        (nthn starts Ci) (nthn starts (Ci + 1)) X in
      if (Nat.eqb Ai crosspoint && negb (Nat.eqb Ci crosspoint))%bool
      then wr (mmul k B (nthm C Ci))
      else if (negb (Nat.eqb Ai crosspoint) && Nat.eqb Ci crosspoint)%bool
      then wr (mopp E)
      else if Nat.eqb Ai crosspoint
      then wr (mopp B)
      else D)
    (grid items_in_vector) mzero.

(** [M - vecmat_mat_vecmat(...) - vec_mat_cross(...)]. *)
Definition swap_form (k : nat) (M : mat) (vec1 : list mat) (B : mat) (vec2 : list mat)
    (items : nat) (starts : list nat) (crosspoint : nat) : mat :=
  msub (msub M (vecmat_mat_vecmat k vec1 B vec2 items starts))
       (vec_mat_cross k vec1 B vec2 items starts crosspoint).

(** simulation_tools.py 219-270 [fts_to_fte_matrix].  Without spheres [vec1] is
    never assigned (UnboundLocalError). *)
Definition fts_to_fte_matrix (inv : nat -> mat -> mat) (Ns Nd : nat) (M : mat) : res mat :=
  let C0 := 0%nat in
  let C1 := (3 * Ns)%nat in
  let C2 := (6 * Ns)%nat in
  let C3 := (11 * Ns)%nat in
  let C4 := (11 * Ns + 3 * Nd)%nat in
  let C5 := (11 * Ns + 6 * Nd)%nat in
  let gt := slice M C0 C2 in
  let g := mtr gt in
  let ht := slice M C1 C2 in
  let h := mtr ht in
  let m := slice M C2 C2 in
  let m34 := slice M C2 C3 in
  let m43 := mtr m34 in
  let m35 := slice M C2 C4 in
  let m53 := mtr m35 in
  let items := if (Nat.ltb 0 Ns && Nat.ltb 0 Nd)%bool then 5%nat else 3%nat in
  let starts := [C0; C1; C2; C3; C4; C5] in
  let m_inv := inv (C3 - C2)%nat m in
  let crosspoint := 2%nat in
  if Nat.ltb 0 Ns then
    let vec1 := if Nat.ltb 0 Nd then [gt; ht; m; m43; m53] else [gt; ht; m] in
    let vec2 := if Nat.ltb 0 Nd then [g; h; m; m34; m35] else [g; h; m] in
    Ok (swap_form (C3 - C2) M vec1 m_inv vec2 items starts crosspoint)
  else Raise UnboundLocalError.

(** simulation_tools.py 273-338 [fte_to_ufte_matrix]. *)
Definition fte_to_ufte_matrix (inv : nat -> mat -> mat) (nfix Ns Nd : nat) (M : mat) : res mat :=
  let C0 := 0%nat in
  let C05 := (3 * nfix)%nat in
  let C1 := (3 * Ns)%nat in
  let C2 := (6 * Ns)%nat in
  let C3 := (11 * Ns)%nat in
  let C4 := (11 * Ns + 3 * Nd)%nat in
  let C5 := (11 * Ns + 6 * Nd)%nat in
  let axx := slice M C0 C0 in
  let axr := slice M C0 C05 in
  let arx := slice M C05 C0 in
  let btx := slice M C0 C1 in
  let bx := mtr btx in
  let gtx := slice M C0 C2 in
  let gx := mopp (mtr gtx) in
  let m14x := slice M C0 C3 in
  let m15x := slice M C0 C4 in
  let m51x := mtr m15x in
  let m41x := mtr m14x in
  let items := if (Nat.ltb 0 Ns && Nat.ltb 0 Nd)%bool then (5 + 1)%nat else (3 + 1)%nat in
  let starts := [C0; C05; C1; C2; C3; C4; C5] in
  let axx_inv := inv (C05 - C0)%nat axx in
  let crosspoint := 0%nat in
  if Nat.ltb 0 Ns then
    let vec1 := if Nat.ltb 0 Nd then [axx; arx; bx; gx; m41x; m51x] else [axx; arx; bx; gx] in
    let vec2 := if Nat.ltb 0 Nd then [axx; axr; btx; gtx; m14x; m15x] else [axx; axr; btx; gtx] in
    Ok (swap_form (C05 - C0) M vec1 axx_inv vec2 items starts crosspoint)
  else Raise UnboundLocalError.

(** simulation_tools.py 341-447 [ufte_to_ufteu_matrix], step 1 (378-413). *)
Definition ufte_to_ufteu_step1 (inv : nat -> mat -> mat) (nfixd nfix Ns Nd : nat) (M : mat) : mat :=
  let C0 := 0%nat in
  let C05 := (3 * nfix)%nat in
  let C1 := (3 * Ns)%nat in
  let C2 := (6 * Ns)%nat in
  let C3 := (11 * Ns)%nat in
  let C35 := (11 * Ns + 3 * nfixd)%nat in
  let C4 := (11 * Ns + 3 * Nd)%nat in
  let C45 := (11 * Ns + 3 * Nd + 3 * nfixd)%nat in
  let C5 := (11 * Ns + 6 * Nd)%nat in
  let starts := [C0; C05; C1; C2; C3; C35; C4; C45; C5] in
  let m41xx := slice M C3 C0 in
  let m41rx := slice M C3 C05 in
  let m42x := slice M C3 C1 in
  let m43x := slice M C3 C2 in
  let m44xx := slice M C3 C3 in
  let m44xr := slice M C3 C35 in
  let m45xx := slice M C3 C4 in
  let m45xr := slice M C3 C45 in
  let m14xx := mopp (mtr m41xx) in
  let m14rx := mtr m41rx in
  let m24x := mtr m42x in
  let m34x := mopp (mtr m43x) in
  let m44rx := mtr m44xr in
  let m54xx := mtr m45xx in
  let m54rx := mtr m45xr in
  let m44xx_inv := inv (C35 - C3)%nat m44xx in
  let vec1 := [m14xx; m14rx; m24x; m34x; m44xx; m44rx; m54xx; m54rx] in
  let vec2 := [m41xx; m41rx; m42x; m43x; m44xx; m44xr; m45xx; m45xr] in
  swap_form (C35 - C3) M vec1 m44xx_inv vec2 (7 + 1) starts 4.

(** Step 2 (415-447). *)
Definition ufte_to_ufteu_step2 (inv : nat -> mat -> mat) (nfixd nfix Ns Nd : nat) (M : mat) : mat :=
  let C0 := 0%nat in
  let C05 := (3 * nfix)%nat in
  let C1 := (3 * Ns)%nat in
  let C2 := (6 * Ns)%nat in
  let C3 := (11 * Ns)%nat in
  let C35 := (11 * Ns + 3 * nfixd)%nat in
  let C4 := (11 * Ns + 3 * Nd)%nat in
  let C45 := (11 * Ns + 3 * Nd + 3 * nfixd)%nat in
  let C5 := (11 * Ns + 6 * Nd)%nat in
  let starts := [C0; C05; C1; C2; C3; C35; C4; C45; C5] in
  let m51xx := slice M C4 C0 in
  let m51rx := slice M C4 C05 in
  let m52x := slice M C4 C1 in
  let m53x := slice M C4 C2 in
  let m54xx := slice M C4 C3 in
  let m54xr := slice M C4 C35 in
  let m55xx := slice M C4 C4 in
  let m55xr := slice M C4 C45 in
  let m15xx := mopp (mtr m51xx) in
  let m15rx := mtr m51rx in
  let m25x := mtr m52x in
  let m35x := mopp (mtr m53x) in
  let m45xx := mopp (mtr m54xx) in
  let m45rx := mtr m54xr in
  let m55rx := mtr m55xr in
  let m55xx_inv := inv (C45 - C4)%nat m55xx in
  let vec1 := [m15xx; m15rx; m25x; m35x; m45xx; m45rx; m55xx; m55rx] in
  let vec2 := [m51xx; m51rx; m52x; m53x; m54xx; m54xr; m55xx; m55xr] in
  swap_form (C45 - C4) M vec1 m55xx_inv vec2 (7 + 1) starts 6.

Definition ufte_to_ufteu_matrix (inv : nat -> mat -> mat) (nfixd nfix Ns Nd : nat) (M : mat) : mat :=
  ufte_to_ufteu_step2 inv nfixd nfix Ns Nd (ufte_to_ufteu_step1 inv nfixd nfix Ns Nd M).

(** simulation_tools.py 450-532 [fts_to_duf_matrix], steps 1 and 2. *)
Definition fts_to_duf_step1 (inv : nat -> mat -> mat) (nfixd Nd : nat) (M : mat) : mat :=
  let C3 := 0%nat in
  let C35 := (3 * nfixd)%nat in
  let C4 := (3 * Nd)%nat in
  let C45 := (3 * Nd + 3 * nfixd)%nat in
  let C5 := (6 * Nd)%nat in
  let starts := [C3; C35; C4; C45; C5] in
  let m44xx := slice M C3 C3 in
  let m44xr := slice M C3 C35 in
  let m45xx := slice M C3 C4 in
  let m45xr := slice M C3 C45 in
  let m44rx := mtr m44xr in
  let m54xx := mtr m45xx in
  let m54rx := mtr m45xr in
  let m44xx_inv := inv (C35 - C3)%nat m44xx in
  let vec1 := [m44xx; m44rx; m54xx; m54rx] in
  let vec2 := [m44xx; m44xr; m45xx; m45xr] in
  swap_form (C35 - C3) M vec1 m44xx_inv vec2 4 starts 0.

Definition fts_to_duf_step2 (inv : nat -> mat -> mat) (nfixd Nd : nat) (M : mat) : mat :=
  let C3 := 0%nat in
  let C35 := (3 * nfixd)%nat in
  let C4 := (3 * Nd)%nat in
  let C45 := (3 * Nd + 3 * nfixd)%nat in
  let C5 := (6 * Nd)%nat in
  let starts := [C3; C35; C4; C45; C5] in
  let m54xx := slice M C4 C3 in
  let m54xr := slice M C4 C35 in
  let m55xx := slice M C4 C4 in
  let m55xr := slice M C4 C45 in
  let m45xx := mopp (mtr m54xx) in
  let m45rx := mtr m54xr in
  let m55rx := mtr m55xr in
  let m55xx_inv := inv (C45 - C4)%nat m55xx in
  let vec1 := [m45xx; m45rx; m55xx; m55rx] in
  let vec2 := [m54xx; m54xr; m55xx; m55xr] in
  swap_form (C45 - C4) M vec1 m55xx_inv vec2 4 starts 2.

Definition fts_to_duf_matrix (inv : nat -> mat -> mat) (nfixd Nd : nat) (M : mat) : mat :=
  fts_to_duf_step2 inv nfixd Nd (fts_to_duf_step1 inv nfixd Nd M).
