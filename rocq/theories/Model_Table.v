(** Model of the table of size ratios, and of the table of scalars by ratio.
    Sources: stokesian_dynamics/resistance_scalars/data.py 16-22 and
    find_resistance_scalars/generate_scalars_midfield.py 383-449, 464-489. *)
From Coq Require Import Reals List Arith Bool.
From Verif Require Import Py Model_Mob Model_Close.
Import ListNotations.
Local Open Scope R_scope.

(** [x in array] *)
Definition mem (x : R) (l : list R) : bool := existsb (fun y => if Req_EM_T x y then true else false) l.
(** [np.sort] *)
Fixpoint insert (x : R) (l : list R) : list R :=
  match l with
  | [] => [x]
  | y :: t => if Rleb x y then x :: y :: t else y :: insert x t
  end.
Definition sort (l : list R) : list R := fold_right insert [] l.

(** ** data.py 16-22 *)
(** 18-21: the loop runs over the array as it was before the appends. *)
Definition append_reciprocals (lam_range : list R) : list R :=
  fold_left (fun acc lam => if mem (1 / lam) acc then acc else acc ++ [1 / lam]) lam_range lam_range.
(** 22.  Returned with [lam_range], which is the same object, and so gets
    sorted as well, if nothing was appended. *)
Definition load_ratios (lam_range : list R) : list R * list R :=
  let all := append_reciprocals lam_range in
  (if Nat.eqb (length all) (length lam_range) then sort lam_range else lam_range, sort all).
Definition lam_range_with_reciprocals (lam_range : list R) : list R := snd (load_ratios lam_range).

(** ** generate_scalars_midfield.py *)
(** 395-396 *)
Definition generator_ratios (lam_range : list R) : list R :=
  sort (lam_range ++ map (fun l => 1 / l) (filter (fun l => negb (mem (1 / l) lam_range)) lam_range)).

(** 392 and 421-434; the eleven scalars in the order XA YA YB XC YC XG YG YH XM
    YM ZM. *)
Definition minus_in_B_and_G : nat -> R :=
  fun n => nth n [1; 1; -1; 1; 1; -1; -1; 1; 1; 1; 1] 0.
Definition lam_scales_r (lam : R) : nat -> R :=
  fun n => nth n [lam; lam; lam ^ 2; lam ^ 3; lam ^ 3; lam ^ 2; lam ^ 2; lam ^ 3; lam ^ 3; lam ^ 3; lam ^ 3] 0.
Definition lam_scales_m (lam : R) : nat -> R :=
  fun n => nth n [1 / lam; 1 / lam; 1 / lam ^ 2; 1 / lam ^ 3; 1 / lam ^ 3; lam; lam; 1; lam ^ 3; lam ^ 3; lam ^ 3] 0.

(** [np.argwhere(l == x)[0, 0]] *)
Fixpoint position_from (k : nat) (l : list R) (x : R) : res nat :=
  match l with
  | [] => Raise IndexError
  | y :: t => if Req_EM_T y x then Ok k else position_from (S k) t x
  end.
Definition position := position_from 0.

(** 406-449: entry (n, gamma) of the general table at ratio [lam], for one
    separation.  [XYZ k i] is entry [k] of the pair table (44 scalars, _11 _12
    _21 _22 of each) for the [i]-th ratio of [lam_range]. *)
Definition general_entry (scales : R -> nat -> R) (XYZ : nat -> nat -> R) (lam_range : list R) (lam : R) (n gamma : nat) : res R :=
  if mem lam lam_range then
    do i <- position lam_range lam ;;
    Ok (XYZ (4 * n + gamma)%nat i)
  else
    do i <- position lam_range (1 / lam) ;;
    Ok (XYZ (4 * n + 3 - gamma)%nat i * minus_in_B_and_G n * scales lam n).

(** 398-401, 464-489: the human-readable tables.  A table is a function from
    row numbers; [None] is a row still zero. *)
Record row := Row { r_s : R; r_lam : R; r_gam : nat; r_values : nat -> R }.
Definition store {A} (T : nat -> option A) (i : nat) (x : A) : nat -> option A :=
  fun k => if Nat.eqb k i then Some x else T k.
Definition general_rows (s_dash_length lam_wr_length : nat) : nat := (s_dash_length * lam_wr_length * 2)%nat.
Definition general_index (s_dash_length s_dash_index lam_wr_index gam : nat) : nat :=
  ((lam_wr_index * s_dash_length + s_dash_index) * 2 + gam)%nat.
Definition fill_general (s_dash lams : list R) (T : nat -> nat -> nat -> nat -> R) : nat -> option row :=
  fold_left (fun H s => fold_left (fun H w => fold_left (fun H g =>
      store H (general_index (length s_dash) s w g)
        (Row (nth s s_dash 0) (nth w lams 0) g (fun n => T n g s w)))
    (seq 0 2) H) (seq 0 (length lams)) H) (seq 0 (length s_dash)) (fun _ => None).
