(** What the box of settings and the amount of memory should look like.
    Independent of the template and of how it is filled in. *)
From Coq Require Import Reals List Arith Bool Ascii String ZArith.
From Verif Require Import Py Model_Checkpoint Spec_Checkpoint Model_Frame Model_Banner.
Import ListNotations.
Local Open Scope list_scope.
Local Open Scope char_scope.

(** ** The amount of memory *)
Definition is_decimal (c : ascii) : bool := (48 <=? nat_of_ascii c)%nat && (nat_of_ascii c <=? 57)%nat.
Fixpoint read_digits (acc : Z) (count : nat) (s : text) : Z * nat * text :=
  match s with
  | c :: r => if is_decimal c then read_digits (acc * 10 + Z.of_nat (nat_of_ascii c - 48))%Z (S count) r else (acc, count, s)
  | [] => (acc, count, [])
  end.
Fixpoint skip_blanks (s : text) : text := match s with " " :: r => skip_blanks r | _ => s end.
(** The unit at the end: the power of 1024 *)
Definition read_unit (s : text) : option nat :=
  match s with
  | [" "; "B"] => Some 0 | [" "; "K"; "B"] => Some 1 | [" "; "M"; "B"] => Some 2 | [" "; "G"; "B"] => Some 3
  | [" "; "T"; "B"] => Some 4 | [" "; "P"; "B"] => Some 5 | [" "; "E"; "B"] => Some 6 | [" "; "Z"; "B"] => Some 7
  | _ => None
  end%nat.
(** "  1.25 KB" reads as (125, 2, 1): 125 / 10^2 * 1024^1 bytes *)
Definition read_figure (s : text) : option (Z * nat * nat) :=
  let '(whole, n, r) := read_digits 0 0 (skip_blanks s) in
  match n with
  | O => None
  | _ =>
    let '(m, d, r) := match r with "." :: r' => read_digits whole 0 r' | _ => (whole, O, r) end in
    match read_unit r with Some k => Some (m, d, k) | None => None end
  end.
(** The text states a number of bytes within 0.5% of [n]. *)
Definition states_bytes (s : text) (n : Z) : Prop :=
  exists m d k, read_figure s = Some (m, d, k) /\
    (200 * Z.abs (m * 1024 ^ Z.of_nat k - n * 10 ^ Z.of_nat d) <= n * 10 ^ Z.of_nat d)%Z.

(** [n] is from 999.5 to 999.95 units of 1024^k. *)
Definition long_at (n : Z) (k : nat) : Prop := (9995 * 1024 ^ Z.of_nat k <= 10 * n /\ 20 * n < 19999 * 1024 ^ Z.of_nat k)%Z.

(** ** The box *)
(** A value in its cell: padded with blanks, bold, or black on yellow when the
    program wants attention for it *)
Definition cell (w : nat) (attention : bool) (v : text) : text :=
  let E := ascii_of_nat 27 in
  let padded := v ++ repeat " " (w - List.length v) in
  if attention then E :: lit "[43m" ++ E :: lit "[30m" ++ padded ++ E :: lit "[39m" ++ E :: lit "[49m"
  else E :: lit "[1m" ++ padded ++ E :: lit "[0m".
Record field := mkField { f_label : string; f_width : nat; f_attention : bool; f_value : text }.
Definition show_field (f : field) : text := lit "| " ++ lit (f_label f) ++ cell (f_width f) (f_attention f) (f_value f) ++ lit " ".
Definition show_row (l : list field) : text := flat_map show_field l ++ lit "|".

Definition switch (on : bool) : text := lit (if on then "ON" else "OFF")%string.
Definition scheme_name (s : scheme) : text :=
  lit match s with euler => "Euler" | ab2 => "AB2" | rk4 => "RK4" | other_scheme => "" end%string.
(** Six matrices of eight-byte numbers with 11 rows and columns for each sphere
    and 6 for each dumbbell *)
Definition matrix_bytes (B : banner) : Z :=
  let n := (11 * Z.of_nat (b_spheres B) + 6 * Z.of_nat (b_dumbbells B))%Z in (6 * 8 * (n * n))%Z.

Definition rows (B : banner) : list (list field) := [
  [mkField "Setup:    " 8 false (str_int (b_setup B));
   mkField "Minfinity: " 6 (b_drag B) (switch (negb (b_drag B)));
   mkField "Matrix form: " 29 false (upper (lit (b_form B)))];
  [mkField "Input:    " 8 false (str_int (b_input B));
   mkField "R2Bexact:  " 6 (b_minf_only B) (switch (negb (b_minf_only B)));
   mkField "Solve using: " 8 false (lit (if b_extract B then "Slow" else "Fast R\F"));
   mkField "Numba:    " 8 false (switch (negb (b_jit_off B)))];
  [mkField "Frames:   " 8 false (str_int (b_frames B));
   mkField "Bead-bead: " 6 (negb (b_bead_bead B)) (switch (b_bead_bead B));
   mkField "Inv M every: " 8 false (str_int (b_invert_every B));
   mkField "Video:    " 8 false (switch (b_graphics B))];
  [mkField "Timestep: " 8 false (str_timestep (b_timestep B));
   mkField "Timestep:  " 6 (match b_scheme B with euler => true | _ => false end) (scheme_name (b_scheme B));
   mkField "Periodic:    " 8 false (switch (negb (b_no_box B)));
   mkField "Memory:  ~" 8 false (sizeof_fmt (matrix_bytes B))];
  [mkField "Save every: " 6 false (str_int (b_save_every B));
   mkField "Save after: " 5 (negb (b_save_after B =? 0)%Z) (str_int (b_save_after B));
   mkField "Machine: " 33 false (b_host B)]]%string.
Definition rule3 : text := lit "+--------------------+-------------------+--------------------------------------------+".
Definition rule4 : text := lit "+--------------------+-------------------+-----------------------+--------------------+".
(** The lines of the box; an empty line comes first. *)
Definition box_lines (B : banner) : list text :=
  match map show_row (rows B) with
  | [r1; r2; r3; r4; r5] => [[]; rule4; r1; r2; r3; r4; rule3; r5; rule3]
  | l => l
  end.
Fixpoint joined (l : list text) : text :=
  match l with [] => [] | [a] => a | a :: r => a ++ newline :: joined r end.

(** A text that may stand in the box: no run of three X, no control characters *)
Definition tidy (v : text) : Prop :=
  ~ (exists a b, v = a ++ "X" :: "X" :: "X" :: b) /\ ~ In (ascii_of_nat 27) v /\ ~ In newline v.
(** What a terminal shows: from an escape character to the next m nothing *)
Fixpoint visible_from (inside : bool) (s : text) : text :=
  match s with
  | [] => []
  | c :: r => if inside then visible_from (negb (Ascii.eqb c "m")) r
              else if Ascii.eqb c (ascii_of_nat 27) then visible_from true r
              else c :: visible_from false r
  end.
Definition visible (s : text) : text := visible_from false s.
Definition fits (f : field) : Prop := (List.length (f_value f) <= f_width f)%nat.
(** A known scheme, a timestep that python can write, and a form and a machine
    with tidy names *)
Definition proper (B : banner) : Prop :=
  b_scheme B <> other_scheme /\ tstep_ok (b_timestep B) /\ tidy (upper (lit (b_form B))) /\ tidy (b_host B).
Definition all_fit (B : banner) : Prop := Forall (Forall fits) (rows B).
