(** Model of what a run prints about itself: the box of settings, the amount of
    memory and the time at which it will finish.
    Sources: stokesian_dynamics/run_simulation.py 804-877, functions/shared.py
    83-92 and functions/timestepping.py 641-650.  Texts are lists of characters
    (Model_Checkpoint).  Numbers of bytes are nonnegative integers; dividing
    them by powers of two is exact, as it is in floating point below 2^53.
    Not modelled: the boxes' colours beyond their escape sequences, clocks that
    are put forward or back, and locales (%a gives the English names). *)
From Coq Require Import Reals List Arith Bool Ascii String ZArith.
From Verif Require Import Py Model_Checkpoint Model_Frame.
Import ListNotations.
Local Open Scope list_scope.
Local Open Scope char_scope.

(** ** python's string functions *)
(** [s.replace(p, v)] for a nonempty p; [skip] characters remain of an occurrence *)
Fixpoint replace_from (p v : text) (skip : nat) (s : text) : text :=
  match s with
  | [] => []
  | a :: r => match skip with
              | S k => replace_from p v k r
              | O => if prefixb p s then v ++ replace_from p v (List.length p - 1) r else a :: replace_from p v 0 r
              end
  end.
Definition replace (p v s : text) : text := replace_from p v 0 s.
Definition blanks (k : nat) : text := repeat " " k.
Definition ljust (w : nat) (s : text) : text := s ++ blanks (w - List.length s).
Definition rjust (w : nat) (s : text) : text := blanks (w - List.length s) ++ s.
(** [s.upper()], ASCII *)
Definition upper_char (a : ascii) : ascii :=
  let n := nat_of_ascii a in if (97 <=? n)%nat && (n <=? 122)%nat then ascii_of_nat (n - 32) else a.
Definition upper (s : text) : text := map upper_char s.

(** ** shared.py 83-92 [sizeof_fmt] *)
(** num/den rounded to the nearest integer, ties to even *)
Definition nearest (num den : Z) : Z :=
  let q := (num / den)%Z in
  let r := (2 * (num mod den))%Z in
  if (r <? den)%Z then q else if (den <? r)%Z then (q + 1)%Z else if Z.even q then q else (q + 1)%Z.
(** m, an integer, with its last d digits after the point *)
Definition fraction_digits (m : Z) (d : nat) : text :=
  let f := str_int (m mod 10 ^ Z.of_nat d) in repeat "0" (d - List.length f) ++ f.
Fixpoint drop_zeros (s : text) : text :=
  match s with "0" :: r => drop_zeros r | _ => s end.
(** %g leaves out the zeros at the end of the fraction *)
Definition short_decimal (m : Z) (d : nat) : text :=
  str_int (m / 10 ^ Z.of_nat d) ++
  match d with
  | O => []
  | _ => match rev (drop_zeros (rev (fraction_digits m d))) with [] => [] | f => "." :: f end
  end.
(** ['{n:.Pg}'] of n = num/den, which is 0 or at least 1 and less than 10^P - 1/2,
    so that no exponent is shown *)
Definition decimals (P : nat) (num den : Z) : nat :=
  if (num <? 10 * den)%Z then P - 1 else if (num <? 100 * den)%Z then P - 2
  else if (num <? 1000 * den)%Z then P - 3 else P - 4.
Definition general_format (P : nat) (num den : Z) : text :=
  if (num =? 0)%Z then lit "0" else
  let d := decimals P num den in
  short_decimal (nearest (num * 10 ^ Z.of_nat d) den) d.
(** ['{n:.1f}'] of n = num/den >= 0 *)
Definition tenth_format (num den : Z) : text :=
  let m := nearest (num * 10) den in str_int (m / 10) ++ "." :: str_int (m mod 10).

(** The loop 85-91: the number is num/den. *)
Fixpoint sizeof_from (units : list text) (num den : Z) : text :=
  match units with
  | [] => tenth_format num den ++ lit "YB"
  | u :: r =>
      if (num <? 1024 * den)%Z then
        if (2 * num <? 1999 * den)%Z
        then rjust 7 (general_format 3 num den ++ " " :: u ++ lit "B")
        else rjust 7 (general_format 4 num den ++ " " :: u ++ lit "B")
      else sizeof_from r num (1024 * den)
  end.
Definition sizeof_fmt (num : Z) : text :=
  sizeof_from (map lit [""; "K"; "M"; "G"; "T"; "P"; "E"; "Z"]%string) num 1.

(** ** run_simulation.py 804-877: the box of settings *)
(** What it is made of: the settings of the run, the size of the matrices (from
    the numbers of particles) and the machine. *)
Record banner := mkBanner {
  b_setup : Z; b_input : Z; b_frames : Z; b_timestep : tstep;
  b_drag : bool; b_minf_only : bool; b_bead_bead : bool; b_scheme : scheme;
  b_form : string; b_extract : bool; b_invert_every : Z;
  b_no_box : bool; (* box_bottom_left equals box_top_right *)
  b_graphics : bool; b_spheres : nat; b_dumbbells : nat; b_host : text;
  b_save_every : Z; b_save_after : Z; b_jit_off : bool }.

Definition esc (s : string) : text := ascii_of_nat 27 :: lit s.
(** 801-802, 867-868 *)
Definition warning_start := esc "[43m" ++ esc "[30m".
Definition warning_end := esc "[39m" ++ esc "[49m".
Definition bold_start := esc "[1m".
Definition bold_end := esc "[0m".

Definition newline : ascii := ascii_of_nat 10.
(** 822-830 *)
Definition template : text := flat_map (fun l => newline :: lit l) [
"+--------------------+-------------------+-----------------------+--------------------+";
"| Setup:    XXXXXX01 | Minfinity: XXXX05 | Matrix form: XXXXXXXXXXXXXXXXXXXXXXXXXXX09 |";
"| Input:    XXXXXX02 | R2Bexact:  XXXX06 | Solve using: XXXXXX10 | Numba:    XXXXXX18 |";
"| Frames:   XXXXXX03 | Bead-bead: XXXX07 | Inv M every: XXXXXX11 | Video:    XXXXXX13 |";
"| Timestep: XXXXXX04 | Timestep:  XXXX08 | Periodic:    XXXXXX12 | Memory:  ~XXXXXX14 |";
"+--------------------+-------------------+--------------------------------------------+";
"| Save every: XXXX16 | Save after: XXX17 | Machine: XXXXXXXXXXXXXXXXXXXXXXXXXXXXXXX15 |";
"+--------------------+-------------------+--------------------------------------------+"]%string.

(** 804-818 *)
Definition on_off (off : bool) : text := if off then lit "OFF" else lit "ON".
Definition invert_type (B : banner) : text := if b_extract B then lit "Slow" else lit "Fast R\F".
Definition minf_status (B : banner) : text := on_off (b_drag B).
Definition r2b_status (B : banner) : text := on_off (b_minf_only B).
Definition bead_bead_status (B : banner) : text := on_off (negb (b_bead_bead B)).
Definition periodic_status (B : banner) : text := on_off (b_no_box B).
(** never assigned for any other scheme *)
Definition timestep_method (B : banner) : res text :=
  match b_scheme B with
  | euler => Ok (lit "Euler") | ab2 => Ok (lit "AB2") | rk4 => Ok (lit "RK4")
  | other_scheme => Raise NameError
  end.
Definition text_eqb (a b : text) : bool := if list_eq_dec ascii_dec a b then true else false.

(** 820-866: [dic] and [warnings] together, in the order of [dic] *)
Definition entries (B : banner) : res (list (text * text * bool)) :=
  do method <- timestep_method B ;;
  let matrix_size := sizeof_fmt (48 * (11 * Z.of_nat (b_spheres B) + 6 * Z.of_nat (b_dumbbells B)) ^ 2) in
  Ok [ (lit "XXXXXX01", str_int (b_setup B), false);
       (lit "XXXXXX02", str_int (b_input B), false);
       (lit "XXXXXX03", str_int (b_frames B), false);
       (lit "XXXXXX04", str_timestep (b_timestep B), false);
       (lit "XXXX05", minf_status B, text_eqb (minf_status B) (lit "OFF"));
       (lit "XXXX06", r2b_status B, text_eqb (r2b_status B) (lit "OFF"));
       (lit "XXXX07", bead_bead_status B, text_eqb (bead_bead_status B) (lit "OFF"));
       (lit "XXXX08", method, text_eqb method (lit "Euler"));
       (lit "XXXXXXXXXXXXXXXXXXXXXXXXXXX09", upper (lit (b_form B)), false);
       (lit "XXXXXX10", invert_type B, false);
       (lit "XXXXXX11", str_int (b_invert_every B), false);
       (lit "XXXXXX12", periodic_status B, false);
       (lit "XXXXXX13", on_off (negb (b_graphics B)), false);
       (lit "XXXXXX14", matrix_size, false);
       (lit "XXXXXXXXXXXXXXXXXXXXXXXXXXXXXXX15", b_host B, false);
       (lit "XXXX16", str_int (b_save_every B), false);
       (lit "XXX17", str_int (b_save_after B), negb (b_save_after B =? 0)%Z);
       (lit "XXXXXX18", on_off (b_jit_off B), false) ].
(** 869-873 *)
Definition decorated (k v : text) (warn : bool) : text :=
  if warn then warning_start ++ ljust (List.length k) v ++ warning_end
  else bold_start ++ ljust (List.length k) v ++ bold_end.
Definition fill_in (box : text) (e : text * text * bool) : text :=
  let '(k, v, warn) := e in replace k (decorated k v warn) box.
(** 869-874 *)
Definition info_box (B : banner) : res text :=
  do l <- entries B ;; Ok (fold_left fill_in l template).

(** ** timestepping.py 641-650 [format_finish_time] *)
(** A moment of local time: the date and the microseconds since midnight *)
Record moment := mkMoment { m_year : Z; m_month : Z; m_day : Z; m_micro : Z }.
Definition leap (y : Z) : bool := ((y mod 4 =? 0) && (negb (y mod 100 =? 0) || (y mod 400 =? 0)))%Z.
Definition month_days (y m : Z) : Z :=
  (if m =? 2 then if leap y then 29 else 28
   else if (m =? 4) || (m =? 6) || (m =? 9) || (m =? 11) then 30 else 31)%Z.
Definition date := (Z * Z * Z)%type.
(** The calendar of [datetime], day after day *)
Definition next_day (d : date) : date :=
  let '(y, m, k) := d in
  (if k <? month_days y m then (y, m, k + 1) else if m <? 12 then (y, m + 1, 1) else (y + 1, 1, 1))%Z.
(** [date.toordinal]: the days since 31 December of year 0 *)
Definition days_before_year (y : Z) : Z := let y := (y - 1)%Z in (y * 365 + y / 4 - y / 100 + y / 400)%Z.
Definition days_before_month (y m : Z) : Z :=
  (nth (Z.to_nat m) [0; 0; 31; 59; 90; 120; 151; 181; 212; 243; 273; 304; 334] 0 + (if (2 <? m) && leap y then 1 else 0))%Z.
Definition ordinal (d : date) : Z := let '(y, m, k) := d in (days_before_year y + days_before_month y m + k)%Z.
(** [date.weekday]: 0 for Monday *)
Definition weekday (d : date) : Z := ((ordinal d + 6) mod 7)%Z.
Definition day_name (w : Z) : text :=
  nth (Z.to_nat w) (map lit ["Mon"; "Tue"; "Wed"; "Thu"; "Fri"; "Sat"; "Sun"]%string) [].

Definition date_of (t : moment) : date := (m_year t, m_month t, m_day t).
Definition day_micros : Z := 86400000000%Z.
(** [timedelta(0, timeleft)] in microseconds, ties to even *)
Definition to_micros (timeleft : R) : Z :=
  let x := (timeleft * 1000000)%R in
  let k := Int_part (x + 1 / 2) in
  if Req_EM_T (IZR k) (x + 1 / 2) then (if Z.odd k then k - 1 else k)%Z else k.
(** [now + timedelta] for a timedelta of at least 0; the result is what there is
    to print, or None where [datetime] would raise an OverflowError, after the
    year 9999 *)
Definition later (now : moment) (micros : Z) : option moment :=
  let total := (m_micro now + micros)%Z in
  let '(y, m, k) := Nat.iter (Z.to_nat (total / day_micros)) next_day (date_of now) in
  if (9999 <? y)%Z then None else Some (mkMoment y m k (total mod day_micros)).
Definition two_digits (n : Z) : text := fraction_digits n 2.
Definition clock (t : moment) : text :=
  let minutes := (m_micro t / 60000000)%Z in two_digits (minutes / 60) ++ ":" :: two_digits (minutes mod 60).
Definition date_eqb (a b : date) : bool :=
  let '(y, m, k) := a in let '(y', m', k') := b in ((y =? y') && (m =? m') && (k =? k'))%Z.
Definition format_finish_time (now : moment) (timeleft : R) (flags : text) : option text :=
  match later now (to_micros timeleft) with
  | None => None
  | Some t =>
      Some (if date_eqb (date_of t) (date_of now) then flags ++ clock t
            else if (ordinal (date_of t) - ordinal (date_of now) <? 7)%Z
            then flags ++ day_name (weekday (date_of t)) ++ " " :: clock t
            else flags ++ two_digits (m_day t) ++ "/" :: two_digits (m_month t) ++ "/" :: two_digits (m_year t mod 100)
                 ++ " " :: clock t)
  end.
