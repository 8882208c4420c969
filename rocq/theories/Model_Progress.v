(** Model of the progress estimate and of the formatting of durations.
    Source: stokesian_dynamics/functions/timestepping.py 557-638 and
    stokesian_dynamics/functions/shared.py 274-290. *)
From Coq Require Import Reals ZArith List String Ascii Arith Bool.
From Verif Require Import Py Model_Mob Model_Close.
Import ListNotations.
Local Open Scope R_scope.

(** ** calculate_time_left *)
Definition total (l : list R) : R := fold_left Rplus l 0.
Definition average (l : list R) : R := total l / INR (List.length l).

(** [[times[i] for i in frames if keep(i)]], where [keep] computes [i % m]. *)
Fixpoint pick (times : list R) (m : nat) (keep : nat -> bool) (frames : list nat) : res (list R) :=
  match frames with
  | [] => Ok []
  | i :: t =>
      if Nat.eqb m 0 then Raise ZeroDivisionError else
      if keep i then
        match nth_error times i with
        | Some x => do r <- pick times m keep t ;; Ok (x :: r)
        | None => Raise IndexError
        end
      else pick times m keep t
  end.
(** [len([i for i in frames if keep(i)])] *)
Definition count (m : nat) (keep : nat -> bool) (frames : list nat) : res nat :=
  match frames with
  | [] => Ok 0%nat
  | _ => if Nat.eqb m 0 then Raise ZeroDivisionError else Ok (List.length (filter keep frames))
  end.

(** 557-618; [jit] is [not numba.config.DISABLE_JIT]. *)
Definition calculate_time_left (jit : bool) (times : list R) (frameno num_frames m start : nat) : res (R * string) :=
  let past := seq start (frameno + 1 - start) in
  let future := seq (frameno + 1) (num_frames - (frameno + 1)) in
  do longtimes <- pick times m (fun i => (Nat.eqb (i mod m) 0 || Nat.eqb i start)%bool) past ;;
  let '(longtimeaverage, flag1) :=
    if jit then
      match longtimes with
      | _ :: (_ :: _) as rest => (average rest, ""%string)
      | [x] => (x, "<"%string)
      | [] => (0, ""%string)
      end
    else match longtimes with [] => (0, ""%string) | _ => (average longtimes, ""%string) end in
  do shorttimes <- pick times m (fun i => (negb (Nat.eqb (i mod m) 0) && negb (Nat.eqb i start))%bool) past ;;
  let shorttimeaverage := match shorttimes with [] => longtimeaverage | _ => average shorttimes end in
  do numberoflongtimesleft <- count m (fun i => Nat.eqb (i mod m) 0) future ;;
  do numberofshorttimesleft <- count m (fun i => negb (Nat.eqb (i mod m) 0)) future ;;
  let timeleft := (INR numberofshorttimesleft * shorttimeaverage + INR numberoflongtimesleft * longtimeaverage) * (103 / 100) in
  let flag2 := if (Nat.eqb frameno start && Nat.ltb 0 numberofshorttimesleft)%bool then "<"%string else ""%string in
  Ok (timeleft, (flag1 ++ flag2)%string).

(** ** Formatting *)
Definition digit (d : Z) : ascii := ascii_of_nat (48 + Z.to_nat d).
(** Decimal digits of a nonnegative integer. *)
Fixpoint digits (fuel : nat) (n : Z) (tail : string) : string :=
  match fuel with
  | O => tail
  | S f => let s := String (digit (n mod 10)) tail in
           if Z.eqb (n / 10) 0 then s else digits f (n / 10) s
  end.
Definition decimal (n : Z) : string := digits (S (Z.to_nat (Z.log2 n))) n EmptyString.
(** Right alignment, as in [%2d] (fill " ") and [%02d] (fill "0"). *)
Fixpoint fill_with (c : ascii) (k : nat) (s : string) : string :=
  match k with O => s | S k => String c (fill_with c k s) end.
Definition align (c : ascii) (width : nat) (s : string) : string := fill_with c (width - String.length s) s.

(** [divmod(x, y)] of Python floats, y > 0. *)
Definition divmod (x y : R) : R * R := (IZR (Int_part (x / y)), rmod x y).
(** ["%d" % x] for x >= 0 shows the integer part. *)
Definition shown (x : R) : Z := Int_part x.
(** ["%.1f" % x] for x >= 0: tenths, rounded to nearest, ties to even. *)
Definition tenths (x : R) : Z :=
  let k := Int_part (10 * x + 1 / 2) in
  if Req_EM_T (IZR k) (10 * x + 1 / 2) then (if Z.odd k then k - 1 else k)%Z else k.
Definition one_decimal (x : R) : string := (decimal (tenths x / 10) ++ "." ++ decimal (tenths x mod 10))%string.

(** shared.py 274-290 *)
Definition format_elapsed_time (t : R) : string :=
  if Rleb 86400 t then
    let '(m, s) := divmod t 60 in
    let '(h, m) := divmod m 60 in
    let '(d, h) := divmod h 24 in
    (decimal (shown d) ++ "d" ++ align " " 2 (decimal (shown h)) ++ ":" ++ align "0" 2 (decimal (shown m)) ++ ":" ++ align "0" 2 (decimal (shown s)))%string
  else if Rleb 3600 t then
    let '(m, s) := divmod t 60 in
    let '(h, m) := divmod m 60 in
    (align " " 2 (decimal (shown h)) ++ ":" ++ align "0" 2 (decimal (shown m)) ++ ":" ++ align "0" 2 (decimal (shown s)))%string
  else if Rleb 60 t then
    let '(m, s) := divmod t 60 in
    let '(h, m) := divmod m 60 in
    ("   " ++ align " " 2 (decimal (shown m)) ++ ":" ++ align "0" 2 (decimal (shown s)))%string
  else
    ((if Rltb t 0 then align " " 7 ("-" ++ one_decimal (- t)) else align " " 7 (one_decimal t)) ++ "s")%string.

(** timestepping.py 621-638: [Colour c s] is the text [s] in terminal colour
    number [c]. *)
Inductive coloured := Colour (c : nat) (s : string).
Definition format_time_left (timeleft : R) (flags : string) : coloured :=
  Colour (if Rltb 86400 timeleft then 94 else if Rltb 18000 timeleft then 95 else
          if Rltb 3600 timeleft then 91 else if Rltb 600 timeleft then 93 else 92)
    (flags ++ format_elapsed_time timeleft).
