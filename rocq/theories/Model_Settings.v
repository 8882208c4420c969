(** Model of the basic settings and their override from the command line.
    Source: stokesian_dynamics/settings.py 25-62, 127.
    Python's conversions [int] and [float] of a string are parameters which
    give [None] where Python raises ValueError.  Only the settings that can be
    overridden are modelled. *)
From Coq Require Import Reals ZArith List String.
From Verif Require Import Py.
Import ListNotations.
Local Open Scope string_scope.

Record basic := Basic {
  b_setup : Z; b_input : Z; b_timestep : R; b_frames : Z; b_form : string;
  b_extract : bool  (* extract_force_on_wall_due_to_dumbbells *)
}.

Section Settings.
Variables (to_int : string -> option Z) (to_float : string -> option R).

(** 25-36.  The flag has no value yet; [false] stands for that and is always
    overwritten. *)
Definition defaults : basic := Basic 1 1 (1 / 10)%R 100 "fte" false.

Definition value {A} (o : option A) : res A := match o with Some x => Ok x | None => Raise ValueError end.
Definition arg (args : list string) (k : nat) : string := nth k args "".

(** 45-58: the body of the [try]; each stage is guarded by the number of
    arguments. *)
Definition override (args : list string) (s : basic) : res basic :=
  let n := List.length args in
  let s := if Nat.leb 6 n
           then Basic (b_setup s) (b_input s) (b_timestep s) (b_frames s) (b_form s)
                  (existsb (String.eqb (arg args 5)) ["True"; "true"; "t"; "T"; "1"])
           else s in
  let s := if Nat.leb 5 n
           then Basic (b_setup s) (b_input s) (b_timestep s) (b_frames s) (arg args 4) (b_extract s)
           else s in
  do s <- (if Nat.leb 4 n
           then do v <- value (to_int (arg args 3)) ;;
                Ok (Basic (b_setup s) (b_input s) (b_timestep s) v (b_form s) (b_extract s))
           else Ok s) ;;
  do s <- (if Nat.leb 3 n
           then do v <- value (to_float (arg args 2)) ;;
                Ok (Basic (b_setup s) (b_input s) v (b_frames s) (b_form s) (b_extract s))
           else Ok s) ;;
  do s <- (if Nat.leb 2 n
           then do v <- value (to_int (arg args 1)) ;;
                Ok (Basic (b_setup s) v (b_timestep s) (b_frames s) (b_form s) (b_extract s))
           else Ok s) ;;
  if Nat.leb 1 n
  then do v <- value (to_int (arg args 0)) ;;
       Ok (Basic v (b_input s) (b_timestep s) (b_frames s) (b_form s) (b_extract s))
  else Ok s.

(** The whole file: ValueError ends the program (59-62), and 127 assigns the
    flag. *)
Definition settings (args : list string) : res basic :=
  match override args defaults with
  | Ok s => Ok (Basic (b_setup s) (b_input s) (b_timestep s) (b_frames s) (b_form s) false)
  | Raise ValueError => Raise SystemExit
  | Raise e => Raise e
  end.
End Settings.
