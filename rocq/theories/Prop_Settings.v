(** Property C38: command-line arguments. *)
From Coq Require Import Reals ZArith List String Arith Lia Lra.
From Verif Require Import Py Model_Settings.
Import ListNotations.
Local Open Scope string_scope.

(** The [k]-th argument, converted, or the default if there are not so many. *)
Definition given {A} (convert : string -> option A) (default : A) (k : nat) (args : list string) : option A :=
  match nth_error args k with Some a => convert a | None => Some default end.

(** C38: the program either stops, exactly when one of the first four
    arguments is not a number, or has the settings given, the rest being the
    defaults.  Arguments after the fifth are ignored. *)
Theorem C38_settings :
  forall to_int to_float args,
    match given to_int 1%Z 0 args, given to_int 1%Z 1 args, given to_float (1 / 10)%R 2 args, given to_int 100%Z 3 args with
    | Some setup, Some input, Some dt, Some frames =>
        exists s, settings to_int to_float args = Ok s /\
          b_setup s = setup /\ b_input s = input /\ b_timestep s = dt /\ b_frames s = frames /\
          Some (b_form s) = given Some "fte" 4 args /\ b_extract s = false
    | _, _, _, _ => settings to_int to_float args = Raise SystemExit
    end.
Proof.
  intros to_int to_float args. unfold given, settings, override, arg.
  destruct args as [|a0 [|a1 [|a2 [|a3 [|a4 [|a5 t]]]]]]; cbn [nth_error List.length Nat.leb nth bind value b_setup b_input b_timestep b_frames b_form b_extract defaults];
    repeat (match goal with |- context [to_int ?a] => destruct (to_int a) | |- context [to_float ?a] => destruct (to_float a) end;
            cbn [bind value b_setup b_input b_timestep b_frames b_form b_extract]); try reflexivity; eexists; (split; [reflexivity|]); repeat split.
Qed.
Print Assumptions C38_settings.

(** Finding: the sixth argument has no effect. *)
Theorem C38_extract_refuted :
  forall to_int to_float a0 a1 a2 a3 a4 a5 a5' t t',
    settings to_int to_float (a0 :: a1 :: a2 :: a3 :: a4 :: a5 :: t) = settings to_int to_float (a0 :: a1 :: a2 :: a3 :: a4 :: a5' :: t').
Proof.
  intros. unfold settings, override, arg. cbn [List.length Nat.leb nth bind value b_setup b_input b_timestep b_frames b_form b_extract defaults].
  repeat (match goal with |- context [to_int ?a] => destruct (to_int a) | |- context [to_float ?a] => destruct (to_float a) end;
            cbn [bind value b_setup b_input b_timestep b_frames b_form b_extract]); reflexivity.
Qed.
Print Assumptions C38_extract_refuted.

(** Two digits, for the example. *)
Definition small_int (s : string) : option Z :=
  match s with "2" => Some 2%Z | "7" => Some 7%Z | "50" => Some 50%Z | _ => None end.
Example C38_example :
  settings small_int (fun s => if String.eqb s "0.5" then Some (1 / 2)%R else None) ["2"; "7"; "0.5"; "50"; "ufte"; "True"]
  = Ok (Basic 2 7 (1 / 2)%R 50 "ufte" false).
Proof. reflexivity. Qed.
Example C38_example_defaults : settings small_int (fun _ => None) ["2"] = Ok (Basic 2 1 (1 / 10)%R 100 "fte" false).
Proof. reflexivity. Qed.
Example C38_example_stops : settings small_int (fun _ => None) ["two"] = Raise SystemExit.
Proof. reflexivity. Qed.
