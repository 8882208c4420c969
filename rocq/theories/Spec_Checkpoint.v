(** What the names of checkpoint files should tell (C59). *)
From Coq Require Import Reals List Arith Ascii String ZArith.
From Verif Require Import Model_Checkpoint.
Import ListNotations.

(** Decimal digits; timesteps that are not negative. *)
Definition decimal (ds : list nat) : Prop := ds <> [] /\ Forall (fun d => (d < 10)%nat) ds.
Definition tstep_ok (t : tstep) : Prop :=
  match t with TInt n => (0 <= n)%Z | TFloat ds _ => decimal ds end.
Definition params_ok (P : params) : Prop :=
  (0 <= setup_number P)%Z /\ (0 <= input_number P)%Z /\ (0 <= num_frames P)%Z /\ tstep_ok (timestep P).

(** 0.d1d2... as a real number *)
Fixpoint fraction (ds : list nat) : R :=
  match ds with [] => 0%R | d :: r => ((INR d + fraction r) / 10)%R end.
Definition denotes (t : tstep) : R :=
  match t with TInt n => IZR n | TFloat ds p => (fraction ds * powerRZ 10 p)%R end.

(** The text p occurs in s. *)
Definition occurs (p s : text) : Prop := exists a b, s = a ++ p ++ b.

(** Alphabetical order, from the codes of the characters. *)
Inductive before : text -> text -> Prop :=
| before_nil b : before [] b
| before_char x y a b : (nat_of_ascii x < nat_of_ascii y)%nat -> before (x :: a) (y :: b)
| before_cons x a b : before a b -> before (x :: a) (x :: b).
