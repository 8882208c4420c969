(** When a simulation is expected to run to completion. *)
From Coq Require Import Reals List Arith ZArith Bool.
From Verif Require Import Base Spec_Output Model_Output Model_Frame.
Import ListNotations.
Local Open Scope R_scope.

(** Half of the unknowns is prescribed, in the way the form asks for.  Forms
    fte, ufte and ufteu need a sphere; without spheres, form fts takes the
    strain of the background from the inputs.  Forces beyond the last sphere
    are ignored in forms ufte and ufteu. *)
Definition complete (fm : form) (Ns Nd : nat) (i : inputs) : Prop :=
  let mixed := exists k, split_given Ns k (i_Ua i) (firstn Ns (i_Fa i)) /\ rest_missing Ns k (i_Ua i) in
  match fm with
  | fts => length (i_Ua i) = Ns /\ (Ns = 0%nat -> exists m, i_Ea i = [Some m]) /\
           all_given Ns 3 (i_Fa i) /\ all_given Ns 3 (i_Ta i) /\ all_given33 Ns (i_Sa i) /\
           all_given Nd 3 (i_Fb i) /\ all_given Nd 3 (i_DFb i)
  | fte => (0 < Ns)%nat /\
           all_given Ns 3 (i_Fa i) /\ all_given Ns 3 (i_Ta i) /\ all_given33 Ns (i_Ea i) /\
           all_given Nd 3 (i_Fb i) /\ all_given Nd 3 (i_DFb i)
  | ufte => (0 < Ns)%nat /\ mixed /\ all_given Ns 3 (i_Ta i) /\ all_given33 Ns (i_Ea i) /\
            all_given Nd 3 (i_Fb i) /\ all_given Nd 3 (i_DFb i)
  | ufteu => (0 < Ns)%nat /\ mixed /\ all_given Ns 3 (i_Ta i) /\ all_given33 Ns (i_Ea i) /\
             (exists k, split_given Nd k (i_Ub i) (i_Fb i) /\ rest_missing Nd k (i_Ub i) /\
                        split_given Nd k (i_HalfDUb i) (i_DFb i))
  | _ => False
  end.

(** [np.linalg.solve] returns a vector of the right length. *)
Definition solves_shape (solve : nat -> mat -> list R -> list R) : Prop :=
  forall n A b, length b = n -> length (solve n A b) = n.

(** The table of resistance scalars has an entry for the ratio of any two
    bead radii in use, to the tolerance of [np.isclose]. *)
Definition tabulated (table sizes : list R) : Prop :=
  forall a b, In a sizes -> In b sizes ->
    exists x, In x table /\ Rabs (x - b / a) <= / 10 ^ 8 + / 10 ^ 5 * Rabs (b / a).

(** Settings under which every frame is saved and none is refused. *)
Definition usable (g : settings) (Nd : nat) : Prop :=
  (g_scheme g = euler \/ g_scheme g = rk4 \/ (g_scheme g = ab2 /\ Nd = 0%nat)) /\
  (0 < g_num_frames g)%nat /\ g_start g = 0%nat /\ (0 < g_invert_every g)%nat /\ (0 < g_temp_every g)%nat /\
  (0 < g_save_pos g)%nat /\ (0 < g_save_forces g)%nat /\ g_save_after g = 0%nat.

(** settings.py 27-141: the values the repository comes with, given the timestep and
    number of frames of the command line and the box of the input. *)
Definition shipped_settings (dt : R) (num_frames : nat) (bl tr : vec) : settings :=
  mkSettings euler dt num_frames 0 1 false true false false bl tr 1 1 0 true 120.

(** Which of the example inputs 1 to 7 can be run in which form, by the number
    of spheres. *)
Definition workable (n : Z) (fm : form) (Ns : nat) : Prop :=
  if Nat.eqb Ns 0 then fm = fts /\ (n = 3%Z \/ n = 7%Z)
  else match fm with
       | fts | fte => n <> 6%Z \/ Ns = 99%nat
       | ufte => n = 1%Z \/ n = 2%Z \/ n = 5%Z \/ (n = 6%Z /\ (90 <= Ns <= 99)%nat)
       | _ => False
       end.

(** The example commands of README.md: setup number, input number, form. *)
Definition readme_examples : list (Z * Z * form) :=
  [(1, 1, fte); (2, 1, fte); (3, 2, fte); (4, 3, fte); (5, 4, fte); (6, 5, ufte); (7, 6, ufte); (8, 1, fte)]%Z.
