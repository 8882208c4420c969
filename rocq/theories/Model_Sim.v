(** The whole simulation: the loop of Model_Frame with the matrices of
    Model_GrandP, the solution of Model_Output and the inputs.
    Source: stokesian_dynamics/functions/timestepping.py 230-554
    [generate_output_FTSUOE] as called by run_simulation.py.

    [printout] is at most 1.  [np.linalg.inv], [np.linalg.solve] and the table
    of resistance scalars are arguments.  [input] is [input_ftsuoe] for the
    chosen input number; both calls made for form fte give the same result. *)
From Coq Require Import Reals List Arith Bool.
From Verif Require Import Base Py Model_Minf Model_Grand Model_Close Model_R2B Model_MinfP Model_GrandP
  Model_Step Model_Output Model_Frame Model_Inputs.
Import ListNotations.
Local Open Scope R_scope.

Definition posdata_of (Ns Nd : nat) (p : config) : posdata :=
  mkPos Ns Nd (c_ssizes p) (c_spos p) (c_dsizes p) (c_dpos p) (c_ddx p).

Definition unrow2 (m : list (list R)) : mat := fun i j => nth j (nth i m []) 0.

(** 542-554: the returned tuple. *)
Definition solution_of (o : outputs) (f : flow) : solution :=
  mkSol (unrow (Model_Output.o_Fa o)) (fun i => unrow2 (nth i (Model_Output.o_Sa o) []))
    (unrow (Model_Output.o_Fb o)) (unrow (Model_Output.o_DFb o))
    (unrow (Model_Output.o_Ua o)) (unrow (Model_Output.o_Oa o)) (map unrow2 (Model_Output.o_Ea o))
    (unrow (Model_Output.o_Ub o)) (unrow (Model_Output.o_HalfDUb o))
    (f_U f) (f_O f) (f_centre f) (f_Ot f) (f_Et f) (fun _ => 0).

Section Sim.
Variable inv : nat -> mat -> mat.
Variable inv3 : mat -> mat.
Variable solve : nat -> mat -> list R -> list R.
Variable sc : nat -> nat -> R -> nat -> R.
Variable table : list R.
Variable h : nat.                                (* lattice cutoff of the Ewald sums *)
Variable stale : nat -> nat -> R.
Variables Ns Nd : nat.
Variable fm : form.
Variables extract bb minf_only : bool.
Variable cutoff_factor : R.
Variable g : settings.
Variable input : config -> R -> res (inputs * flow).

Definition free_space (f : flow) : bool := is_zero3 (vsub (f_bl f) (f_tr f)).

(** The inverse of the far-field mobility of a configuration (279-306 into
    generate_grand_resistance_matrix.py 30-74, 130-179).  When the inputs raise
    nothing is computed. *)
Definition far_inverse (p : config) (t : R) : mat :=
  match input p t with
  | Raise _ => no_matrix
  | Ok (_, f) =>
      let q := posdata_of Ns Nd p in
      if free_space f then Minfinity_inverse inv bb q (f_mu f) (g_use_drag g) true no_matrix
      else inv (11 * Ns + 6 * Nd)%nat
             (generate_Minfinity_periodic h bb q (f_bl f) (f_tr f) (f_mu f) (f_Ot f) (f_Et f) stale)
  end.

(** Everything else, given that inverse.  Stokes drag form: TypeError before
    any matrix (Model_Output).  301: [Ea_in[0]] of an empty list.  With spheres
    the form duf leaves empty velocities, which line 692 cannot add to
    positions. *)
Definition solve_rest (p : config) (t : R) (vel : velocities) (mi : mat) : res solution :=
  do (i, f) <- input p t ;;
  match fm with
  | stokes_drag_dumbbells_only => Raise TypeError
  | _ =>
    let q := posdata_of Ns Nd p in
    do (G, _) <-
      (if free_space f then grand_resistance_free inv sc table bb q mi false cutoff_factor false false minf_only (f_mu f)
       else match i_Ea i with
            | [] => Raise IndexError
            | _ => grand_resistance_periodic inv inv3 sc table h bb q mi (f_bl f) (f_tr f) false cutoff_factor
                     (g_use_drag g) minf_only (f_mu f) (f_Ot f) (f_Et f) stale
            end) ;;
    do o <- generate_output inv solve Ns Nd fm extract G i (fun _ => i) ;;
    match fm with
    | duf => if Nat.ltb 0 Ns then Raise ValueError else Ok (solution_of o f)
    | _ => Ok (solution_of o f)
    end
  end.

(** run_simulation.py: a whole run, and what it saves. *)
Definition full_run (st : state) : res state := run inv3 Ns Nd far_inverse solve_rest g st.
Definition full_simulation (p : config) : res (option (list snapshot * list fsnapshot)) :=
  simulate inv3 Ns Nd far_inverse solve_rest g (fresh p).
End Sim.
