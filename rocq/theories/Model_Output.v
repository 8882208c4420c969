(** Model of solving the grand mobility problem for one configuration.
    Source: stokesian_dynamics/functions/timestepping.py 230-554
    [generate_output_FTSUOE].

    Not modelled here: how the grand resistance matrix is built (Model_Grand,
    Model_R2B; here it is the argument [R0]), timings, printing, and the
    background flow values that are passed through unchanged. *)
From Coq Require Import Reals List Arith Bool.
From Verif Require Import Base Py Model_Pack Model_Convert.
Import ListNotations.
Local Open Scope R_scope.

(** Input rows start as the placeholder ['pippa','pippa','pippa']
    (simulation_tools.py 11-47 [empty_vectors]), here [None].  Simplification:
    a row is either wholly a placeholder or wholly numeric. *)
Definition rows := list (option (list R)).
Definition tensors := list (option (list (list R))).

Record inputs := mkInputs {
  i_Fa : rows; i_Ta : rows; i_Sa : tensors; i_Fb : rows; i_DFb : rows;
  i_Ua : rows; i_Oa : rows; i_Ea : tensors; i_Ub : rows; i_HalfDUb : rows }.

(** simulation_tools.py 11-47 [empty_vectors]: everything a placeholder. *)
Definition empty_vectors (Ns Nd : nat) : inputs :=
  mkInputs (repeat None Ns) (repeat None Ns) (repeat None Ns) (repeat None Nd) (repeat None Nd)
           (repeat None Ns) (repeat None Ns) (repeat None Ns) (repeat None Nd) (repeat None Nd).

Record outputs := mkOutputs {
  o_Fa : list (list R); o_Ta : list (list R); o_Sa : list (list (list R));
  o_Fb : list (list R); o_DFb : list (list R);
  o_Ua : list (list R); o_Oa : list (list R); o_Ea : list (list (list R));
  o_Ub : list (list R); o_HalfDUb : list (list R) }.

Inductive form := fts | fte | ufte | ufteu | duf | stokes_drag_dumbbells_only | other_form.

(** Conversion of a list to numbers; a remaining placeholder raises [e]. *)
Fixpoint given {A} (e : exn) (l : list (option A)) : res (list A) :=
  match l with
  | [] => Ok []
  | None :: _ => Raise e
  | Some x :: l' => do t <- given e l' ;; Ok (x :: t)
  end.

(** [l.count(['pippa','pippa','pippa'])] *)
Definition count_none {A} (l : list (option A)) : nat :=
  length (filter (fun o => match o with None => true | Some _ => false end) l).

(** Python slice assignment [l[lo:hi] = m] on lists. *)
Definition set_slice {A} (l : list A) (lo hi : nat) (m : list A) : list A :=
  firstn lo l ++ m ++ skipn (Nat.max lo hi) l.

(** The [try: construct_force_vector_from_fts(...) except: throw_error(...)]
    blocks.  A tensor placeholder or a wrongly shaped tensor makes the compiled
    [condense_and_flatten] raise inside the [try], hence SystemExit; a
    placeholder among the other rows survives into the flat list, and the
    conversion to numbers after the [try] raises [e] (TypeError from
    [np.linalg.solve] in the fts and fte branches, ValueError from
    [np.array(force_vector, float)] in the others). *)
Definition force_vector (e : exn) (Ns Nd : nat) (f t : rows) (s : tensors) (fb dfb : rows) : res (list R) :=
  do s' <- given SystemExit s ;;
  match condense_and_flatten s' Ns with
  | Raise _ => Raise SystemExit
  | Ok _ =>
      do f' <- given e f ;;
      do t' <- given e t ;;
      do fb' <- given e fb ;;
      do dfb' <- given e dfb ;;
      construct_force_vector_from_fts Ns Nd f' t' s' fb' dfb'
  end.

(** [np.linalg.solve(A, b)] for an [n] by [n] matrix: the numerical routine is
    the parameter [solve]; a right-hand side of another length raises
    ValueError. *)
Definition np_solve (solve : nat -> mat -> list R -> list R) (n : nat) (A : mat) (b : list R) : res (list R) :=
  if Nat.eqb (length b) n then Ok (solve n A b) else Raise ValueError.

(** [X = [['chen',..] for _ in range(n)]; X[0:k] = A[0:k]; X[k:n] = B[k:n]]
    (426-431 and the like), before conversion to an array. *)
Definition split_out {A} (n k : nat) (a b : list (option A)) : list (option A) :=
  let x := repeat None n in
  let x := set_slice x 0 k (lslice a 0 k) in
  set_slice x k n (lslice b k n).

Section Solve.
Variable inv : nat -> mat -> mat.
Variable solve : nat -> mat -> list R -> list R.
Variables Ns Nd : nat.
Let N := (11 * Ns + 6 * Nd)%nat.

(** 308-325.  From line 307 on the code takes the numbers of spheres and of
    dumbbells to be the lengths of Ua_in and Ub_in. *)
Definition output_fts (R0 : mat) (i : inputs) : res outputs :=
  do b <- force_vector TypeError Ns Nd (i_Fa i) (i_Ta i) (i_Sa i) (i_Fb i) (i_DFb i) ;;
  do v <- np_solve solve N R0 b ;;
  do r <- deconstruct_velocity_vector_for_fts Ns Nd v ;;
  let '(Ua, Oa, Ea, Ub, HalfDUb) := r in
  do Fa <- given ValueError (i_Fa i) ;;
  do Ta <- given ValueError (i_Ta i) ;;
  do Sa <- given ValueError (i_Sa i) ;;
  do Fb <- given ValueError (i_Fb i) ;;
  do DFb <- given ValueError (i_DFb i) ;;
  do Ea <- (if Nat.eqb (length (i_Ua i)) 0 then given ValueError (i_Ea i) else Ok Ea) ;;
  Ok (mkOutputs Fa Ta Sa Fb DFb Ua Oa Ea Ub HalfDUb).

(** 327-360.  The inputs are read again, now with the converted matrix
    available: [second : mat -> inputs]. *)
Definition output_fte (R0 : mat) (second : mat -> inputs) : res outputs :=
  do R1 <- fts_to_fte_matrix inv Ns Nd R0 ;;
  let i := second R1 in
  do b <- force_vector TypeError Ns Nd (i_Fa i) (i_Ta i) (i_Ea i) (i_Fb i) (i_DFb i) ;;
  do v <- np_solve solve N R1 b ;;
  do r <- deconstruct_velocity_vector_for_fts Ns Nd v ;;
  let '(Ua, Oa, Sa, Ub, HalfDUb) := r in
  do Fa <- given ValueError (i_Fa i) ;;
  do Ta <- given ValueError (i_Ta i) ;;
  do Ea <- given ValueError (i_Ea i) ;;
  do Fb <- given ValueError (i_Fb i) ;;
  do DFb <- given ValueError (i_DFb i) ;;
  Ok (mkOutputs Fa Ta Sa Fb DFb Ua Oa Ea Ub HalfDUb).

(** 362-407.  With [extract] the result is never unpacked and the reshape with
    a float size [len(...)/3] raises TypeError (406-407). *)
Definition output_ufte (extract : bool) (R0 : mat) (i : inputs) : res outputs :=
  let ns := length (i_Ua i) in
  let nfix := (ns - count_none (i_Ua i))%nat in
  do b <- force_vector ValueError Ns Nd (lslice (i_Ua i) 0 nfix ++ lslice (i_Fa i) nfix ns)
            (i_Ta i) (i_Ea i) (i_Fb i) (i_DFb i) ;;
  do R1 <- fts_to_fte_matrix inv Ns Nd R0 ;;
  do R2 <- fte_to_ufte_matrix inv nfix Ns Nd R1 ;;
  if extract then Raise TypeError else
  do v <- np_solve solve N R2 b ;;
  do r <- deconstruct_velocity_vector_for_fts Ns Nd v ;;
  let '(FUa, Oa, Sa, Ub, HalfDUb) := r in
  let FUa := map Some FUa in
  do Ta <- given ValueError (i_Ta i) ;;
  do Ea <- given ValueError (i_Ea i) ;;
  do Fb <- given ValueError (i_Fb i) ;;
  do DFb <- given ValueError (i_DFb i) ;;
  do Fa <- given ValueError (split_out ns nfix FUa (i_Fa i)) ;;
  do Ua <- given ValueError (split_out ns nfix (i_Ua i) FUa) ;;
  Ok (mkOutputs Fa Ta Sa Fb DFb Ua Oa Ea Ub HalfDUb).

(** 409-473.  [extract] only prints a warning. *)
Definition output_ufteu (R0 : mat) (i : inputs) : res outputs :=
  let ns := length (i_Ua i) in
  let nfix := (ns - count_none (i_Ua i))%nat in
  let nd := length (i_Ub i) in
  let nfixd := (nd - count_none (i_Ub i))%nat in
  do b <- force_vector ValueError Ns Nd (lslice (i_Ua i) 0 nfix ++ lslice (i_Fa i) nfix ns)
            (i_Ta i) (i_Ea i)
            (lslice (i_Ub i) 0 nfixd ++ lslice (i_Fb i) nfixd nd)
            (lslice (i_HalfDUb i) 0 nfixd ++ lslice (i_DFb i) nfixd nd) ;;
  do R1 <- fts_to_fte_matrix inv Ns Nd R0 ;;
  do R2 <- fte_to_ufte_matrix inv nfix Ns Nd R1 ;;
  let R3 := ufte_to_ufteu_matrix inv nfixd nfix Ns Nd R2 in
  do v <- np_solve solve N R3 b ;;
  do r <- deconstruct_velocity_vector_for_fts Ns Nd v ;;
  let '(FUa, Oa, Sa, FUb, DFUb) := r in
  let FUa := map Some FUa in let FUb := map Some FUb in let DFUb := map Some DFUb in
  do Ta <- given ValueError (i_Ta i) ;;
  do Ea <- given ValueError (i_Ea i) ;;
  do Fa <- given ValueError (split_out ns nfix FUa (i_Fa i)) ;;
  do Ua <- given ValueError (split_out ns nfix (i_Ua i) FUa) ;;
  do Fb <- given ValueError (split_out nd nfixd FUb (i_Fb i)) ;;
  do Ub <- given ValueError (split_out nd nfixd (i_Ub i) FUb) ;;
  do DFb <- given ValueError (split_out nd nfixd DFUb (i_DFb i)) ;;
  do HalfDUb <- given ValueError (split_out nd nfixd (i_HalfDUb i) DFUb) ;;
  Ok (mkOutputs Fa Ta Sa Fb DFb Ua Oa Ea Ub HalfDUb).

(** 475-524.  The unpacked [Fa_out] and [Oa_out] are overwritten (523-524). *)
Definition output_duf (R0 : mat) (i : inputs) : res outputs :=
  let nd := length (i_Ub i) in
  let nfixd := (nd - count_none (i_Ub i))%nat in
  do b <- force_vector ValueError Ns Nd (i_Fa i) (i_Ta i) (i_Ea i)
            (lslice (i_Ub i) 0 nfixd ++ lslice (i_Fb i) nfixd nd)
            (lslice (i_HalfDUb i) 0 nfixd ++ lslice (i_DFb i) nfixd nd) ;;
  let R1 := fts_to_duf_matrix inv nfixd Nd R0 in
  do v <- np_solve solve N R1 b ;;
  do r <- deconstruct_velocity_vector_for_fts Ns Nd v ;;
  let '(_, _, Sa, FUb, DFUb) := r in
  let FUb := map Some FUb in let DFUb := map Some DFUb in
  do Fa <- given ValueError (i_Fa i) ;;
  do Ta <- given ValueError (i_Ta i) ;;
  do Ea <- given ValueError (i_Ea i) ;;
  do Fb <- given ValueError (split_out nd nfixd FUb (i_Fb i)) ;;
  do Ub <- given ValueError (split_out nd nfixd (i_Ub i) FUb) ;;
  do DFb <- given ValueError (split_out nd nfixd DFUb (i_DFb i)) ;;
  do HalfDUb <- given ValueError (split_out nd nfixd (i_HalfDUb i) DFUb) ;;
  Ok (mkOutputs Fa Ta Sa Fb DFb [] [] Ea Ub HalfDUb).

(** 230-554.  [first] are the inputs read with [skip_computation=True]
    (254-263).  The Stokes drag form slices with the float [Nbeads/2]
    (279-280): TypeError.  An unknown form leaves the outputs unassigned
    (526). *)
Definition generate_output (fm : form) (extract : bool) (R0 : mat)
    (first : inputs) (second : mat -> inputs) : res outputs :=
  match fm with
  | fts => output_fts R0 first
  | fte => output_fte R0 second
  | ufte => output_ufte extract R0 first
  | ufteu => output_ufteu R0 first
  | duf => output_duf R0 first
  | stokes_drag_dumbbells_only => Raise TypeError
  | other_form => Raise UnboundLocalError
  end.
End Solve.
