(** Property C25: what [generate_output_FTSUOE] returns. *)
From Coq Require Import Reals List Arith Bool Lia Lra.
From Verif Require Import Base Py Model_Pack Model_Convert Spec_Convert Proof_Diag Model_Output Spec_Output Proof_Output2 Proof_Output3.
Import ListNotations.
Local Open Scope R_scope.

(** Form fts: forces, torques and stresslets are returned as given and equal
    R times the returned velocities.  (Without spheres the strain input is an
    empty list.) *)
Theorem C25_fts :
  forall inv solve Ns Nd extract R0 first second,
    length (i_Ua first) = Ns -> (Ns = 0%nat -> i_Ea first = []) ->
    solve_ok solve (11 * Ns + 6 * Nd) R0 ->
    all_given Ns 3 (i_Fa first) -> all_given Ns 3 (i_Ta first) -> all_given33 Ns (i_Sa first) ->
    all_given Nd 3 (i_Fb first) -> all_given Nd 3 (i_DFb first) ->
    exists o, generate_output inv solve Ns Nd fts extract R0 first second = Ok o /\
      keeps 0 Ns (i_Fa first) (o_Fa o) /\ keeps 0 Ns (i_Ta first) (o_Ta o) /\ keeps 0 Ns (i_Sa first) (o_Sa o) /\
      keeps 0 Nd (i_Fb first) (o_Fb o) /\ keeps 0 Nd (i_DFb first) (o_DFb o) /\
      resistance_relation Ns Nd R0 (o_Fa o) (o_Ta o) (o_Sa o) (o_Fb o) (o_DFb o)
                                   (o_Ua o) (o_Oa o) (o_Ea o) (o_Ub o) (o_HalfDUb o).
Proof. intros inv solve Ns Nd extract R0 first second. exact (output_fts_correct solve Ns Nd R0 first). Qed.
Print Assumptions C25_fts.

(** Form fte: forces, torques and strains kept; stresslets and velocities found.
    The inputs used are those of the second call, made with the converted
    matrix. *)
Theorem C25_fte :
  forall inv solve Ns Nd extract R0 first second,
    (0 < Ns)%nat -> msym (11 * Ns + 6 * Nd) R0 ->
    inv_ok inv (5 * Ns) (slice R0 (6 * Ns) (6 * Ns)) ->
    exists Rfte, fts_to_fte_matrix inv Ns Nd R0 = Ok Rfte /\
    let i := second Rfte in
    (solve_ok solve (11 * Ns + 6 * Nd) Rfte ->
     all_given Ns 3 (i_Fa i) -> all_given Ns 3 (i_Ta i) -> all_given33 Ns (i_Ea i) ->
     all_given Nd 3 (i_Fb i) -> all_given Nd 3 (i_DFb i) ->
     exists o, generate_output inv solve Ns Nd fte extract R0 first second = Ok o /\
       keeps 0 Ns (i_Fa i) (o_Fa o) /\ keeps 0 Ns (i_Ta i) (o_Ta o) /\ keeps 0 Ns (i_Ea i) (o_Ea o) /\
       keeps 0 Nd (i_Fb i) (o_Fb o) /\ keeps 0 Nd (i_DFb i) (o_DFb o) /\
       resistance_relation Ns Nd R0 (o_Fa o) (o_Ta o) (o_Sa o) (o_Fb o) (o_DFb o)
                                    (o_Ua o) (o_Oa o) (o_Ea o) (o_Ub o) (o_HalfDUb o)).
Proof. intros inv solve Ns Nd extract R0 first second. exact (output_fte_correct inv solve Ns Nd R0 second). Qed.
Print Assumptions C25_fte.

(** Form ufte: the first [nfix] spheres keep their velocities, the others
    their forces. *)
Theorem C25_ufte :
  forall inv solve Ns Nd nfix R0 Rfte Rufte first second,
    (0 < Ns)%nat -> msym (11 * Ns + 6 * Nd) R0 ->
    inv_ok inv (5 * Ns) (slice R0 (6 * Ns) (6 * Ns)) ->
    fts_to_fte_matrix inv Ns Nd R0 = Ok Rfte ->
    inv_ok inv (3 * nfix) (slice Rfte 0 0) ->
    fte_to_ufte_matrix inv nfix Ns Nd Rfte = Ok Rufte ->
    solve_ok solve (11 * Ns + 6 * Nd) Rufte ->
    split_given Ns nfix (i_Ua first) (i_Fa first) -> rest_missing Ns nfix (i_Ua first) ->
    all_given Ns 3 (i_Ta first) -> all_given33 Ns (i_Ea first) ->
    all_given Nd 3 (i_Fb first) -> all_given Nd 3 (i_DFb first) ->
    exists o, generate_output inv solve Ns Nd ufte false R0 first second = Ok o /\
      keeps 0 nfix (i_Ua first) (o_Ua o) /\ keeps nfix Ns (i_Fa first) (o_Fa o) /\
      keeps 0 Ns (i_Ta first) (o_Ta o) /\ keeps 0 Ns (i_Ea first) (o_Ea o) /\
      keeps 0 Nd (i_Fb first) (o_Fb o) /\ keeps 0 Nd (i_DFb first) (o_DFb o) /\
      resistance_relation Ns Nd R0 (o_Fa o) (o_Ta o) (o_Sa o) (o_Fb o) (o_DFb o)
                                   (o_Ua o) (o_Oa o) (o_Ea o) (o_Ub o) (o_HalfDUb o).
Proof.
  intros inv solve Ns Nd nfix R0 Rfte Rufte first second.
  exact (output_ufte_correct inv solve Ns Nd nfix R0 Rfte Rufte first).
Qed.
Print Assumptions C25_ufte.

(** Form ufteu: also the first [nfixd] dumbbells keep their velocities. *)
Theorem C25_ufteu :
  forall inv solve Ns Nd nfix nfixd extract R0 Rfte Rufte first second,
    (0 < Ns)%nat -> msym (11 * Ns + 6 * Nd) R0 ->
    inv_ok inv (5 * Ns) (slice R0 (6 * Ns) (6 * Ns)) ->
    fts_to_fte_matrix inv Ns Nd R0 = Ok Rfte ->
    inv_ok inv (3 * nfix) (slice Rfte 0 0) ->
    fte_to_ufte_matrix inv nfix Ns Nd Rfte = Ok Rufte ->
    inv_ok inv (3 * nfixd) (slice Rufte (11 * Ns) (11 * Ns)) ->
    inv_ok inv (3 * nfixd)
      (slice (ufte_to_ufteu_step1 inv nfixd nfix Ns Nd Rufte) (11 * Ns + 3 * Nd) (11 * Ns + 3 * Nd)) ->
    solve_ok solve (11 * Ns + 6 * Nd) (ufte_to_ufteu_matrix inv nfixd nfix Ns Nd Rufte) ->
    split_given Ns nfix (i_Ua first) (i_Fa first) -> rest_missing Ns nfix (i_Ua first) ->
    all_given Ns 3 (i_Ta first) -> all_given33 Ns (i_Ea first) ->
    split_given Nd nfixd (i_Ub first) (i_Fb first) -> rest_missing Nd nfixd (i_Ub first) ->
    split_given Nd nfixd (i_HalfDUb first) (i_DFb first) ->
    exists o, generate_output inv solve Ns Nd ufteu extract R0 first second = Ok o /\
      keeps 0 nfix (i_Ua first) (o_Ua o) /\ keeps nfix Ns (i_Fa first) (o_Fa o) /\
      keeps 0 Ns (i_Ta first) (o_Ta o) /\ keeps 0 Ns (i_Ea first) (o_Ea o) /\
      keeps 0 nfixd (i_Ub first) (o_Ub o) /\ keeps nfixd Nd (i_Fb first) (o_Fb o) /\
      keeps 0 nfixd (i_HalfDUb first) (o_HalfDUb o) /\ keeps nfixd Nd (i_DFb first) (o_DFb o) /\
      resistance_relation Ns Nd R0 (o_Fa o) (o_Ta o) (o_Sa o) (o_Fb o) (o_DFb o)
                                   (o_Ua o) (o_Oa o) (o_Ea o) (o_Ub o) (o_HalfDUb o).
Proof.
  intros inv solve Ns Nd nfix nfixd extract R0 Rfte Rufte first second.
  exact (output_ufteu_correct inv solve Ns Nd nfix nfixd R0 Rfte Rufte first).
Qed.
Print Assumptions C25_ufteu.

(** Form duf: dumbbells only. *)
Theorem C25_duf :
  forall inv solve Nd nfixd extract R0 first second,
    msym (6 * Nd) R0 ->
    inv_ok inv (3 * nfixd) (slice R0 0 0) ->
    inv_ok inv (3 * nfixd) (slice (fts_to_duf_step1 inv nfixd Nd R0) (3 * Nd) (3 * Nd)) ->
    solve_ok solve (6 * Nd) (fts_to_duf_matrix inv nfixd Nd R0) ->
    all_given 0 3 (i_Fa first) -> all_given 0 3 (i_Ta first) -> all_given33 0 (i_Ea first) ->
    split_given Nd nfixd (i_Ub first) (i_Fb first) -> rest_missing Nd nfixd (i_Ub first) ->
    split_given Nd nfixd (i_HalfDUb first) (i_DFb first) ->
    exists o, generate_output inv solve 0 Nd duf extract R0 first second = Ok o /\
      keeps 0 nfixd (i_Ub first) (o_Ub o) /\ keeps nfixd Nd (i_Fb first) (o_Fb o) /\
      keeps 0 nfixd (i_HalfDUb first) (o_HalfDUb o) /\ keeps nfixd Nd (i_DFb first) (o_DFb o) /\
      resistance_relation 0 Nd R0 (o_Fa o) (o_Ta o) (o_Sa o) (o_Fb o) (o_DFb o)
                                  (o_Ua o) (o_Oa o) (o_Ea o) (o_Ub o) (o_HalfDUb o).
Proof.
  intros inv solve Nd nfixd extract R0 first second.
  exact (output_duf_correct inv solve Nd nfixd R0 first).
Qed.
Print Assumptions C25_duf.

(** In ufte form a velocity prescribed out of order, or a particle with
    neither velocity nor force, never yields a result. *)
Theorem C25_ufte_accepts_only_first :
  forall inv solve Ns Nd extract R0 first second o,
    length (i_Ua first) = Ns -> length (i_Fa first) = Ns ->
    generate_output inv solve Ns Nd ufte extract R0 first second = Ok o ->
    exists nfix, (nfix <= Ns)%nat /\
      (forall j, (j < nfix)%nat -> exists r, nth_error (i_Ua first) j = Some (Some r)) /\
      (forall j, (nfix <= j < Ns)%nat ->
         nth_error (i_Ua first) j = Some None /\ exists r, nth_error (i_Fa first) j = Some (Some r)) /\
      (forall j, (j < length (i_Ta first))%nat -> exists r, nth_error (i_Ta first) j = Some (Some r)) /\
      (forall j, (j < length (i_Ea first))%nat -> exists r, nth_error (i_Ea first) j = Some (Some r)) /\
      (forall j, (j < length (i_Fb first))%nat -> exists r, nth_error (i_Fb first) j = Some (Some r)) /\
      (forall j, (j < length (i_DFb first))%nat -> exists r, nth_error (i_DFb first) j = Some (Some r)).
Proof.
  intros inv solve Ns Nd extract R0 first second o.
  exact (ufte_accepts_only_first inv solve Ns Nd extract R0 first o).
Qed.
Print Assumptions C25_ufte_accepts_only_first.

(** If no input has been given, every form raises. *)
Theorem C25_nothing_given_raises :
  forall inv solve Ns Nd fm extract R0, (0 < Ns)%nat \/ (0 < Nd)%nat ->
    forall o, generate_output inv solve Ns Nd fm extract R0 (empty_vectors Ns Nd) (fun _ => empty_vectors Ns Nd) <> Ok o.
Proof. exact nothing_given_raises. Qed.
Print Assumptions C25_nothing_given_raises.

(** Findings: asking for the force on the wall in ufte form, and the form
    "stokes_drag_dumbbells_only", never return. *)
Theorem C25_extract_force_refuted :
  forall inv solve Ns Nd R0 first second,
    forall o, generate_output inv solve Ns Nd ufte true R0 first second <> Ok o.
Proof. intros inv solve Ns Nd R0 first second. exact (ufte_extract_fails inv solve Ns Nd R0 first). Qed.
Print Assumptions C25_extract_force_refuted.

Theorem C25_stokes_drag_form_refuted :
  forall inv solve Ns Nd extract R0 first second,
    generate_output inv solve Ns Nd stokes_drag_dumbbells_only extract R0 first second = Raise TypeError.
Proof. reflexivity. Qed.
Print Assumptions C25_stokes_drag_form_refuted.

(** Two spheres, the first with prescribed velocity; two dumbbells, the first
    with prescribed velocities; a diagonal resistance matrix with differing
    entries.  All hypotheses of C25_ufteu hold. *)
Definition exD : mat := fun i j => if Nat.eqb i j then INR (S i) else 0.
Definition z33 : list (list R) := [[0;1;0];[1;0;0];[0;0;0]].
Definition ex_in : inputs :=
  mkInputs [None; Some [1;0;0]] [Some [0;0;1]; Some [0;0;0]] [None; None]
           [None; Some [0;2;0]] [None; Some [1;1;1]]
           [Some [5;0;0]; None] [None; None] [Some z33; Some z33]
           [Some [1;2;3]; None] [Some [4;5;6]; None].

Example C25_ufteu_example :
  exists Rfte Rufte,
    msym 34 exD /\ inv_ok dinv 10 (slice exD 12 12) /\
    fts_to_fte_matrix dinv 2 2 exD = Ok Rfte /\ inv_ok dinv 3 (slice Rfte 0 0) /\
    fte_to_ufte_matrix dinv 1 2 2 Rfte = Ok Rufte /\
    inv_ok dinv 3 (slice Rufte 22 22) /\
    inv_ok dinv 3 (slice (ufte_to_ufteu_step1 dinv 1 1 2 2 Rufte) 28 28) /\
    solve_ok dsolve 34 (ufte_to_ufteu_matrix dinv 1 1 2 2 Rufte) /\
    split_given 2 1 (i_Ua ex_in) (i_Fa ex_in) /\ rest_missing 2 1 (i_Ua ex_in) /\
    all_given 2 3 (i_Ta ex_in) /\ all_given33 2 (i_Ea ex_in) /\
    split_given 2 1 (i_Ub ex_in) (i_Fb ex_in) /\ rest_missing 2 1 (i_Ub ex_in) /\
    split_given 2 1 (i_HalfDUb ex_in) (i_DFb ex_in).
Proof.
  assert (HS : msym 34 exD).
  { intros i j _ _. unfold exD. rewrite (Nat.eqb_sym j i). destruct (Nat.eqb_spec i j); [subst|]; reflexivity. }
  assert (HD : diagonal 34 exD).
  { split; unfold exD.
    - intros i j _ _ Hij. apply Nat.eqb_neq in Hij. rewrite Hij. reflexivity.
    - intros i _. rewrite Nat.eqb_refl. apply not_0_INR. discriminate. }
  destruct (diagonal_chain 2 2 1 1 exD ltac:(lia) ltac:(lia) ltac:(lia) HD HS)
    as (I1 & Rfte & E1 & _ & I2 & Rufte & E2 & _ & I3 & I4 & HSo).
  exists Rfte, Rufte.
  split; [exact HS|]. split; [exact I1|]. split; [exact E1|]. split; [exact I2|]. split; [exact E2|].
  split; [exact I3|]. split; [exact I4|]. split; [exact HSo|].
  assert (Hlt : forall i, (i < 1)%nat -> i = 0%nat) by (intros; lia).
  assert (Hge : forall i, (1 <= i < 2)%nat -> i = 1%nat) by (intros; lia).
  assert (Hsg : forall (a b c d : option (list R)) r s, a = Some r -> d = Some s -> length r = 3%nat -> length s = 3%nat ->
            split_given 2 1 [a; b] [c; d]).
  { intros a b c d r s -> -> Hr Hs. split; [lia|]. split; [reflexivity|]. split; [reflexivity|]. split.
    - intros i Hi. rewrite (Hlt i Hi). exists r. auto.
    - intros i Hi. rewrite (Hge i Hi). exists s. auto. }
  assert (H33 : length z33 = 3%nat /\ (forall r, In r z33 -> length r = 3%nat)).
  { split; [reflexivity|]. intros r [<-|[<-|[<-|[]]]]; reflexivity. }
  cbn [ex_in i_Ua i_Fa i_Ta i_Ea i_Ub i_Fb i_HalfDUb i_DFb].
  split; [eapply Hsg; reflexivity|].
  split; [intros i Hi; rewrite (Hge i Hi); reflexivity|].
  split; [split; [reflexivity|]; intros o [<-|[<-|[]]]; eexists; split; reflexivity|].
  split; [split; [reflexivity|]; intros o [<-|[<-|[]]]; exists z33; split; [reflexivity|exact H33|reflexivity|exact H33]|].
  split; [eapply Hsg; reflexivity|].
  split; [intros i Hi; rewrite (Hge i Hi); reflexivity|].
  eapply Hsg; reflexivity.
Qed.

(** Concrete run in fts form: one dumbbell, R = 2 * identity. *)
Example C25_fts_example :
  exists o, generate_output dinv dsolve 0 1 fts false (fun i j => if Nat.eqb i j then 2 else 0)
     (mkInputs [] [] [] [Some [2;4;6]] [Some [0;0;2]] [] [] [] [None] [None]) (fun _ => empty_vectors 0 1) = Ok o
   /\ o_Ub o = [[2/2; 4/2; 6/2]] /\ o_HalfDUb o = [[0/2; 0/2; 2/2]].
Proof. eexists. split; [reflexivity|]. split; reflexivity. Qed.
