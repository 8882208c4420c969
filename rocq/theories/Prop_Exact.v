(** C105: two spheres at a tabulated separation move exactly as tabulated; the
    tests' comparison with Lamb's solution. *)
From Coq Require Import Reals List Arith ZArith Bool Lia Lra.
From Verif Require Import Base Py Model_Pack Model_Mob Model_Minf Model_Grand Model_GrandP Model_R2B Model_Subtract Model_Output Model_Inputs Model_Frame
  Model_Setups Model_Sim Model_Lamb Model_Test
  Spec_Pack Spec_Minf Spec_Output Spec_Posdef Spec_Run Spec_Turn Spec_Scalars Spec_R2B Spec_Subtract Spec_Exact
   Proof_Two3 Proof_Output Proof_Posdef Proof_Posdef2 Prop_Posdef Prop_Lamb Proof_Exact2 Proof_Exact3 Proof_Exact4 Proof_Test Proof_Test2.
Import ListNotations.
Local Open Scope R_scope.

(** Scalars [x], [X] of two spheres; the table lists the resistance scalars of
    unit spheres beside others; the script subtracts from them.  Two spheres
    anywhere, of any radii with tabulated ratios, at a tabulated scaled
    separation within the cutoff, in a fluid of any viscosity: the simulation
    succeeds, keeps what is prescribed, and its answer obeys the mobility law of
    that pair, and the resistance law. *)
Theorem C105_pair x X lams srange raw inv solve bb x0 x1 a0 a1 cf mu fm i last verbose :
  let p := two_spheres x0 x1 a0 a1 in let r := norm (vsub x1 x0) in let d := vscal (/ r) (vsub x1 x0) in
  two_sphere_scalars x X -> tabulates X lams srange raw -> increasing srange -> distinguishable lams ->
  (forall l, In l lams -> 0 < l) -> (forall t, In t srange -> 2 < t) -> In 1 lams ->
  inverts_posdef inv -> solves_posdef solve ->
  0 < a0 -> 0 < a1 -> 0 < mu -> / 10 ^ 8 < r ->
  In (2 * r / (a0 + a1)) srange -> 2 * r / (a0 + a1) < 2 * cf -> In (a1 / a0) lams -> In (a0 / a1) lams ->
  well_posed 2 0 fm i -> given_st (i_Sa i) -> given_st (i_Ea i) ->
  exists Gr mi o,
    grand_resistance_free inv (XYZ (subtract_R2Binfinity inv bb lams srange raw) srange) lams bb p last true cf verbose false false mu = Ok (Gr, mi) /\
    generate_output inv solve 2 0 fm false Gr i (fun _ => i) = Ok o /\ answers 2 0 fm i Gr o /\
    let U := rowof (Model_Output.o_Ua o) in let O := rowof (Model_Output.o_Oa o) in let E := matof (Model_Output.o_Ea o) in
    let F := fun q k => rowof (Model_Output.o_Fa o) q k / mu in let T := fun q k => rowof (o_Ta o) q k / mu in
    let S := fun q k l => matof (Model_Output.o_Sa o) q k l / mu in
    mobility_law (x a0 a1 r) d U O F T E S /\ resistance_law (X a0 a1 r) d U O F T E S.
Proof.
  intros p r d HX HT Hinc Hdis Hpos Hap One Hinv Hsolve H0 H1 Hmu E8 Is Hc Il Il' W GS GE.
  destruct (run_pair x X lams srange raw HX HT Hinc Hdis Hpos Hap One inv solve bb Hinv Hsolve x0 x1 a0 a1 cf mu H0 H1 Hmu Hc Is Il Il' E8 fm i last verbose W GS GE)
    as (Gr & mi & o & EG & EO & HA & HE & _ & HR).
  exists Gr, mi, o. split; [exact EG|]. split; [exact EO|]. split; [exact HA|]. cbv zeta. split; [|exact HR].
  assert (Ap : a0 + a1 < r).
  { pose proof (Hap _ Is) as Q. apply Rmult_lt_reg_r with (2 / (a0 + a1)); [apply Rdiv_lt_0_compat; lra|].
    replace ((a0 + a1) * (2 / (a0 + a1))) with 2 by (field; lra). replace (r * (2 / (a0 + a1))) with (2 * r / (a0 + a1)) by (field; lra). exact Q. }
  apply (proj1 HX a0 a1 r); [exact H0|exact H1|exact Ap| |exact HE|exact HR].
  assert (R0 : r <> 0) by lra. unfold unit_vector, d, vscal. pose proof (norm_sqr (vsub x1 x0)) as N. fold r in N.
  set (v := vsub x1 x0) in *. transitivity (/ r * / r * (v 0%nat * v 0%nat + v 1%nat * v 1%nat + v 2%nat * v 2%nat)); [ring|]. rewrite <- N. field. exact R0.
Qed.
Print Assumptions C105_pair.

(** One line of the file: the number of groups that differ, none exactly if all
    22 numbers are within the tolerance. *)
Theorem C105_compare line U O S : two_answers U O S -> (22 <= length line)%nat ->
  exists w, uos_compare line U O S = Ok w /\ (w <= 3)%nat /\
    (w = 0%nat <-> forall k, (k < 22)%nat -> within (nth k line 0) (nth k (numbers U O S) 0)).
Proof. exact (compare_counts line U O S). Qed.
Print Assumptions C105_compare.

(** The whole file, given the simulation's numbers [sd] for the 88 problems: the
    test passes exactly if every number of every line is within the tolerance;
    a file of more than 88 lines raises IndexError. *)
Theorem C105_verdict inv solve sc table bb cf ts verbose sd rows :
  (forall k, (k < 88)%nat -> exists U O S,
     fte_mobility_solve_nonperiodic inv solve sc table bb cf ts verbose (setup_of_row k) (input_of_row k) = Ok (U, O, S) /\
     two_answers U O S /\ sd k = numbers U O S) ->
  (forall line, In line rows -> (22 <= length line)%nat) ->
  let test := test_against_lamb inv solve sc table bb cf ts verbose (map Some rows) in
  ((length rows <= 88)%nat -> exists b, test = Ok b /\
     (b = true <-> forall k m, (k < length rows)%nat -> (m < 22)%nat -> within (nth m (nth k rows []) 0) (nth m (sd k) 0))) /\
  ((88 < length rows)%nat -> test = Raise IndexError).
Proof.
  intros Hsd HR test. split; intros HL; unfold test, test_against_lamb.
  - destruct (count_verdict inv solve sc table bb cf ts verbose sd Hsd rows 0%nat HL HR) as (n & En & Hn). rewrite En. cbn [bind].
    eexists. split; [reflexivity|]. rewrite Nat.eqb_eq. exact Hn.
  - rewrite (count_long inv solve sc table bb cf ts verbose sd Hsd rows 0%nat HL ltac:(lia) HR). reflexivity.
Qed.
Print Assumptions C105_verdict.

(** The rows written by generate_lambs_solution.py from a program [lamb] that
    solves the mobility problem with the scalars [x]. *)
Definition lamb_rows (lamb : R -> R -> R -> case -> nat -> R) : list (list R) :=
  map (fun t => match t with (s, r1, r2, c) => map (written (lamb r1 r2 s c)) (seq 0 22) end) problems.

(** If the table and the file come from the same scalars, the test passes; each
    number compared is equal, not only close. *)
Theorem C105_suite x X lams srange raw inv solve bb cf ts verbose lamb :
  two_sphere_scalars x X -> tabulates X lams srange raw -> increasing srange -> distinguishable lams ->
  (forall l, In l lams -> 0 < l) -> (forall t, In t srange -> 2 < t) ->
  (In 1 lams /\ In (1 / 10) lams /\ In 10 lams) -> (In (21 / 10) srange /\ In (39 / 10) srange) ->
  inverts_posdef inv -> solves_posdef solve -> 39 / 20 < cf ->
  (forall r1 r2 s, 0 < r1 -> 0 < r2 -> r1 + r2 < s -> solves (lamb r1 r2 s) (x r1 r2 s)) ->
  let sc := XYZ (subtract_R2Binfinity inv bb lams srange raw) srange in
  (forall k, (k < 88)%nat -> exists U O S,
     fte_mobility_solve_nonperiodic inv solve sc lams bb cf ts verbose (setup_of_row k) (input_of_row k) = Ok (U, O, S) /\
     two_answers U O S /\ nth k (lamb_rows lamb) [] = numbers U O S) /\
  test_against_lamb inv solve sc lams bb cf ts verbose (map Some (lamb_rows lamb)) = Ok true.
Proof.
  intros HX HT Hinc Hdis Hpos Hap Hl Hs Hinv Hsolve Hcf Hlamb sc.
  assert (LP : length problems = 88%nat) by reflexivity.
  assert (K : forall k, (k < 88)%nat -> exists U O S,
     fte_mobility_solve_nonperiodic inv solve sc lams bb cf ts verbose (setup_of_row k) (input_of_row k) = Ok (U, O, S) /\
     two_answers U O S /\ nth k (lamb_rows lamb) [] = numbers U O S).
  { intros k Hk. destruct (nth_error problems k) as [[[[s r1] r2] c]|] eqn:E; [|apply nth_error_None in E; lia].
    destruct (row_exact x X lams srange raw HX HT Hinc Hdis Hpos Hap Hl Hs inv solve bb Hinv Hsolve cf ts verbose Hcf lamb Hlamb k s r1 r2 c E) as (U & O & S & ER & HA & HN).
    exists U, O, S. split; [exact ER|]. split; [exact HA|].
    assert (Q : nth_error (lamb_rows lamb) k = Some (map (written (lamb r1 r2 s c)) (seq 0 22))) by (unfold lamb_rows; rewrite nth_error_map, E; reflexivity).
    rewrite (nth_error_nth _ _ [] Q). apply nth_ext with (d := 0) (d' := 0).
    - rewrite map_length, seq_length. symmetry. apply (numbers_nth U O S HA).
    - intros m Hm. rewrite map_length, seq_length in Hm. rewrite (HN m Hm). rewrite (nth_indep _ 0 (written (lamb r1 r2 s c) 0%nat)) by (rewrite map_length, seq_length; exact Hm).
      rewrite map_nth, seq_nth by exact Hm. reflexivity. }
  split; [exact K|].
  assert (L : length (lamb_rows lamb) = 88%nat) by (unfold lamb_rows; rewrite map_length; exact LP).
  destruct (C105_verdict inv solve sc lams bb cf ts verbose (fun k => nth k (lamb_rows lamb) []) (lamb_rows lamb) K) as [V _].
  { intros line H. unfold lamb_rows in H. apply in_map_iff in H. destruct H as ((((s, r1), r2), c) & <- & _). rewrite map_length, seq_length. lia. }
  destruct (V ltac:(lia)) as (b & Eb & Hb). rewrite Eb. f_equal. apply Hb. intros k m _ _. apply within_refl.
Qed.
Print Assumptions C105_suite.

(** Finding: a file cut short passes as well, even one with the header only. *)
Theorem C105_truncated_refuted inv solve sc table bb cf ts verbose :
  test_against_lamb inv solve sc table bb cf ts verbose [] = Ok true /\
  forall rows n, test_against_lamb inv solve sc table bb cf ts verbose rows = Ok true ->
    test_against_lamb inv solve sc table bb cf ts verbose (firstn n rows) = Ok true.
Proof.
  split; [reflexivity|]. intros rows n H. unfold test_against_lamb in *.
  assert (G : forall rows i n, count_wrong inv solve sc table bb cf ts verbose i rows = Ok 0%nat ->
    count_wrong inv solve sc table bb cf ts verbose i (firstn n rows) = Ok 0%nat).
  { clear. induction rows as [|row rows IH]; intros i [|n] H; try reflexivity. cbn [firstn count_wrong] in *.
    destruct (i / 11 <? 8)%nat; [|discriminate]. destruct (fte_mobility_solve_nonperiodic _ _ _ _ _ _ _ _ _ _) as [[uo s]|]; [|discriminate]. cbn [bind] in *.
    destruct row as [line|]; [|discriminate]. destruct (uos_compare _ _ _ _) as [w|]; [|discriminate]. cbn [bind] in *.
    destruct (count_wrong inv solve sc table bb cf ts verbose (S i) rows) as [c|] eqn:E; [|discriminate]. cbn [bind] in H. injection H as H.
    assert (c = 0%nat) by lia. subst c. rewrite (IH (S i) n E). cbn [bind]. rewrite H. reflexivity. }
  destruct (count_wrong inv solve sc table bb cf ts verbose 0 rows) as [c|] eqn:E; [|discriminate]. cbn [bind] in H. injection H as H. apply Nat.eqb_eq in H. subst c.
  rewrite (G rows 0%nat n E). reflexivity.
Qed.
Print Assumptions C105_truncated_refuted.

(** A table of five ratios and two separations meeting every hypothesis, with
    scalars of spheres interacting along their line of centres and the program
    that evaluates their mobility law. *)
Definition exL : list R := [1 / 10; 1 / 2; 1; 2; 10].
Definition exS : list R := [21 / 10; 39 / 10].
Definition exRaw (n g si li : nat) : R :=
  let lam := nth li exL 0 in scalar (ex_X 1 lam ((1 + lam) / 2 * nth si exS 0)) n 0 g / table_scale n.
Lemma ex_table : tabulates ex_X exL exS exRaw /\ increasing exS /\ distinguishable exL /\
  (forall l, In l exL -> 0 < l) /\ (forall t, In t exS -> 2 < t).
Proof.
  split; [intros n g si li _ _ _ _; reflexivity|]. split.
  - intros i j Hij Hj. cbn in Hj. destruct j as [|[|j]]; [lia| |lia]. destruct i as [|i]; [cbn; lra|lia].
  - split; [|split; [intros l Hl|intros t Ht]].
    + assert (T8 : / 10 ^ 8 < / 100) by (apply Rinv_lt_contravar; simpl; lra).
      assert (T5 : / 10 ^ 5 < / 1000) by (apply Rinv_lt_contravar; simpl; lra).
      intros l l' Hl Hl' N. cbn in Hl, Hl'.
      destruct Hl as [<-|[<-|[<-|[<-|[<-|[]]]]]]; destruct Hl' as [<-|[<-|[<-|[<-|[<-|[]]]]]]; try (exfalso; apply N; reflexivity); clear N;
        unfold Rabs; repeat destruct (Rcase_abs _); lra.
    + cbn in Hl. destruct Hl as [<-|[<-|[<-|[<-|[<-|[]]]]]]; lra.
    + cbn in Ht. destruct Ht as [<-|[<-|[]]]; lra.
Qed.
Example C105_suite_example :
  test_against_lamb pinv psolve (XYZ (subtract_R2Binfinity pinv true exL exS exRaw) exS) exL true 2 1 false
    (map Some (lamb_rows (fun r1 r2 s => lawful (ex_x r1 r2 s)))) = Ok true.
Proof.
  destruct ex_table as (A & B & C & D & E).
  refine (proj2 (C105_suite ex_x ex_X exL exS exRaw pinv psolve true 2 1 false _ ex_two_spheres A B C D E _ _ _ _ _ _)).
  - repeat split; cbn; auto 7.
  - split; cbn; auto.
  - first [exact pinv_ok|exact psolve_ok].
  - first [exact pinv_ok|exact psolve_ok].
  - lra.
  - intros r1 r2 s _ _ _. apply lawful_solves.
Qed.
(** Spheres of radii 2 and 4 with centres 6.3 apart in a fluid of viscosity 3,
    pulled by forces; also a tensor given as stresslet. *)
Example C105_pair_example :
  exists Gr mi o,
    grand_resistance_free pinv (XYZ (subtract_R2Binfinity pinv true exL exS exRaw) exS) exL true
      (two_spheres (v3 0 0 0) (v3 0 0 (63 / 10)) 2 4) mzero true 2 false false false 3 = Ok (Gr, mi) /\
    generate_output pinv psolve 2 0 fts false Gr
      (mkInputs [Some [1; 0; 2]; Some [0; 5; 0]] [Some [0; 0; 1]; Some [0; 0; 0]] [Some [[1; 2; 0]; [2; -1; 0]; [0; 0; 0]]; Some zeros33] [] []
         [None; None] [None; None] [None; None] [] []) (fun _ =>
      (mkInputs [Some [1; 0; 2]; Some [0; 5; 0]] [Some [0; 0; 1]; Some [0; 0; 0]] [Some [[1; 2; 0]; [2; -1; 0]; [0; 0; 0]]; Some zeros33] [] []
         [None; None] [None; None] [None; None] [] [])) = Ok o /\
    mobility_law (ex_x 2 4 (63 / 10)) (v3 0 0 1) (rowof (Model_Output.o_Ua o)) (rowof (Model_Output.o_Oa o))
      (fun q k => rowof (Model_Output.o_Fa o) q k / 3) (fun q k => rowof (o_Ta o) q k / 3)
      (matof (Model_Output.o_Ea o)) (fun q k l => matof (Model_Output.o_Sa o) q k l / 3).
Proof.
  destruct ex_table as (A & B & C & D & E).
  set (i := mkInputs _ _ _ _ _ _ _ _ _ _).
  assert (EN : norm (vsub (v3 0 0 (63 / 10)) (v3 0 0 0)) = 63 / 10).
  { unfold norm, vsub. cbn [v3]. replace (_ + _) with ((63 / 10) ^ 2) by field. apply sqrt_pow2. lra. }
  assert (ED : vscal (/ (63 / 10)) (vsub (v3 0 0 (63 / 10)) (v3 0 0 0)) = v3 0 0 1).
  { apply FunctionalExtensionality.functional_extensionality. intros k. unfold vscal, vsub. destruct k as [|[|[|k]]]; cbn [v3]; field. }
  pose proof (C105_pair ex_x ex_X exL exS exRaw pinv psolve true (v3 0 0 0) (v3 0 0 (63 / 10)) 2 4 2 3 fts i mzero false) as H. cbv zeta in H.
  rewrite EN, ED in H.
  destruct H as (Gr & mi & o & H1 & H2 & _ & H3 & _); try assumption; try first [exact pinv_ok|exact psolve_ok]; try lra; try exact ex_two_spheres.
  - cbn; auto 7.
  - replace (2 * (63 / 10) / (2 + 4)) with (21 / 10) by field. cbn; auto.
  - replace (4 / 2) with 2 by field. cbn; auto 7.
  - replace (2 / 4) with (1 / 2) by field. cbn; auto 7.
  - assert (G : forall a b : list R, length a = 3%nat -> length b = 3%nat -> all_given 2 3 [Some a; Some b]).
    { intros a b La Lb. split; [reflexivity|]. intros t [<-|[<-|[]]]; eexists; split; try reflexivity; assumption. }
    assert (N : all_given 0 3 []) by (split; [reflexivity|intros t []]).
    split; [apply G; reflexivity|]. cbn [i_Ua i_Fa i_Sa i_Fb i_DFb i]. split; [reflexivity|]. split; [apply G; reflexivity|]. split; [|split; exact N].
    split; [reflexivity|]. intros t [<-|[<-|[]]]; (eexists; split; [reflexivity|]; split; [reflexivity|]; intros r Hr; destruct Hr as [<-|[<-|[<-|[]]]]; reflexivity).
  - intros t [Q|[Q|[]]]; injection Q as <-; (split; [split; [reflexivity|intros r Hr; destruct Hr as [<-|[<-|[<-|[]]]]; reflexivity]|split; [intros a b Ha Hb; idx3 Ha; idx3 Hb; reflexivity|cbn; ring]]).
  - intros t [Q|[Q|[]]]; discriminate.
  - exists Gr, mi, o. split; [exact H1|]. split; [exact H2|exact H3].
Qed.
(** The two values of a line differ beyond the tolerance: seen. *)
Example C105_compare_example :
  two_answers [[1; 0; 0]; [0; 0; 0]] [[0; 0; 0]; [0; 0; 0]] [zeros33; zeros33] /\ within (1001 / 1000) 1 /\ ~ within (1002 / 1000) 1.
Proof.
  assert (T8 : 0 < / 10 ^ 8 < / 1000000) by (split; [apply Rinv_0_lt_compat; simpl; lra|apply Rinv_lt_contravar; simpl; lra]).
  assert (T3 : / 10 ^ 3 = 1 / 1000) by (simpl; field).
  split; [|unfold within; rewrite T3; split; [|intros H; revert H; apply Rlt_not_le]; unfold Rabs; repeat destruct (Rcase_abs _); lra].
  split; [|split; [|split; [reflexivity|]]]; try (split; [reflexivity|intros r [<-|[<-|[]]]; reflexivity]).
  intros t [<-|[<-|[]]]; (split; [reflexivity|intros r [<-|[<-|[<-|[]]]]; reflexivity]).
Qed.
