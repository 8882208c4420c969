(** The simulation of two spheres at a tabulated separation gives the tabulated
    flow. *)
From Coq Require Import Reals Arith List Bool Lra Lia.
From Verif Require Import Base Py Model_Mob Model_Pack Model_Minf Model_Grand Model_GrandP Model_R2B Model_Close Model_Subtract Model_Output Model_Inputs Model_Frame
  Spec_Pack Spec_Layout Spec_Minf Spec_Convert Spec_Output Spec_Posdef Spec_Run Spec_Turn Spec_Two Spec_Scalars Spec_Rotate Spec_R2B Spec_Close Spec_Subtract Spec_Exact
  Proof_Rotate3 Proof_Layout Proof_GrandP Proof_Close Proof_R2B Proof_R2B4 Proof_Posdef Proof_Turn2 Proof_Linear Proof_Subtract3 Proof_Subtract4 Proof_Subtract7
  Proof_Close Proof_R2B3 Proof_Startup Proof_Subtract3  Prop_Two Prop_Subtract Prop_Linear Proof_Exact1 Proof_Exact2.
Import ListNotations.
Local Open Scope R_scope.

Lemma listed_found tb l k : In l tb -> lam_index_from k tb l <> None.
Proof.
  revert k. induction tb as [|y tb IH]; intros k HI; [destruct HI|]. cbn [lam_index_from]. destruct (isclose y l) eqn:C; [discriminate|].
  destruct HI as [->|HI]; [|apply IH; exact HI]. exfalso. revert C. apply not_false_iff_true. apply isclose_true. rewrite Rminus_diag_eq by reflexivity. rewrite Rabs_R0.
  assert (0 < / 10 ^ 8) by (apply Rinv_0_lt_compat, pow_lt; lra). assert (0 < / 10 ^ 5) by (apply Rinv_0_lt_compat, pow_lt; lra).
  pose proof (Rabs_pos l). assert (0 <= / 10 ^ 5 * Rabs l) by (apply Rmult_le_pos; lra). lra.
Qed.
Lemma pair_some sc table bb x0 x1 a0 a1 cf mu : 0 < cf -> 0 < a0 -> 0 < a1 -> In 1 table -> In (a1 / a0) table -> In (a0 / a1) table ->
  exists G, generate_R2Bexact_free sc table bb (two_spheres x0 x1 a0 a1) cf mu = Some G.
Proof.
  intros Hcf H0 H1 I1 I2 I3. set (p := two_spheres x0 x1 a0 a1). unfold generate_R2Bexact_free, generate_R2Bexact.
  destruct (generate_R2Bexact_loop sc table bb (bead_sizes p) (num_spheres p) (num_dumbbells p) (close_particles_free (bead_positions p) (bead_sizes p) (num_spheres p + 2 * num_dumbbells p) cf)) as [M|] eqn:E; [eexists; reflexivity|exfalso].
  apply (loop_fails_iff sc table bb _ _ _ _ (num_spheres p + 2 * num_dumbbells p)%nat) in E; [|apply free_close_list; exact Hcf|apply (sizes_pos x0 x1 a0 a1 H0 H1)].
  destruct E as (t & Ht & HN). apply free_in in Ht. destruct Ht as (Hbb & _ & Et). change (num_spheres p + 2 * num_dumbbells p)%nat with 2%nat in Hbb.
  assert (Q : cp_ratio t = 1 \/ cp_ratio t = a1 / a0).
  { rewrite Et. unfold free_record. cbn [cp_ratio]. destruct (cp1 t) as [|[|c]]; [| |lia]; (destruct (cp2 t) as [|[|c']]; [| |lia]); try lia;
      unfold bead_sizes; cbn -[Rdiv]; [left; field; lra|right; reflexivity|left; field; lra]. }
  unfold lam_index in HN. destruct Q as [Q|Q]; rewrite Q in HN.
  - replace (1 / 1) with 1 in HN by field. destruct HN as [HN|HN]; exact (listed_found table 1 0%nat I1 HN).
  - replace (1 / (a1 / a0)) with (a0 / a1) in HN by (field; lra). destruct HN as [HN|HN]; [exact (listed_found table _ 0%nat I2 HN)|exact (listed_found table _ 0%nat I3 HN)].
Qed.

Lemma law_ext X d U O F T E S U' O' F' T' E' S' :
  (forall p i, (p < 2)%nat -> (i < 3)%nat -> U p i = U' p i /\ O p i = O' p i /\ F p i = F' p i /\ T p i = T' p i) ->
  (forall p i j, (p < 2)%nat -> (i < 3)%nat -> (j < 3)%nat -> E p i j = E' p i j /\ S p i j = S' p i j) ->
  resistance_law X d U O F T E S -> resistance_law X d U' O' F' T' E' S'.
Proof.
  intros H HE (A & B & C). split; [|split].
  - intros p i Hp Hi. rewrite <- (proj1 (proj2 (proj2 (H p i Hp Hi)))), (A p i Hp Hi). apply rsum_ext. intros q Hq.
    f_equal; [f_equal|]; apply rsum_ext; intros j Hj; [| |apply rsum_ext; intros k Hk]; f_equal; try apply (H q j Hq Hj). apply (HE q j k Hq Hj Hk).
  - intros p i Hp Hi. rewrite <- (proj2 (proj2 (proj2 (H p i Hp Hi)))), (B p i Hp Hi). apply rsum_ext. intros q Hq.
    f_equal; [f_equal|]; apply rsum_ext; intros j Hj; [| |apply rsum_ext; intros k Hk]; f_equal; try apply (H q j Hq Hj). apply (HE q j k Hq Hj Hk).
  - intros p i j Hp Hi Hj. rewrite <- (proj2 (HE p i j Hp Hi Hj)), (C p i j Hp Hi Hj). apply rsum_ext. intros q Hq.
    f_equal; [f_equal|]; apply rsum_ext; intros k Hk; [| |apply rsum_ext; intros l Hl]; f_equal; try apply (H q k Hq Hk). apply (HE q k l Hq Hk Hl).
Qed.

Lemma tens_scal u c p i j : (i < 3)%nat -> (j < 3)%nat -> tens (fun t => u t * c) p i j = tens u p i j * c.
Proof. intros Hi Hj. unfold tens, tensor_of, vecs, get2, uncondense1. idx3 Hi; idx3 Hj; cbn [nth]; unfold Rdiv; ring. Qed.

Section Run.
Variables (x X : R -> R -> R -> nat -> R) (lams srange : list R) (raw : nat -> nat -> nat -> nat -> R).
Hypothesis HX : two_sphere_scalars x X.
Hypothesis HT : tabulates X lams srange raw.
Hypothesis Hinc : increasing srange.
Hypothesis Hdis : distinguishable lams.
Hypothesis Hpos : forall l, In l lams -> 0 < l.
Hypothesis Hapart : forall t, In t srange -> 2 < t.
Hypothesis One : In 1 lams.
Variables (inv : nat -> mat -> mat) (solve : nat -> mat -> list R -> list R) (bb : bool).
Hypothesis Hinv : inverts_posdef inv.
Hypothesis Hsolve : solves_posdef solve.
Variables (x0 x1 : vec) (a0 a1 cf mu : R).
Let p := two_spheres x0 x1 a0 a1.
Let r := norm (vsub x1 x0).
Hypothesis H0 : 0 < a0.
Hypothesis H1 : 0 < a1.
Hypothesis Hmu : 0 < mu.
Hypothesis Hclose : 2 * r / (a0 + a1) < 2 * cf.
Hypothesis Is : In (2 * r / (a0 + a1)) srange.
Hypothesis Il : In (a1 / a0) lams.
Hypothesis Il' : In (a0 / a1) lams.
Hypothesis E8 : / 10 ^ 8 < r.

Lemma apart : a0 + a1 < r.
Proof.
  pose proof (Hapart _ Is) as H. apply Rmult_lt_reg_r with (2 / (a0 + a1)); [apply Rdiv_lt_0_compat; lra|].
  replace ((a0 + a1) * (2 / (a0 + a1))) with 2 by (field; lra). replace (r * (2 / (a0 + a1))) with (2 * r / (a0 + a1)) by (field; lra). exact H.
Qed.
Lemma cf_pos : 0 < cf.
Proof. pose proof (Hapart _ Is). lra. Qed.
Lemma tiny_one y : 1 < y -> / 10 ^ 8 < y.
Proof. intros H. apply Rlt_trans with 1; [|exact H]. rewrite <- Rinv_1. apply Rinv_lt_contravar; simpl; lra. Qed.
Lemma ratio_one a a' : 0 < a -> a + a' < r -> 0 < a' -> 1 < r / a.
Proof. intros A B C. apply Rmult_lt_reg_r with a; [exact A|]. unfold Rdiv. rewrite Rmult_assoc, Rinv_l by lra. lra. Qed.

Lemma far_inverted : is_inv 22 (generate_Minfinity bb p mu) (inv 22%nat (generate_Minfinity bb p mu)).
Proof.
  apply (Hinv 22%nat). apply (C92_far_field bb p mu Hmu). apply (proj1 C92_room); [exact H0|exact H1|].
  change (/ 10 ^ 8 < norm (vsub x0 x1)). rewrite norm_flip. exact E8.
Qed.
Lemma table_inverted lam t : In lam lams -> In t srange ->
  is_inv 22 (generate_Minfinity bb (pair_posdata lam t) 1) (inv 22%nat (generate_Minfinity bb (pair_posdata lam t) 1)).
Proof.
  intros L T. pose proof (Hpos lam L) as HL. pose proof (Hapart t T) as Ht.
  apply (Hinv 22%nat). apply (C92_far_field bb (pair_posdata lam t) 1 Rlt_0_1). apply (proj1 C92_room); [exact Rlt_0_1|exact HL|].
  change (/ 10 ^ 8 < norm (vsub (v3 0 0 0) (v3 (t * (1 + lam) * (1 / 2)) 0 0))). rewrite norm_flip. apply tiny_one.
  replace (norm _) with (t * (1 + lam) * (1 / 2)).
  - assert (2 * 1 < t * (1 + lam)) by (apply Rmult_gt_0_lt_compat; lra). lra.
  - unfold norm, vsub. cbn [v3]. set (s := t * (1 + lam) * (1 / 2)). replace (_ + _) with (s ^ 2) by (unfold s; ring).
    symmetry. apply sqrt_pow2. unfold s. assert (0 < t * (1 + lam)) by (apply Rmult_lt_0_compat; lra). lra.
Qed.

Theorem run_pair fm i last verbose : well_posed 2 0 fm i -> given_st (i_Sa i) -> given_st (i_Ea i) ->
  exists Gr mi o,
    grand_resistance_free inv (XYZ (subtract_R2Binfinity inv bb lams srange raw) srange) lams bb p last true cf verbose false false mu = Ok (Gr, mi) /\
    generate_output inv solve 2 0 fm false Gr i (fun _ => i) = Ok o /\ answers 2 0 fm i Gr o /\
    strains (matof (Model_Output.o_Ea o)) /\ strains (matof (Model_Output.o_Sa o)) /\
    resistance_law (X a0 a1 r) (vscal (/ r) (vsub x1 x0)) (rowof (Model_Output.o_Ua o)) (rowof (Model_Output.o_Oa o))
      (fun q k => rowof (Model_Output.o_Fa o) q k / mu) (fun q k => rowof (o_Ta o) q k / mu)
      (matof (Model_Output.o_Ea o)) (fun q k l => matof (Model_Output.o_Sa o) q k l / mu).
Proof.
  intros W GS GE.
  destruct (pair_some (XYZ raw srange) lams bb x0 x1 a0 a1 cf mu cf_pos H0 H1 One Il Il') as [G HG].
  destruct (pair_some (XYZ (subtract_R2Binfinity inv bb lams srange raw) srange) lams bb x0 x1 a0 a1 cf mu cf_pos H0 H1 One Il Il') as [Gd HGd].
  pose proof apart as Hap. assert (Hr : 0 < r) by lra.
  assert (RR : exists Gr mi, grand_resistance_free inv (XYZ (subtract_R2Binfinity inv bb lams srange raw) srange) lams bb p last true cf verbose false false mu = Ok (Gr, mi)).
  { unfold grand_resistance_free. fold p in HGd. rewrite HGd. cbn [add_near bind orb negb]. rewrite andb_false_r. do 2 eexists. reflexivity. }
  destruct RR as (Gr & mi & HR).
  assert (EQ : forall k l, (k < 22)%nat -> (l < 22)%nat -> Gr k l = G k l).
  { apply (C67_isolated_pair inv bb lams srange raw x0 x1 a0 a1 last cf verbose mu G Gr mi); try assumption; fold r p.
    - lra.
    - apply tiny_one. apply (ratio_one a0 a1); assumption.
    - apply tiny_one. apply (ratio_one a1 a0); lra.
    - intros lam t. apply table_inverted.
    - apply far_inverted. }
  assert (SG : msym 22 G) by (apply (gen_r2b_sym _ _ _ _ _ _ _ _ _ HG)).
  assert (PG : pos_def 22 G).
  { apply (near_pos_def x X lams srange raw HX HT Hinc Hdis x0 x1 a0 a1 cf mu bb G H0 H1 cf_pos Hclose Is Il Il' Hap HG Hmu). }
  assert (SR : msym (11 * 2 + 6 * 0) Gr) by (intros k l Hk Hl; rewrite !EQ by assumption; apply SG; assumption).
  assert (LR : forall u f, linrel 22 Gr u f -> linrel 22 G u f).
  { intros u f L k Hk. rewrite (L k Hk). apply rsum_ext. intros l Hl. rewrite EQ by assumption. reflexivity. }
  assert (PR : pos_def (11 * 2 + 6 * 0) Gr) by (intros u f L N; apply PG; [apply LR; exact L|exact N]).
  destruct (well_answered inv solve 2 0 fm Gr i Hinv Hsolve ltac:(lia) SR PR W) as (o & HO & HA).
  exists Gr, mi, o. split; [exact HR|]. split; [exact HO|]. split; [exact HA|].
  assert (TS : forall j, (j < 2)%nat -> st (matof (Model_Output.o_Sa o) j) /\ st (matof (Model_Output.o_Ea o) j)).
  { intros j Hj. exact (answer_tensors 2 0 fm i Gr o j GS GE HA Hj). }
  split; [intros q Hq; apply (TS q Hq)|]. split; [intros q Hq; apply (TS q Hq)|].
  destruct (grand_of 2 0 fm Gr i o HA) as (u & f & L & B).
  assert (BS : forall k q c, k <> KB -> (q < 2)%nat -> (c < ksize k)%nat -> vecs k u q c = vel 2 0 o k q c /\ vecs k f q c = frc 2 0 o k q c).
  { intros k q c N Hq Hc. apply B; [destruct k; cbn; lia || congruence|exact Hc]. }
  apply (law_ext _ _ (vecs KU u) (vecs KO u) (vecs KU (fun t => f t / mu)) (vecs KO (fun t => f t / mu)) (tens u) (tens (fun t => f t / mu))).
  - intros q c Hq Hc. destruct (BS KU q c ltac:(discriminate) Hq Hc) as [A1 A2]. destruct (BS KO q c ltac:(discriminate) Hq Hc) as [A3 A4].
    split; [exact A1|]. split; [exact A3|]. unfold vecs in *. rewrite A2, A4. split; reflexivity.
  - intros q k l Hq Hk Hl. destruct (TS q Hq) as [T1 T2]. split.
    + rewrite <- (tensor_condense _ k l T2 Hk Hl). apply tensor_ext. intros m Hm. apply (BS KS q m ltac:(discriminate) Hq Hm).
    + rewrite <- (tensor_condense _ k l T1 Hk Hl). transitivity (tens f q k l * / mu); [apply (tens_scal f (/ mu) q k l Hk Hl)|]. unfold Rdiv. f_equal. apply tensor_ext. intros m Hm. apply (BS KS q m ltac:(discriminate) Hq Hm).
  - exact (near_law x X lams srange raw HX HT Hinc Hdis x0 x1 a0 a1 cf mu bb G H0 H1 cf_pos Hclose Is Il Il' Hap HG Hmu u f (LR u f L)).
Qed.
End Run.
