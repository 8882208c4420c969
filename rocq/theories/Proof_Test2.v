(** The simulations of the test are exact. *)
From Coq Require Import Reals List Arith ZArith Bool Lia Lra FunctionalExtensionality.
From Verif Require Import Base Py Model_Pack Model_Mob Model_Minf Model_Grand Model_GrandP Model_R2B Model_Subtract Model_Output Model_Inputs Model_Frame
  Model_Setups Model_Sim Model_Lamb Model_Test
  Spec_Pack Spec_Minf Spec_Output Spec_Posdef Spec_Run Spec_Turn Spec_Scalars Spec_R2B Spec_Subtract Spec_Exact
  Proof_Pack Proof_Output Proof_Turn2 Prop_Lamb Proof_Exact2 Proof_Exact3 Proof_Test.
Import ListNotations.
Local Open Scope R_scope.

Lemma mob_functional x d U O F T E S U' O' F' T' E' S' :
  mobility_law x d U O F T E S -> mobility_law x d U' O' F' T' E' S' ->
  (forall p i, (p < 2)%nat -> (i < 3)%nat -> F p i = F' p i /\ T p i = T' p i) ->
  (forall p i j, (p < 2)%nat -> (i < 3)%nat -> (j < 3)%nat -> E p i j = E' p i j) ->
  (forall p i, (p < 2)%nat -> (i < 3)%nat -> U p i = U' p i /\ O p i = O' p i) /\
  (forall p i j, (p < 2)%nat -> (i < 3)%nat -> (j < 3)%nat -> S p i j = S' p i j).
Proof.
  intros (A & B & C) (A' & B' & C') H HE. split; [intros p i Hp Hi; split|intros p i j Hp Hi Hj].
  - rewrite (A p i Hp Hi), (A' p i Hp Hi). apply rsum_ext. intros q Hq.
    f_equal; [f_equal|]; apply rsum_ext; intros j Hj; [| |apply rsum_ext; intros k Hk]; f_equal; try apply (H q j Hq Hj). apply (HE q j k Hq Hj Hk).
  - rewrite (B p i Hp Hi), (B' p i Hp Hi). apply rsum_ext. intros q Hq.
    f_equal; [f_equal|]; apply rsum_ext; intros j Hj; [| |apply rsum_ext; intros k Hk]; f_equal; try apply (H q j Hq Hj). apply (HE q j k Hq Hj Hk).
  - rewrite (C p i j Hp Hi Hj), (C' p i j Hp Hi Hj). apply rsum_ext. intros q Hq.
    f_equal; [f_equal|]; apply rsum_ext; intros k Hk; [| |apply rsum_ext; intros l Hl]; f_equal; try apply (H q k Hq Hk). apply (HE q k l Hq Hk Hl).
Qed.

Lemma tests_setup n u : pos_setup_tests n = Ok u -> u = spheres_only (u_ss u) (u_sp u).
Proof.
  unfold pos_setup_tests. cbv zeta. intros H.
  repeat match type of H with
  | (match ?z with _ => _ end) = Ok _ => destruct z; try discriminate H; try (injection H as <-; reflexivity)
  end.
Qed.
Lemma tests_input n p fr ts i fl : (n < 0)%Z -> input_ftsuoe n fte 2 0 p fr ts = Ok (i, fl) ->
  fl = default_flow /\ i_Sa i = [None; None] /\ i_Fb i = [] /\ i_DFb i = [].
Proof.
  intros Hn H. unfold input_ftsuoe in H. rewrite (proj2 (Z.ltb_lt n 0) Hn) in H.
  destruct (input_ftsuoe_tests n (default_inputs fte 2 0)) as [i'|] eqn:E; [|discriminate]. cbn [bind] in H. injection H as <- <-.
  split; [reflexivity|]. unfold input_ftsuoe_tests in E. cbv zeta in E.
  repeat match type of E with
  | (match ?z with _ => _ end) = Ok _ => destruct z; try discriminate E; try (cbn in E; injection E as <-; repeat split; reflexivity)
  end.
Qed.

Lemma beads_same x0 x1 r1 r2 :
  bead_positions (posdata_of 2 0 (config_of (spheres_only [r1; r2] [x0; x1]))) = bead_positions (two_spheres x0 x1 r1 r2) /\
  bead_sizes (posdata_of 2 0 (config_of (spheres_only [r1; r2] [x0; x1]))) = bead_sizes (two_spheres x0 x1 r1 r2).
Proof.
  split; apply functional_extensionality; intros b; destruct b as [|[|b]]; try reflexivity;
    unfold bead_positions, bead_sizes, posdata_of, config_of, spheres_only, two_spheres; cbn -[Nat.sub Rdiv]; repeat (rewrite Nat.sub_0_r || rewrite nth_nil_any); try reflexivity;
    destruct (b - 0)%nat; destruct b; reflexivity.
Qed.

Lemma numbers_nth U O S : two_answers U O S -> length (numbers U O S) = 22%nat /\ forall p, (p < 2)%nat ->
  (forall i, (i < 3)%nat -> nth (3 * p + i) (numbers U O S) 0 = rowof U p i /\ nth (6 + 3 * p + i) (numbers U O S) 0 = rowof O p i) /\
  (forall m, (m < 5)%nat -> nth (12 + 5 * p + m) (numbers U O S) 0 = condense_idx (matof S p) m).
Proof.
  intros (HU & HO & LS & HS). destruct HU as [LU HU]. destruct HO as [LO HO].
  destruct U as [|u [|u' [|]]]; try discriminate. destruct O as [|o [|o' [|]]]; try discriminate. destruct S as [|s [|s' [|]]]; try discriminate.
  pose proof (HU u ltac:(cbn; auto)) as A1. pose proof (HU u' ltac:(cbn; auto)) as A2. pose proof (HO o ltac:(cbn; auto)) as A3. pose proof (HO o' ltac:(cbn; auto)) as A4.
  destruct u as [|? [|? [|? [|]]]]; try discriminate. destruct u' as [|? [|? [|? [|]]]]; try discriminate.
  destruct o as [|? [|? [|? [|]]]]; try discriminate. destruct o' as [|? [|? [|? [|]]]]; try discriminate.
  assert (L5 : forall t, length (five t) = 5%nat) by (intros t; reflexivity).
  unfold numbers. cbn [concat flat_map app]. split; [cbn [length]; rewrite !app_length, !L5; reflexivity|].
  intros p Hp. split.
  - intros i Hi. destruct p as [|[|p]]; [| |lia]; (idx3 Hi); split; reflexivity.
  - intros m Hm. destruct p as [|[|p]]; [| |lia].
    + replace (12 + 5 * 0 + m)%nat with (Datatypes.S (Datatypes.S (Datatypes.S (Datatypes.S (Datatypes.S (Datatypes.S (Datatypes.S (Datatypes.S (Datatypes.S (Datatypes.S (Datatypes.S (Datatypes.S m)))))))))))) by lia.
      cbn [nth]. rewrite app_nth1 by (rewrite L5; lia). apply (nth_five s m). exact Hm.
    + replace (12 + 5 * 1 + m)%nat with (Datatypes.S (Datatypes.S (Datatypes.S (Datatypes.S (Datatypes.S (Datatypes.S (Datatypes.S (Datatypes.S (Datatypes.S (Datatypes.S (Datatypes.S (Datatypes.S (5 + m))))))))))))) by lia.
      cbn [nth]. rewrite app_nth2 by (rewrite L5; lia). rewrite L5. replace (5 + m - 5)%nat with m by lia. rewrite app_nth1 by (rewrite L5; lia). apply (nth_five s' m). exact Hm.
Qed.
Lemma split22k k : (k < 22)%nat -> (exists p i, (p < 2)%nat /\ (i < 3)%nat /\ (k = 3 * p + i \/ k = 6 + 3 * p + i)%nat) \/ (exists p m, (p < 2)%nat /\ (m < 5)%nat /\ k = (12 + 5 * p + m)%nat).
Proof.
  intros H. destruct (Nat.lt_ge_cases k 12) as [K|K].
  - left. exists ((k mod 6) / 3)%nat, (k mod 3)%nat. do 12 (destruct k as [|k]; [cbn; lia|]). lia.
  - right. exists ((k - 12) / 5)%nat, ((k - 12) mod 5)%nat. do 12 (destruct k as [|k]; [lia|]). do 10 (destruct k as [|k]; [cbn; lia|]). lia.
Qed.
Lemma condense_idx_ext A B m : (forall i j, (i < 3)%nat -> (j < 3)%nat -> A i j = B i j) -> condense_idx A m = condense_idx B m.
Proof. intros H. unfold condense_idx. do 5 (destruct m as [|m]; [apply rsum_ext; intros i Hi; apply rsum_ext; intros j Hj; rewrite H by assumption; reflexivity|]). apply rsum_ext; intros i Hi; apply rsum_ext; intros j Hj; rewrite H by assumption; reflexivity. Qed.
Lemma kept_row {A} (l : list (option A)) out (d : A) p t : keeps 0 2 l out -> (p < 2)%nat -> nth_error l p = Some (Some t) -> nth p out d = t.
Proof. intros K Hp H. rewrite (K p) in H by lia. injection H as H. apply nth_error_nth. exact H. Qed.
Lemma kept_map {A} (f : nat -> A) out (d : A) p : keeps 0 2 (map (fun q => Some (f q)) [0; 1]%nat) out -> (p < 2)%nat -> nth p out d = f p.
Proof. intros K Hp. apply (kept_row _ _ d p _ K Hp). destruct p as [|[|p]]; [| |lia]; reflexivity. Qed.
Lemma nth_map3 (f : nat -> R) i : (i < 3)%nat -> nth i (map f [0; 1; 2]%nat) 0 = f i.
Proof. intros Hi. idx3 Hi; reflexivity. Qed.

Lemma Ee_st c : given_st (map (fun p => Some (map (fun k => map (Ee c p k) [0; 1; 2]%nat) [0; 1; 2]%nat)) [0; 1]%nat).
Proof.
  intros t Ht. apply in_map_iff in Ht. destruct Ht as (p & E & Hp). injection E as <-.
  assert (Q : p = 0%nat \/ p = 1%nat) by (cbn in Hp; lia).
  split; [|split].
  - split; [reflexivity|]. intros r Hr. cbn in Hr. destruct Hr as [<-|[<-|[<-|[]]]]; reflexivity.
  - destruct Q as [-> | ->]; destruct c; intros i j Hi Hj; unfold Ee, put3, no3; idx3 Hi; idx3 Hj; reflexivity.
  - destruct Q as [-> | ->]; destruct c; unfold Ee, put3, no3; cbn -[Rdiv]; field.
Qed.

Lemma axis_norm x0 s : 0 < s -> norm (vsub (v3 (x0 + s) 0 0) (v3 x0 0 0)) = s.
Proof.
  intros H. unfold norm, vsub. cbn [v3]. replace (_ + _) with (s ^ 2) by ring. apply sqrt_pow2. lra.
Qed.
Lemma axis_dir x0 s : 0 < s -> vscal (/ s) (vsub (v3 (x0 + s) 0 0) (v3 x0 0 0)) = v3 1 0 0.
Proof. intros H. apply functional_extensionality. intros i. unfold vscal, vsub. destruct i as [|[|[|i]]]; cbn [v3]; field; lra. Qed.

Section Suite.
Variables (x X : R -> R -> R -> nat -> R) (lams srange : list R) (raw : nat -> nat -> nat -> nat -> R).
Hypothesis HX : two_sphere_scalars x X.
Hypothesis HT : tabulates X lams srange raw.
Hypothesis Hinc : increasing srange.
Hypothesis Hdis : distinguishable lams.
Hypothesis Hpos : forall l, In l lams -> 0 < l.
Hypothesis Hapart : forall t, In t srange -> 2 < t.
Hypothesis Hl : In 1 lams /\ In (1 / 10) lams /\ In 10 lams.
Hypothesis Hs : In (21 / 10) srange /\ In (39 / 10) srange.
Variables (inv : nat -> mat -> mat) (solve : nat -> mat -> list R -> list R) (bb : bool).
Hypothesis Hinv : inverts_posdef inv.
Hypothesis Hsolve : solves_posdef solve.
Variables (cf ts : R) (verbose : bool).
Hypothesis Hcf : 39 / 20 < cf.
Variable lamb : R -> R -> R -> case -> nat -> R.
Hypothesis Hlamb : forall r1 r2 s, 0 < r1 -> 0 < r2 -> r1 + r2 < s -> solves (lamb r1 r2 s) (x r1 r2 s).
Notation sc := (XYZ (subtract_R2Binfinity inv bb lams srange raw) srange).

Lemma problem_kind k s r1 r2 c : nth_error problems k = Some (s, r1, r2, c) ->
  (r1 = 1 \/ r1 = 1 / 10) /\ (r2 = 1 \/ r2 = 1 / 10) /\ (2 * s / (r1 + r2) = 21 / 10 \/ 2 * s / (r1 + r2) = 39 / 10) /\ / 10 ^ 8 < s.
Proof.
  intros H. apply nth_error_In in H. unfold problems in H. apply in_flat_map in H. destruct H as ((a, b) & Hab & H).
  apply in_flat_map in H. destruct H as (t & Ht & H). apply in_map_iff in H. destruct H as (c' & E & _). cbn [fst snd] in E. injection E as <- <- <- <-.
  assert (A : (a = 1 \/ a = 1 / 10) /\ (b = 1 \/ b = 1 / 10)).
  { cbn in Hab. destruct Hab as [E|[E|[E|[E|[]]]]]; injection E as <- <-; auto. }
  split; [apply A|]. split; [apply A|]. assert (0 < a + b) by lra. split.
  - cbn in Ht. destruct Ht as [<-|[<-|[]]]; [left|right]; field; lra.
  - assert (21 / 10 <= t) by (cbn in Ht; destruct Ht as [<-|[<-|[]]]; lra). assert (2 / 10 <= a + b) by lra.
    apply Rlt_le_trans with (5 / 10 * (2 / 10) * (21 / 10)).
    + apply Rmult_lt_reg_l with (10 ^ 8); [apply pow_lt; lra|]. rewrite Rinv_r by (apply pow_nonzero; lra). simpl. lra.
    + apply Rmult_le_compat; lra.
Qed.
Lemma ratio_in a b : (a = 1 \/ a = 1 / 10) -> (b = 1 \/ b = 1 / 10) -> In (a / b) lams.
Proof.
  intros [-> | ->] [-> | ->].
  - replace (1 / 1) with 1 by field. apply Hl.
  - replace (1 / (1 / 10)) with 10 by field. apply Hl.
  - replace (1 / 10 / 1) with (1 / 10) by field. apply Hl.
  - replace (1 / 10 / (1 / 10)) with 1 by field. apply Hl.
Qed.

Lemma row_exact k s r1 r2 c : nth_error problems k = Some (s, r1, r2, c) ->
  exists U O S, fte_mobility_solve_nonperiodic inv solve sc lams bb cf ts verbose (setup_of_row k) (input_of_row k) = Ok (U, O, S) /\
    two_answers U O S /\ forall m, (m < 22)%nat -> nth m (numbers U O S) 0 = written (lamb r1 r2 s c) m.
Proof.
  intros Hk. destruct (problem_kind k s r1 r2 c Hk) as (K1 & K2 & K3 & E8).
  assert (P1 : 0 < r1) by lra. assert (P2 : 0 < r2) by lra.
  assert (Ps : 0 < s). { apply Rlt_trans with (/ 10 ^ 8); [apply Rinv_0_lt_compat, pow_lt; lra|exact E8]. }
  assert (Is : In (2 * s / (r1 + r2)) srange) by (destruct K3 as [-> | ->]; apply Hs).
  assert (Hc : 2 * s / (r1 + r2) < 2 * cf) by (destruct K3 as [-> | ->]; lra).
  destruct (proj2 C74_rows k s r1 r2 c 0 ts Hk) as (u & y0 & Eu & Ess & Eds & Esp & inp & fl & Ei & EF & ET & EE).
  pose proof (tests_setup _ _ Eu) as Ku. rewrite Ess, Esp in Ku.
  assert (Hneg : (input_of_row k < 0)%Z) by (unfold input_of_row; lia).
  destruct (tests_input _ _ _ _ _ _ Hneg Ei) as (-> & ES & EFb & EDFb).
  set (p0 := v3 y0 0 0) in *. set (p1 := v3 (y0 + s) 0 0) in *.
  assert (W : well_posed 2 0 fte inp).
  { assert (G : forall f : nat -> vec, all_given 2 3 (map (fun p => Some (map (f p) [0; 1; 2]%nat)) [0; 1]%nat)).
    { intros f. split; [reflexivity|]. intros o Ho. cbn in Ho. destruct Ho as [<-|[<-|[]]]; eexists; split; reflexivity. }
    assert (N : all_given 0 3 []) by (split; [reflexivity|intros o []]).
    unfold well_posed. rewrite EF, ET, EE, EFb, EDFb. split; [apply G|]. split; [apply G|]. split; [|split; exact N].
    split; [reflexivity|]. intros o Ho. cbn [map] in Ho. destruct Ho as [<-|[<-|[]]]; (eexists; split; [reflexivity|]; split; [reflexivity|]; intros r Hr; destruct Hr as [<-|[<-|[<-|[]]]]; reflexivity). }
  assert (GS : given_st (i_Sa inp)) by (rewrite ES; intros t [Q|[Q|[]]]; discriminate).
  assert (GE : given_st (i_Ea inp)) by (rewrite EE; apply Ee_st).
  pose proof (axis_norm y0 s Ps) as EN. fold p0 p1 in EN.
  pose proof (axis_dir y0 s Ps) as ED. fold p0 p1 in ED.
  assert (RP : exists Gr mi o,
    grand_resistance_free inv sc lams bb (two_spheres p0 p1 r1 r2) no_matrix true cf verbose false false 1 = Ok (Gr, mi) /\
    generate_output inv solve 2 0 fte false Gr inp (fun _ => inp) = Ok o /\ answers 2 0 fte inp Gr o /\
    strains (matof (Model_Output.o_Ea o)) /\ strains (matof (Model_Output.o_Sa o)) /\
    resistance_law (X r1 r2 s) (v3 1 0 0) (rowof (Model_Output.o_Ua o)) (rowof (Model_Output.o_Oa o))
      (fun q k => rowof (Model_Output.o_Fa o) q k / 1) (fun q k => rowof (o_Ta o) q k / 1)
      (matof (Model_Output.o_Ea o)) (fun q k l => matof (Model_Output.o_Sa o) q k l / 1)).
  { assert (Q1 : 2 * norm (vsub p1 p0) / (r1 + r2) < 2 * cf) by (rewrite EN; exact Hc).
    assert (Q2 : In (2 * norm (vsub p1 p0) / (r1 + r2)) srange) by (rewrite EN; exact Is).
    assert (Q3 : / 10 ^ 8 < norm (vsub p1 p0)) by (rewrite EN; exact E8).
    pose proof (run_pair x X lams srange raw HX HT Hinc Hdis Hpos Hapart (proj1 Hl) inv solve bb Hinv Hsolve p0 p1 r1 r2 cf 1 P1 P2 Rlt_0_1 Q1 Q2 (ratio_in r2 r1 K2 K1) (ratio_in r1 r2 K1 K2) Q3 fte inp no_matrix verbose W GS GE) as RP.
    rewrite EN, ED in RP. exact RP. }
  destruct RP as (Gr & mi & o & EG & EO & HA & HE & _ & HR).
  assert (Ap : r1 + r2 < s). { pose proof (Hapart _ Is) as Q. apply Rmult_lt_reg_r with (2 / (r1 + r2)); [apply Rdiv_lt_0_compat; lra|].
    replace ((r1 + r2) * (2 / (r1 + r2))) with 2 by (field; lra). replace (s * (2 / (r1 + r2))) with (2 * s / (r1 + r2)) by (field; lra). exact Q. }
  assert (UV : unit_vector (v3 1 0 0)) by (unfold unit_vector; cbn [v3]; ring).
  apply (proj1 HX r1 r2 s _ _ _ _ _ _ _ P1 P2 Ap UV HE) in HR.
  destruct (Hlamb r1 r2 s P1 P2 Ap) as (U' & O' & S' & HL). destruct (HL c) as [HM HO].
  destruct HA as (_ & SH & KT & KF & KE & _). destruct SH as (_ & _ & _ & _ & SU & SO & _ & _ & SS & _ & _).
  rewrite ET in KT. rewrite EF in KF. rewrite EE in KE.
  destruct (mob_functional _ _ _ _ _ _ _ _ _ _ _ _ _ _ HR HM) as [FU FS].
  { intros p i Hp Hi. unfold rowof. rewrite (kept_map _ _ [] p KF Hp), (kept_map _ _ [] p KT Hp), !nth_map3 by exact Hi. split; field. }
  { intros p i j Hp Hi Hj. unfold matof. rewrite (kept_map _ _ [] p KE Hp). idx3 Hi; idx3 Hj; reflexivity. }
  exists (Model_Output.o_Ua o), (Model_Output.o_Oa o), (Model_Output.o_Sa o).
  assert (TA : two_answers (Model_Output.o_Ua o) (Model_Output.o_Oa o) (Model_Output.o_Sa o)) by (split; [exact SU|]; split; [exact SO|exact SS]).
  split; [|split; [exact TA|]].
  - unfold fte_mobility_solve_nonperiodic. rewrite Eu. cbn [bind]. cbv zeta. rewrite Ess, Eds. change (length [r1; r2]) with 2%nat. change (length (@nil R)) with 0%nat.
    rewrite Ei. cbn [bind]. change (f_mu default_flow) with 1.
    assert (EB : grand_resistance_free inv sc lams bb (posdata_of 2 0 (config_of u)) no_matrix true cf verbose false false 1 =
                 grand_resistance_free inv sc lams bb (two_spheres p0 p1 r1 r2) no_matrix true cf verbose false false 1).
    { rewrite Ku. unfold grand_resistance_free, Minfinity_inverse, generate_R2Bexact_free, generate_Minfinity.
      rewrite (proj1 (beads_same p0 p1 r1 r2)), (proj2 (beads_same p0 p1 r1 r2)). reflexivity. }
    rewrite EB, EG. cbn [bind]. rewrite EO. reflexivity.
  - destruct (numbers_nth _ _ _ TA) as [_ NN]. intros m Hm.
    destruct (split22k m Hm) as [(p & i & Hp & Hi & Em)|(p & q & Hp & Hq & Em)].
    + destruct (C74_written _ _ _ _ HO p Hp) as [WW _]. destruct (WW i Hi) as [W1 W2]. destruct (NN p Hp) as [NN1 _]. destruct (NN1 i Hi) as [N1 N2]. destruct (FU p i Hp Hi) as [F1 F2].
      destruct Em as [-> | ->]; congruence.
    + destruct (C74_written _ _ _ _ HO p Hp) as [_ WW]. destruct (NN p Hp) as [_ NN1]. rewrite Em, (WW q Hq), (NN1 q Hq). apply condense_idx_ext.
      intros i j Hi Hj. rewrite <- (FS p i j Hp Hi Hj). field.
Qed.
End Suite.
