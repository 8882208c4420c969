(** Example inputs that cannot be run. *)
From Coq Require Import Reals List Arith ZArith Bool Lra Lia FunctionalExtensionality.
From Verif Require Import Base Py Model_Pack Model_Convert Model_Minf Model_Close Model_R2B Model_MinfP Model_Grand Model_GrandP
  Model_Step Model_Shear Model_Repulsion Model_Output Model_Frame Model_Inputs Model_Sim
  Spec_Output Spec_Frame Spec_Runs Spec_Pack Proof_Pack Proof_Output Proof_Runs Proof_Runs2 Proof_Runs3 Proof_Frame.
Import ListNotations.
Local Open Scope R_scope.

(** ** A frame needs a solution, with a strain if there are dumbbells. *)
Lemma flow_dumbbells_needs s Ea x dx r : flow_dumbbells s Ea x dx = Ok r -> Ea <> [].
Proof. unfold flow_dumbbells. destruct Ea; [discriminate|]. intros _. discriminate. Qed.
Lemma step_needs inv Ns Nd far rest g f regen p err minv vel r :
  step inv Ns Nd far rest g f regen p err minv vel = Ok r ->
  exists mi s, rest p (INR f) vel mi = Ok s /\ (Nd = 0%nat \/ o_Ea s <> []).
Proof.
  assert (G : forall t last b mi s, gen far rest g p t vel last b = Ok (mi, s) -> exists mi', rest p t vel mi' = Ok s).
  { intros t last b mi s H. unfold gen in H. binv H. injection H as _ <-. eexists. exact E. }
  assert (EA : step_euler_ab2 inv Ns Nd far rest g f regen p err minv vel = Ok r ->
    exists mi s, rest p (INR f) vel mi = Ok s /\ (Nd = 0%nat \/ o_Ea s <> [])).
  { unfold step_euler_ab2. intros H. binv H. dpair. destruct (G _ _ _ _ _ E) as [mi Hs]. exists mi, s. split; [exact Hs|].
    binv H. dpair. binv H. destruct (Nat.eqb_spec Nd 0); [left; assumption|right].
    binv E1. dpair. eapply flow_dumbbells_needs. exact E2. }
  unfold step. destruct (g_scheme g).
  - exact EA.
  - exact EA.
  - clear EA. unfold step_rk4. intros H. binv H. dpair. destruct (G _ _ _ _ _ E) as [mi Hs]. exists mi, s. split; [exact Hs|].
    binv H. unfold rk4_stage in E0. binv E0. dpair. binv E0. destruct (Nat.eqb_spec Nd 0); [left; assumption|right].
    binv E2. dpair. eapply flow_dumbbells_needs. exact E3.
  - discriminate.
Qed.
Lemma simulate_needs inv Ns Nd far rest g p0 out :
  (0 < g_num_frames g)%nat -> g_start g = 0%nat -> simulate inv Ns Nd far rest g (fresh p0) = Ok out ->
  exists vel mi s, rest p0 0 vel mi = Ok s /\ (Nd = 0%nat \/ o_Ea s <> []).
Proof.
  intros HN H0 H. unfold simulate, run in H. rewrite H0, Nat.sub_0_r in H. destruct (g_num_frames g) as [|n]; [lia|].
  binv H. cbn [seq run_frames] in E. binv E.
  destruct (frame_inv inv Ns Nd far rest g (fresh p0) 0 a0 eq_refl E0) as (regen & r & _ & Es & _).
  destruct (step_needs _ _ _ _ _ _ _ _ _ _ _ _ _ Es) as (mi & s & Hs & HE). exists (vel_at g (fresh p0) 0), mi, s. split; [exact Hs|exact HE].
Qed.

(** ** Force vectors *)
Lemma Ok_inj {A} (x y : A) : Ok x = Ok y -> x = y.
Proof. congruence. Qed.
Lemma force_vector_inv e Ns Nd f t s fb dfb b : force_vector e Ns Nd f t s fb dfb = Ok b ->
  exists f' t' s' fb' dfb', given e f = Ok f' /\ given e t = Ok t' /\ given SystemExit s = Ok s' /\ given e fb = Ok fb' /\ given e dfb = Ok dfb' /\
    construct_force_vector_from_fts Ns Nd f' t' s' fb' dfb' = Ok b.
Proof.
  unfold force_vector. intros H. binv H. destruct (condense_and_flatten a Ns); [|discriminate H].
  binv H. binv H. binv H. binv H. exists a1, a2, a, a3, a4. repeat (split; [assumption|]). exact H.
Qed.
Lemma given_length {A} e : forall (l : list (option A)) l', given e l = Ok l' -> l = map Some l'.
Proof.
  induction l as [|[x|] l IH]; intros l' H; simpl in H; try discriminate H; [injection H as <-; reflexivity|].
  binv H. injection H as <-. simpl. f_equal. apply IH. exact E.
Qed.
Lemma concat_length3 (l : list (list R)) : (forall r, In r l -> length r = 3%nat) -> length (concat l) = (3 * length l)%nat.
Proof.
  induction l as [|r l IH]; intros H; [reflexivity|]. simpl concat. rewrite app_length, (H r) by (left; reflexivity).
  rewrite IH by (intros; apply H; right; assumption). simpl length. lia.
Qed.
(** The number of forces given decides the length. *)
Lemma force_vector_length e Ns Nd f t s fb dfb b : (0 < Ns)%nat ->
  (forall r, In (Some r) f -> length r = 3%nat) -> t = repeat (Some zeros3) Ns -> fb = repeat (Some zeros3) Nd -> dfb = repeat (Some zeros3) Nd ->
  force_vector e Ns Nd f t s fb dfb = Ok b -> length b = (3 * length f + 8 * Ns + 6 * Nd)%nat.
Proof.
  intros HN Hf -> -> -> H. apply force_vector_inv in H. destruct H as (f' & t' & s' & fb' & dfb' & E1 & E2 & E3 & E4 & E5 & H).
  rewrite given_repeat in E2, E4, E5. injection E2 as <-. injection E4 as <-. injection E5 as <-.
  apply given_length in E1. subst f. rewrite map_length.
  assert (L3 : length (concat f') = (3 * length f')%nat) by (apply concat_length3; intros r Hr; apply Hf, in_map, Hr).
  assert (LZ : forall n, length (concat (repeat zeros3 n)) = (3 * n)%nat).
  { intros n. rewrite concat_length3, repeat_length; [reflexivity|]. intros r Hr. apply repeat_spec in Hr. subst r. reflexivity. }
  unfold construct_force_vector_from_fts in H. binv H.
  assert (La : length a = (5 * Ns)%nat).
  { unfold condense_and_flatten in E. destruct (_ && _)%bool; [|discriminate E]. injection E as <-.
    rewrite <- (seq_length Ns 0) at 2. generalize (seq 0 Ns). induction l as [|x l IH]; [reflexivity|]. cbn [flat_map]. rewrite app_length, IH. simpl. lia. }
  destruct Ns as [|n]; [lia|]. destruct Nd as [|m]; apply Ok_inj in H; subst b; rewrite !app_length, L3, !LZ, La; lia.
Qed.
Lemma np_solve_inv solve n A b v : np_solve solve n A b = Ok v -> length b = n.
Proof. unfold np_solve. destruct (Nat.eqb_spec (length b) n); [auto|discriminate]. Qed.

(** ** The unworkable examples *)
Section Bad.
Variable inv : nat -> mat -> mat.
Variable solve : nat -> mat -> list R -> list R.
Variables Ns Nd : nat.

Lemma fts_vector R0 i o : output_fts solve Ns Nd R0 i = Ok o ->
  exists b, force_vector TypeError Ns Nd (i_Fa i) (i_Ta i) (i_Sa i) (i_Fb i) (i_DFb i) = Ok b /\ length b = (11 * Ns + 6 * Nd)%nat.
Proof. unfold output_fts. intros H. binv H. binv H. apply np_solve_inv in E0. eauto. Qed.
Lemma fte_vector R0 i o : output_fte inv solve Ns Nd R0 (fun _ => i) = Ok o -> (0 < Ns)%nat /\
  exists b, force_vector TypeError Ns Nd (i_Fa i) (i_Ta i) (i_Ea i) (i_Fb i) (i_DFb i) = Ok b /\ length b = (11 * Ns + 6 * Nd)%nat.
Proof.
  unfold output_fte. intros H. binv H. binv H. binv H. apply np_solve_inv in E1. split; [|eauto].
  unfold fts_to_fte_matrix in E. destruct (Nat.ltb_spec 0 Ns); [assumption|discriminate E].
Qed.
Lemma ufte_vector x R0 i o : output_ufte inv solve Ns Nd x R0 i = Ok o -> (0 < Ns)%nat /\
  let ns := length (i_Ua i) in let k := (ns - count_none (i_Ua i))%nat in
  exists b, force_vector ValueError Ns Nd (lslice (i_Ua i) 0 k ++ lslice (i_Fa i) k ns) (i_Ta i) (i_Ea i) (i_Fb i) (i_DFb i) = Ok b
    /\ length b = (11 * Ns + 6 * Nd)%nat.
Proof.
  unfold output_ufte. cbv zeta. intros H. binv H. binv H. binv H. destruct x; [discriminate H|]. binv H. apply np_solve_inv in E2. split; [|eauto].
  unfold fts_to_fte_matrix in E0. destruct (Nat.ltb_spec 0 Ns); [assumption|discriminate E0].
Qed.
Lemma ufteu_vector R0 i o : output_ufteu inv solve Ns Nd R0 i = Ok o -> (0 < Ns)%nat /\ exists t, given ValueError (i_Ta i) = Ok t.
Proof.
  unfold output_ufteu. cbv zeta. intros H. binv H. binv H. split.
  - unfold fts_to_fte_matrix in E0. destruct (Nat.ltb_spec 0 Ns); [assumption|discriminate E0].
  - apply force_vector_inv in E. destruct E as (f' & t' & s' & fb' & dfb' & _ & E2 & _). eauto.
Qed.
Lemma duf_vector R0 i o : output_duf inv solve Ns Nd R0 i = Ok o ->
  (exists t, given ValueError (i_Ta i) = Ok t) /\
  let nd := length (i_Ub i) in let k := (nd - count_none (i_Ub i))%nat in
  exists t, given ValueError (lslice (i_Ub i) 0 k ++ lslice (i_Fb i) k nd) = Ok t.
Proof.
  unfold output_duf. cbv zeta. intros H. binv H.
  apply force_vector_inv in E. destruct E as (f' & t' & s' & fb' & dfb' & _ & E2 & _ & E4 & _). eauto.
Qed.
Lemma fts_strain R0 i o : Ns = 0%nat -> output_fts solve Ns Nd R0 i = Ok o ->
  i_Ea i = [] \/ length (i_Ua i) <> 0%nat -> Model_Output.o_Ea o = [].
Proof.
  intros H0 H HE. unfold output_fts in H. binv H. binv H. binv H. destruct a1 as [[[[u w] e] ub] hd].
  binv H. binv H. binv H. binv H. binv H. binv H. injection H as <-. cbn [Model_Output.o_Ea].
  destruct (Nat.eqb_spec (length (i_Ua i)) 0) as [E9|E9].
  - destruct HE as [HE|HE]; [|contradiction]. rewrite HE in E7. simpl in E7. injection E7 as <-. reflexivity.
  - injection E7 as <-. unfold deconstruct_velocity_vector_for_fts in E1. rewrite H0 in E1.
    binv E1. binv E1. binv E1. binv E1. binv E1. binv E1. injection E1 as _ _ <- _ _.
    match goal with H : uncondense _ 0 = _ |- _ => revert H; unfold uncondense; cbn [Nat.leb firstn forallb andb map seq]; intros H; apply Ok_inj in H; symmetry; exact H end.
Qed.

Lemma count_none_repeat {A} n : count_none (repeat (@None A) n) = n.
Proof. unfold count_none. induction n as [|n IH]; [reflexivity|]. simpl. f_equal. exact IH. Qed.
Lemma lslice_repeat {A} (x : A) n : lslice (repeat x n) 0 n = repeat x n.
Proof. unfold lslice. rewrite Nat.sub_0_r. cbn [skipn]. apply firstn_all2. rewrite repeat_length. lia. Qed.
Lemma vec_none {f t s fb dfb e b} : (0 < Ns)%nat -> f = repeat None Ns -> force_vector e Ns Nd f t s fb dfb <> Ok b.
Proof.
  intros HN -> H. apply force_vector_inv in H. destruct H as (f' & t' & s' & fb' & dfb' & E & _).
  rewrite given_none in E by exact HN. discriminate E.
Qed.

(** Example 6: as many forces as do not fit. *)
Lemma slice6_rows {A} (x y : A) n r : In r (set_slice (repeat x n) 90 (length (repeat x n)) (repeat y 9)) -> r = x \/ r = y.
Proof.
  unfold set_slice. intros H. apply in_app_or in H. destruct H as [H|H].
  - left. apply (repeat_spec n). rewrite <- (firstn_skipn 90 (repeat x n)). apply in_or_app. left. exact H.
  - apply in_app_or in H. destruct H as [H|H]; [right; apply (repeat_spec 9), H|].
    left. apply (repeat_spec n). rewrite <- (firstn_skipn (Nat.max 90 (length (repeat x n))) (repeat x n)). apply in_or_app. right. exact H.
Qed.
Lemma slice6_length {A} (x y : A) n : length (set_slice (repeat x n) 90 (length (repeat x n)) (repeat y 9)) = (Nat.min 90 n + 9)%nat.
Proof. unfold set_slice. rewrite !app_length, firstn_length, skipn_length, !repeat_length. lia. Qed.

Lemma rows6 fm r : fm = fts \/ fm = fte ->
  In (Some r) (set_slice (i_Fa (default_inputs fm Ns Nd)) 90 (length (i_Fa (default_inputs fm Ns Nd))) (repeat (Some [10; 0; 0]) 9)) -> length r = 3%nat.
Proof.
  intros Hfm H. assert (E : i_Fa (default_inputs fm Ns Nd) = repeat (Some zeros3) Ns) by (destruct Hfm; subst fm; reflexivity).
  rewrite E in H. apply slice6_rows in H. destruct H as [H|H]; injection H as ->; reflexivity.
Qed.

Lemma ufte6_rows : (Ns < 90 \/ 99 < Ns)%nat ->
  let Ua := set_slice (repeat None Ns) 0 90 (opposed 90) in
  let Fa := set_slice (repeat (@None (list R)) Ns) 90 (length (repeat (@None (list R)) Ns)) (repeat (Some [10; 0; 0]) 9) in
  let k := (length Ua - count_none Ua)%nat in
  let l := lslice Ua 0 k ++ lslice Fa k (length Ua) in
  length l <> Ns /\ forall r, In (Some r) l -> length r = 3%nat.
Proof.
  intros H Ua Fa k l.
  assert (HU : Ua = opposed 90 ++ repeat None (Ns - 90)).
  { destruct (le_lt_dec 90 Ns); [apply set90_split; lia|]. unfold Ua, set_slice. cbn [firstn app]. f_equal.
    rewrite skipn_all2 by (rewrite repeat_length; simpl; lia). replace (Ns - 90)%nat with 0%nat by lia. reflexivity. }
  assert (LU : length Ua = (90 + (Ns - 90))%nat) by (rewrite HU, app_length, opposed_length, repeat_length; reflexivity).
  assert (CU : count_none Ua = (Ns - 90)%nat).
  { rewrite HU. unfold count_none. rewrite filter_app, app_length. fold (@count_none (list R) (repeat None (Ns - 90))). fold (@count_none (list R) (opposed 90)).
    rewrite count_none_repeat. destruct (all_given_rows 90 3 _ (opposed_given 90)) as (o & -> & _).
    replace (count_none (map Some o)) with 0%nat; [reflexivity|].
    unfold count_none. induction o as [|x o IH]; [reflexivity|exact IH]. }
  assert (Hk : k = 90%nat) by (unfold k; lia).
  assert (E1 : lslice Ua 0 k = opposed 90).
  { rewrite Hk, HU. unfold lslice. cbn [skipn]. rewrite firstn_app, opposed_length, Nat.sub_diag, firstn_all2 by (rewrite opposed_length; lia).
    rewrite firstn_O, app_nil_r. reflexivity. }
  destruct H as [H|H].
  - assert (E2 : l = opposed 90).
    { unfold l. rewrite E1, Hk, LU. replace (90 + (Ns - 90))%nat with 90%nat by lia. unfold lslice. rewrite Nat.sub_diag, firstn_O. apply app_nil_r. }
    rewrite E2, opposed_length. split; [lia|]. intros r Hr. destruct (opposed_given 90) as [_ G]. destruct (G _ Hr) as (r' & E & Lr). injection E as <-. exact Lr.
  - assert (E2 : l = opposed 90 ++ repeat (Some [10; 0; 0]) 9).
    { unfold l. rewrite E1, Hk, LU. f_equal. unfold Fa. rewrite set90_forces by lia. unfold lslice.
      rewrite skipn_app, repeat_length, Nat.sub_diag, skipn_all2 by (rewrite repeat_length; lia). rewrite skipn_O. cbn [app].
      apply firstn_all2. rewrite repeat_length. lia. }
    rewrite E2, app_length, opposed_length, repeat_length. split; [lia|]. intros r Hr. apply in_app_or in Hr. destruct Hr as [Hr|Hr].
    + destruct (opposed_given 90) as [_ G]. destruct (G _ Hr) as (r' & E & Lr). injection E as <-. exact Lr.
    + apply repeat_spec in Hr. injection Hr as ->. reflexivity.
Qed.

Ltac take H := apply Ok_inj in H; apply (f_equal fst) in H; cbn [fst] in H; match type of H with _ = ?i => subst i end.

(** Inputs of an unworkable example give no solution, or one without strains
    although there are only dumbbells. *)
Lemma bad_inputs n fm p t dt i f x R0 o : (0 < Ns + Nd)%nat ->
  (1 <= n <= 7)%Z -> ~ workable n fm Ns -> input_ftsuoe n fm Ns Nd p t dt = Ok (i, f) ->
  generate_output inv solve Ns Nd fm x R0 i (fun _ => i) = Ok o ->
  Ns = 0%nat /\ Model_Output.o_Ea o = [].
Proof.
  intros HP Hn HW Hi Ho. destruct (oscillatory_returns Ns t dt) as (h & HO & E & HE).
  assert (Hn' : (n = 1 \/ n = 2 \/ n = 3 \/ n = 4 \/ n = 5 \/ n = 6 \/ n = 7)%Z) by lia. clear Hn.
  destruct fm; unfold generate_output in Ho; try discriminate Ho.
  - (* fts *)
    destruct (Nat.eq_dec Ns 0) as [H0|H0].
    + split; [exact H0|]. assert (H3 : n <> 3%Z /\ n <> 7%Z).
      { split; intros ->; apply HW; unfold workable; rewrite H0; cbn [Nat.eqb]; auto. }
      destruct H3 as [H3 H7].
      assert (HEa : i_Ea i = []); [|apply (fts_strain R0 i o H0 Ho); left; exact HEa].
      decompose [or] Hn'; subst n; try contradiction; unfold input_ftsuoe in Hi; cbn [Z.ltb Z.compare] in Hi.
      * take Hi. parts. rewrite H0. reflexivity.
      * unfold simple_cubic_8 in Hi. take Hi. parts. rewrite H0. reflexivity.
      * binv Hi. binv Hi. binv Hi. binv Hi. dpair. take Hi. parts. rewrite H0. reflexivity.
      * take Hi. parts. rewrite H0. reflexivity.
      * take Hi. parts. rewrite H0. reflexivity.
    + exfalso. assert (n = 6%Z /\ Ns <> 99%nat) as [-> HN].
      { unfold workable in HW. destruct (Nat.eqb_spec Ns 0); [contradiction|].
        destruct (Z.eq_dec n 6); [|exfalso; apply HW; left; assumption]. split; [assumption|]. intros E9. apply HW. right. exact E9. }
      unfold input_ftsuoe in Hi. cbn [Z.ltb Z.compare] in Hi. take Hi.
      apply fts_vector in Ho. destruct Ho as (b & Hb & Lb). revert Hb. parts. intros Hb.
      apply force_vector_length in Hb; try reflexivity; [|lia|intros r Hr; apply (rows6 fts); [left; reflexivity|exact Hr]].
      rewrite slice6_length in Hb. lia.
  - (* fte *)
    apply fte_vector in Ho. destruct Ho as (H0 & b & Hb & Lb). exfalso.
    assert (n = 6%Z /\ Ns <> 99%nat) as [-> HN].
    { unfold workable in HW. destruct (Nat.eqb_spec Ns 0); [lia|].
      destruct (Z.eq_dec n 6); [|exfalso; apply HW; left; assumption]. split; [assumption|]. intros E9. apply HW. right. exact E9. }
    unfold input_ftsuoe in Hi. cbn [Z.ltb Z.compare] in Hi. take Hi. revert Hb. parts. intros Hb.
    apply force_vector_length in Hb; try reflexivity; [|lia|intros r Hr; apply (rows6 fte); [right; reflexivity|exact Hr]].
    rewrite slice6_length in Hb. lia.
  - (* ufte *)
    apply ufte_vector in Ho. destruct Ho as (H0 & b & Hb & Lb). exfalso.
    assert (Hbad : (n = 3 \/ n = 4 \/ n = 7)%Z \/ (n = 6%Z /\ (Ns < 90 \/ 99 < Ns)%nat)).
    { unfold workable in HW. destruct (Nat.eqb_spec Ns 0); [lia|].
      decompose [or] Hn'; subst n; try (left; auto; fail); try (exfalso; apply HW; auto; fail).
      right. split; [reflexivity|]. destruct (le_lt_dec 90 Ns); [|left; assumption]. destruct (le_lt_dec Ns 99); [|right; assumption].
      exfalso. apply HW. right. right. right. auto. }
    assert (HNone : i_Fa i = repeat None Ns -> i_Ua i = repeat None Ns -> False).
    { intros HF HU. rewrite HF, HU, count_none_repeat, repeat_length, Nat.sub_diag in Hb.
      rewrite lslice_repeat in Hb. revert Hb. apply vec_none; [exact H0|reflexivity]. }
    destruct Hbad as [[-> |[-> | ->]]|[-> HN]]; unfold input_ftsuoe in Hi; cbn [Z.ltb Z.compare] in Hi.
    + rewrite HO in Hi. cbn [bind] in Hi. take Hi. apply HNone; reflexivity.
    + cbn [default_inputs i_Fa empty_vectors] in Hi. rewrite given_none in Hi by exact H0. discriminate Hi.
    + take Hi. apply HNone; reflexivity.
    + take Hi. revert Hb. parts. intros Hb. destruct (ufte6_rows HN) as [HL HR].
      apply force_vector_length in Hb; try reflexivity; [|lia|exact HR]. lia.
  - (* ufteu *)
    apply ufteu_vector in Ho. destruct Ho as (H0 & ta & HT). exfalso.
    assert (i_Ta i = repeat None Ns) as HTa.
    { decompose [or] Hn'; subst n; unfold input_ftsuoe in Hi; cbn [Z.ltb Z.compare] in Hi.
      - take Hi. reflexivity.
      - unfold simple_cubic_8 in Hi. take Hi. reflexivity.
      - rewrite HO in Hi. cbn [bind] in Hi. take Hi. reflexivity.
      - binv Hi. binv Hi. binv Hi. binv Hi. dpair. take Hi. reflexivity.
      - take Hi. reflexivity.
      - take Hi. reflexivity.
      - take Hi. reflexivity. }
    rewrite HTa, given_none in HT by exact H0. discriminate HT.
  - (* duf *)
    apply duf_vector in Ho. destruct Ho as ((ta & HT) & tb & HB). exfalso.
    assert (i_Ta i = repeat None Ns /\ i_Ub i = repeat None Nd /\ i_Fb i = repeat None Nd) as (HTa & HUb & HFb).
    { decompose [or] Hn'; subst n; unfold input_ftsuoe in Hi; cbn [Z.ltb Z.compare] in Hi.
      - take Hi. auto.
      - unfold simple_cubic_8 in Hi. take Hi. auto.
      - rewrite HO in Hi. cbn [bind] in Hi. take Hi. auto.
      - exfalso. binv Hi. binv Hi. cbn [default_inputs empty_vectors i_Fa i_Fb] in E0, E1.
        destruct Ns as [|m] eqn:EN; [|discriminate E0]. destruct Nd as [|m] eqn:EM; [|discriminate E1]. lia.
      - take Hi. auto.
      - take Hi. auto.
      - take Hi. auto. }
    rewrite HTa in HT. rewrite HUb, HFb, count_none_repeat, repeat_length, Nat.sub_diag, lslice_repeat in HB.
    destruct (Nat.eq_dec Ns 0) as [E0|E0]; [|rewrite given_none in HT by lia; discriminate HT].
    unfold lslice in HB at 1. rewrite firstn_O in HB. cbn [app] in HB. rewrite given_none in HB by lia. discriminate HB.
Qed.
End Bad.

Lemma example_needs inv inv3 solve sc table h stale Ns Nd fm extract bb minf_only cf g n dt p0 out :
  (0 < Ns + Nd)%nat -> (1 <= n <= 7)%Z -> (0 < g_num_frames g)%nat -> g_start g = 0%nat ->
  full_simulation inv inv3 solve sc table h stale Ns Nd fm extract bb minf_only cf g
    (fun p t => input_ftsuoe n fm Ns Nd p t dt) p0 = Ok out ->
  workable n fm Ns.
Proof.
  intros HP Hn HN H0 H. unfold full_simulation in H. apply simulate_needs in H; [|exact HN|exact H0].
  destruct H as (vel & mi & s & Hs & HE). unfold solve_rest in Hs. binv Hs. destruct a as [i f].
  assert (D : workable n fm Ns \/ ~ workable n fm Ns).
  { unfold workable. destruct (Nat.eqb Ns 0).
    - destruct fm; try (right; intros [? _]; discriminate). destruct (Z.eq_dec n 3); [left; auto|]. destruct (Z.eq_dec n 7); [left; auto|]. right. intros [_ [?|?]]; contradiction.
    - destruct fm; try (right; intros []; fail).
      + destruct (Z.eq_dec n 6); [|left; left; assumption]. destruct (Nat.eq_dec Ns 99); [left; right; assumption|]. right. intros [?|?]; contradiction.
      + destruct (Z.eq_dec n 6); [|left; left; assumption]. destruct (Nat.eq_dec Ns 99); [left; right; assumption|]. right. intros [?|?]; contradiction.
      + assert (n = 1 \/ n = 2 \/ n = 5 \/ n = 6 \/ n = 3 \/ n = 4 \/ n = 7)%Z as [?|[?|[?|[?|?]]]] by lia; try (left; auto; fail).
        * destruct (le_lt_dec 90 Ns), (le_lt_dec Ns 99); try (right; lia). left. right. right. right. auto.
        * right. lia. }
  destruct D as [D|D]; [exact D|]. exfalso.
  destruct fm; try discriminate Hs;
    (binv Hs; destruct a as [G G']; binv Hs;
     pose proof (bad_inputs inv solve Ns Nd n _ p0 0 dt i f extract G a HP Hn D E E1) as [HZ HB];
     try (destruct (Nat.ltb 0 Ns); [discriminate Hs|]); injection Hs as <-;
     (destruct HE as [HE|HE]; [lia|]); apply HE; unfold solution_of; cbn [o_Ea]; rewrite HB; reflexivity).
Qed.
