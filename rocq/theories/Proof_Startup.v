(** Proofs about the checks before the first frame. *)
From Coq Require Import Reals List Arith Bool Lra Lia String Sorted Permutation.
From Verif Require Import Base Py Model_Mob Model_Minf Model_Close Model_R2B Model_Grand Model_GrandP Model_Step Model_Output Model_Frame Model_Inputs Model_Sim
  Model_Table Model_Startup Spec_R2B Spec_Runs Spec_Frame Spec_Startup Proof_Table Proof_Close Proof_R2B3 Proof_Polygon Proof_Runs Proof_Runs2 Proof_Runs4 Proof_Frame.
Import ListNotations.
Local Open Scope R_scope.

(** ** Names *)
Lemma in_names_spec x l : in_names x l = true <-> In x l.
Proof.
  unfold in_names. rewrite existsb_exists. split.
  - intros (y & Hy & E). apply String.eqb_eq in E. subst y. exact Hy.
  - intros H. exists x. split; [exact H|apply String.eqb_refl].
Qed.
Lemma suits_dec input_form Ns :
  ((Nat.eqb Ns 0 && negb (in_names input_form ["fts"; "duf"; "RPY_dumbbells_only"; "stokes_drag_dumbbells_only"]%string)) = false /\
   (Nat.ltb 0 Ns && in_names input_form ["duf"; "RPY_dumbbells_only"; "stokes_drag_dumbbells_only"]%string) = false)%bool <-> suits input_form Ns.
Proof.
  unfold suits. change (in_names input_form ["duf"; "RPY_dumbbells_only"; "stokes_drag_dumbbells_only"]%string) with (in_names input_form only_dumbbells).
  pose proof (in_names_spec input_form only_dumbbells) as H1.
  assert (H2 : in_names input_form ["fts"; "duf"; "RPY_dumbbells_only"; "stokes_drag_dumbbells_only"]%string = true <->
               input_form = "fts"%string \/ In input_form only_dumbbells).
  { rewrite in_names_spec. unfold only_dumbbells. cbn [In]. split; intros [H|H]; auto. }
  destruct (Nat.eqb_spec Ns 0) as [E|E].
  - subst Ns. cbn [Nat.ltb Nat.leb andb]. rewrite negb_false_iff. split.
    + intros [H _]. split; [intros _; apply H2; exact H|lia].
    + intros [H _]. split; [apply H2, H; reflexivity|reflexivity].
  - assert (Nat.ltb 0 Ns = true) as -> by (apply Nat.ltb_lt; lia). cbn [andb]. split.
    + intros [_ H]. split; [lia|]. intros _ F. apply H1 in F. congruence.
    + intros [_ H]. split; [reflexivity|]. apply not_true_iff_false. intros F. apply H1 in F. apply H; [lia|exact F].
Qed.

(** ** Ratios *)
Lemma listed_spec table r : ratio_listed table r = true <-> is_checked table r.
Proof.
  unfold ratio_listed, is_checked. rewrite existsb_exists. split.
  - intros (x & Hx & H). exists x. split; [exact Hx|]. unfold isclose, Rleb in H. destruct (Rle_dec _ _); [assumption|discriminate H].
  - intros (x & Hx & H). exists x. split; [exact Hx|]. unfold isclose. apply Rleb_t. exact H.
Qed.
Lemma size_ratios_spec sizes r : In r (size_ratios sizes) <-> exists a b, In a sizes /\ In b sizes /\ r = b / a.
Proof.
  unfold size_ratios. rewrite nodup_In, in_flat_map. split.
  - intros (i & Hi & H). apply in_map_iff in H. destruct H as (j & <- & Hj). apply nodup_In in Hi, Hj. exists j, i. auto.
  - intros (a & b & Ha & Hb & ->). exists b. split; [apply nodup_In; exact Hb|]. apply in_map_iff. exists a. split; [reflexivity|apply nodup_In; exact Ha].
Qed.
Lemma start_up_spec input_form Ns sizes table i0 w :
  start_up input_form Ns sizes table i0 = Ok w <->
  suits input_form Ns /\ (exists x, i0 = Ok x) /\ (forall a b, In a sizes -> In b sizes -> is_checked table (b / a)) /\
  (w = true <-> (0 < Ns)%nat /\ input_form = "fts"%string).
Proof.
  unfold start_up. rewrite <- suits_dec.
  destruct (Nat.eqb Ns 0 && _)%bool eqn:E1; [split; [discriminate|intros [[H _] _]; discriminate H]|].
  destruct (Nat.ltb 0 Ns && in_names input_form ["duf"; "RPY_dumbbells_only"; "stokes_drag_dumbbells_only"]%string)%bool eqn:E2;
    [split; [discriminate|intros [[_ H] _]; discriminate H]|].
  destruct i0 as [x|e]; cbn [bind]; [|split; [discriminate|intros (_ & [x H] & _); discriminate H]].
  assert (HF : forallb (ratio_listed table) (size_ratios sizes) = true <-> forall a b, In a sizes -> In b sizes -> is_checked table (b / a)).
  { rewrite forallb_forall. split.
    - intros H a b Ha Hb. apply listed_spec, H, size_ratios_spec. exists a, b. auto.
    - intros H r Hr. apply size_ratios_spec in Hr. destruct Hr as (a & b & Ha & Hb & ->). apply listed_spec, H; assumption. }
  assert (HW : (Nat.ltb 0 Ns && in_names input_form ["fts"]%string)%bool = true <-> (0 < Ns)%nat /\ input_form = "fts"%string).
  { rewrite andb_true_iff, Nat.ltb_lt, in_names_spec. cbn [In]. intuition. }
  destruct (forallb _ _).
  - split.
    + intros H. injection H as <-. split; [split; reflexivity|]. split; [exists x; reflexivity|]. split; [apply HF; reflexivity|exact HW].
    + intros (_ & _ & _ & H). f_equal. clear -HW H. apply eq_true_iff_eq. rewrite HW, H. reflexivity.
  - split; [discriminate|]. intros (_ & _ & H & _). apply HF in H. discriminate H.
Qed.

Lemma eps5 : / 10 ^ 5 = 1 / 100000. Proof. field. Qed.
Lemma eps8 : / 10 ^ 8 = 1 / 100000000. Proof. field. Qed.
Lemma eps10 : / 10 ^ 10 = 1 / 10000000000. Proof. field. Qed.
Lemma eps13 : / 10 ^ 13 = 1 / 10000000000000. Proof. field. Qed.

(** What passes the check can be looked up, but for a sliver. *)
Lemma checked_lookup table r : (forall x, In x table -> 0 < x) -> 0 < r -> is_checked table r -> can_be_looked_up table r \/ on_the_edge table r.
Proof.
  intros HT Hr (x & Hx & H). specialize (HT x Hx). rewrite (Rabs_right x) in H by lra.
  destruct (Rle_dec (Rabs (x - r)) (/ 10 ^ 8 + / 10 ^ 5 * r)) as [D|D].
  - left. exists x. split; [exact Hx|]. rewrite (Rabs_right r) by lra. exact D.
  - right. exists x. split; [exact Hx|]. cbv zeta. rewrite eps5, eps8, eps10, eps13 in *.
    rewrite Rabs_minus_sym in H. revert H D. unfold Rabs. destruct (Rcase_abs (x - r)); intros H D; lra.
Qed.

Lemma tabulated_iff table sizes : tabulated table sizes <-> forall a b, In a sizes -> In b sizes -> can_be_looked_up table (b / a).
Proof. reflexivity. Qed.

(** ** Look-ups in a spaced table are unambiguous. *)
Lemma index_from_spec table : forall k r n, lam_index_from k table r = Some n ->
  exists m, n = (k + m)%nat /\ (m < List.length table)%nat /\ isclose (nth m table 0) r = true.
Proof.
  induction table as [|y l IH]; intros k r n H; [discriminate H|]. simpl in H. destruct (isclose y r) eqn:E.
  - injection H as <-. exists 0%nat. split; [lia|]. split; [simpl; lia|exact E].
  - destruct (IH _ _ _ H) as (m & -> & Hm & Hc). exists (S m). split; [lia|]. split; [simpl; lia|exact Hc].
Qed.
Lemma index_spec table r n : lam_index table r = Some n -> (n < List.length table)%nat /\ isclose (nth n table 0) r = true.
Proof. intros H. destruct (index_from_spec table 0 r n H) as (m & -> & Hm & Hc). auto. Qed.
Lemma lookup_iff table r : (exists n, lam_index table r = Some n) <-> can_be_looked_up table r.
Proof.
  split.
  - intros [n H]. apply index_spec in H. destruct H as [Hn H]. exists (nth n table 0). split; [apply nth_In; exact Hn|].
    unfold isclose, Rleb in H. destruct (Rle_dec _ _); [assumption|discriminate H].
  - intros (x & Hx & H). apply (found_from x); [exact Hx|]. unfold isclose. apply Rleb_t. exact H.
Qed.
Lemma isclose_true x r : isclose x r = true -> Rabs (x - r) <= / 10 ^ 8 + / 10 ^ 5 * Rabs r.
Proof. unfold isclose, Rleb. destruct (Rle_dec _ _); [auto|discriminate]. Qed.

(** Close to an entry means within 2e-4 of it. *)
Lemma close_entry table x r : spaced table -> In x table -> 0 < r -> Rabs (x - r) <= / 10 ^ 8 + / 10 ^ 5 * Rabs r ->
  (1 - 2 / 10000) * r <= x <= (1 + 2 / 10000) * r.
Proof.
  intros [HB _] Hx Hr H. specialize (HB x Hx). rewrite (Rabs_right r), eps5, eps8 in H by lra.
  revert H. unfold Rabs. destruct (Rcase_abs (x - r)); intros H; lra.
Qed.
Lemma spaced_same table x y t : spaced table -> In x table -> In y table -> 0 < t ->
  (1 - 4 / 10000) * t <= x <= (1 + 4 / 10000) * t -> (1 - 4 / 10000) * t <= y <= (1 + 4 / 10000) * t -> x = y.
Proof.
  intros [HB HS] Hx Hy Ht H1 H2. destruct (Rtotal_order x y) as [D|[D|D]]; [exfalso|exact D|exfalso].
  - specialize (HS x y Hx Hy D). lra.
  - specialize (HS y x Hy Hx D). lra.
Qed.
Lemma lookup_unique table r n x : spaced table -> 0 < r -> lam_index table r = Some n ->
  In x table -> Rabs (x - r) <= / 10 ^ 8 + / 10 ^ 5 * Rabs r -> nth n table 0 = x.
Proof.
  intros HS Hr H Hx Hc. apply index_spec in H. destruct H as [Hn H]. apply isclose_true in H.
  assert (Hi : In (nth n table 0) table) by (apply nth_In; exact Hn).
  pose proof (close_entry table _ r HS Hi Hr H). pose proof (close_entry table x r HS Hx Hr Hc).
  apply (spaced_same table _ _ r); try assumption; lra.
Qed.

(** ** The mirrored table *)
Lemma rev_sorted l : (forall x, In x l -> 0 < x) -> StronglySorted Rle l -> StronglySorted Rle (rev (map (fun x => 1 / x) l)).
Proof.
  intros HP HS. induction HS as [|x l HS IH HF]; [constructor|]. simpl.
  assert (HA : forall l1 l2 : list R, StronglySorted Rle l1 -> StronglySorted Rle l2 -> (forall a b, In a l1 -> In b l2 -> a <= b) -> StronglySorted Rle (l1 ++ l2)).
  { clear. induction l1 as [|a l1 IH]; intros l2 H1 H2 H; [exact H2|]. simpl. apply StronglySorted_inv in H1. destruct H1 as [H3 H4]. constructor.
    - apply IH; [assumption|assumption|intros; apply H; [right|]; assumption].
    - apply Forall_forall. intros b Hb. apply in_app_or in Hb. destruct Hb as [Hb|Hb].
      + rewrite Forall_forall in H4. apply H4. exact Hb.
      + apply H; [left; reflexivity|exact Hb]. }
  apply HA.
  - apply IH. intros y Hy. apply HP. right. exact Hy.
  - constructor; constructor.
  - intros a b Ha [<-|[]]. apply in_rev in Ha. apply in_map_iff in Ha. destruct Ha as (y & <- & Hy).
    rewrite Forall_forall in HF. specialize (HF y Hy). assert (0 < x) by (apply HP; left; reflexivity).
    unfold Rdiv. rewrite !Rmult_1_l. apply Rinv_le_contravar; assumption.
Qed.
Lemma mirrored lam_range : NoDup lam_range -> (forall x, In x lam_range -> 0 < x) ->
  let T := lam_range_with_reciprocals lam_range in rev (map (fun x => 1 / x) T) = T.
Proof.
  intros ND HP T.
  assert (TP : forall x, In x T -> 0 < x).
  { intros x Hx. apply ratios_members in Hx. destruct Hx as [Hx|(y & Hy & ->)]; [apply HP; exact Hx|]. specialize (HP y Hy).
    unfold Rdiv. rewrite Rmult_1_l. apply Rinv_0_lt_compat. exact HP. }
  assert (NZ : forall x, In x lam_range -> x <> 0) by (intros x Hx; specialize (HP x Hx); lra).
  apply sorted_unique.
  - apply rev_sorted; [exact TP|apply ratios_sorted].
  - apply ratios_sorted.
  - apply NoDup_Permutation.
    + apply NoDup_rev. apply map_nodup; [intros x Hx; specialize (TP x Hx); lra|apply ratios_nodup; exact ND].
    + apply ratios_nodup. exact ND.
    + intros x. rewrite <- in_rev, in_map_iff. split.
      * intros (y & <- & Hy). apply ratios_closed; assumption.
      * intros Hx. exists (1 / x). split; [apply inv_inv; specialize (TP x Hx); lra|apply ratios_closed; assumption].
Qed.
Lemma mirrored_nth lam_range k : NoDup lam_range -> (forall x, In x lam_range -> 0 < x) ->
  let T := lam_range_with_reciprocals lam_range in (k < List.length T)%nat -> nth (List.length T - 1 - k) T 0 = 1 / nth k T 0.
Proof.
  intros ND HP T Hk. pose proof (mirrored lam_range ND HP) as HM. fold T in HM.
  assert (HL : List.length (map (fun x => 1 / x) T) = List.length T) by apply map_length.
  rewrite <- HM at 2. rewrite rev_nth by (rewrite HL; lia). rewrite HL.
  rewrite (nth_indep _ 0 (1 / 0)) by (rewrite HL; lia). rewrite (map_nth (fun x => 1 / x)). f_equal. f_equal. lia.
Qed.
Lemma lookup_mirrored lam_range r n m : NoDup lam_range -> (forall x, In x lam_range -> 0 < x) ->
  let T := lam_range_with_reciprocals lam_range in
  spaced T -> 0 < r -> lam_index T r = Some n -> lam_index T (1 / r) = Some m -> (n + m + 1 = List.length T)%nat.
Proof.
  intros ND HP T HS Hr Hn Hm.
  assert (Hr' : 0 < 1 / r) by (unfold Rdiv; rewrite Rmult_1_l; apply Rinv_0_lt_compat; exact Hr).
  pose proof (index_spec _ _ _ Hn) as [Ln Cn]. pose proof (index_spec _ _ _ Hm) as [Lm Cm].
  apply isclose_true in Cn, Cm.
  assert (In1 : In (nth n T 0) T) by (apply nth_In; exact Ln). assert (In2 : In (nth m T 0) T) by (apply nth_In; exact Lm).
  pose proof (close_entry T _ r HS In1 Hr Cn) as K1. pose proof (close_entry T _ (1 / r) HS In2 Hr' Cm) as K2.
  pose proof (mirrored_nth lam_range n ND HP Ln) as HM. fold T in HM.
  assert (In3 : In (nth (List.length T - 1 - n) T 0) T) by (apply nth_In; lia).
  assert (E : nth m T 0 = nth (List.length T - 1 - n) T 0).
  { apply (spaced_same T _ _ (1 / r) HS In2 In3 Hr'); [lra|]. rewrite HM. set (x := nth n T 0) in *. clearbody x.
    assert (0 < x) by lra. unfold Rdiv in *. rewrite !Rmult_1_l in *. set (u := / r) in *. set (v := / x).
    assert (Hu : u * r = 1) by (unfold u; field; lra). assert (Hv : v * x = 1) by (unfold v; field; lra).
    assert (0 < v) by (apply Rinv_0_lt_compat; assumption).
    assert (A1 : v * ((1 - 2 / 10000) * r) <= v * x) by (apply Rmult_le_compat_l; lra).
    assert (A2 : v * x <= v * ((1 + 2 / 10000) * r)) by (apply Rmult_le_compat_l; lra).
    rewrite Hv in A1, A2. assert (0 < u) by exact Hr'.
    assert (A3 : u * (v * ((1 - 2 / 10000) * r)) <= u * 1) by (apply Rmult_le_compat_l; lra).
    assert (A4 : u * 1 <= u * (v * ((1 + 2 / 10000) * r))) by (apply Rmult_le_compat_l; lra).
    replace (u * (v * ((1 - 2 / 10000) * r))) with ((1 - 2 / 10000) * v * (u * r)) in A3 by ring.
    replace (u * (v * ((1 + 2 / 10000) * r))) with ((1 + 2 / 10000) * v * (u * r)) in A4 by ring.
    rewrite Hu in A3, A4. lra. }
  apply NoDup_nth in E; [lia|apply ratios_nodup; exact ND|exact Lm|lia].
Qed.

(** ** No entry: the first frame raises. *)
Lemma close_member x a n cf i j : (i <= j)%nat -> (j < n)%nat -> norm (vsub (x i) (x j)) / (1 / 2 * (a j + a i)) < 2 * cf ->
  exists t, In t (close_particles_free x a n cf) /\ cp_ratio t = a j / a i.
Proof.
  intros Hij Hj H. unfold close_particles_free. eexists. split.
  - apply in_map_iff. exists (i, j). split; [reflexivity|]. apply filter_In. split; [|apply Nat.leb_le; exact Hij].
    apply filter_In. split.
    + apply in_flat_map. exists i. split; [apply in_seq; lia|]. apply in_map_iff. exists j. split; [reflexivity|apply in_seq; lia].
    + cbn [fst snd]. unfold Rltb. destruct (Rlt_dec _ _); [reflexivity|contradiction].
  - reflexivity.
Qed.
Lemma near_raises sc table bb q cf mu i j :
  0 < cf -> (forall b, (b < num_spheres q + 2 * num_dumbbells q)%nat -> 0 < bead_sizes q b) ->
  (i <= j)%nat -> (j < num_spheres q + 2 * num_dumbbells q)%nat ->
  norm (vsub (bead_positions q i) (bead_positions q j)) / (1 / 2 * (bead_sizes q j + bead_sizes q i)) < 2 * cf ->
  ~ can_be_looked_up table (bead_sizes q j / bead_sizes q i) ->
  generate_R2Bexact_free sc table bb q cf mu = None.
Proof.
  intros Hcf Ha Hij Hj Hd Hn. unfold generate_R2Bexact_free, generate_R2Bexact.
  destruct (close_member (bead_positions q) (bead_sizes q) (num_spheres q + 2 * num_dumbbells q) cf i j Hij Hj Hd) as (t & Ht & Er).
  destruct (generate_R2Bexact_loop _ _ _ _ _ _ _) eqn:E; [exfalso|reflexivity].
  assert (N : generate_R2Bexact_loop sc table bb (bead_sizes q) (num_spheres q) (num_dumbbells q)
    (close_particles_free (bead_positions q) (bead_sizes q) (num_spheres q + 2 * num_dumbbells q) cf) = None).
  { apply (loop_fails_iff sc table bb (bead_sizes q) (num_spheres q) (num_dumbbells q) _ _ (free_close_list _ _ _ _ Hcf) Ha).
    exists t. split; [exact Ht|]. left. rewrite Er. destruct (lam_index table _) eqn:E9; [|reflexivity]. exfalso. apply Hn. apply lookup_iff. eauto. }
  congruence.
Qed.
Lemma first_frame_raises inv Ns Nd far rest g p0 e :
  (0 < g_num_frames g)%nat -> g_start g = 0%nat -> (0 < g_invert_every g)%nat -> g_scheme g <> other_scheme ->
  (forall vel mi, rest p0 0 vel mi = Raise e) -> simulate inv Ns Nd far rest g (fresh p0) = Raise e.
Proof.
  intros HN H0 HI HS HR. unfold simulate, run. rewrite H0, Nat.sub_0_r. destruct (g_num_frames g) as [|n]; [lia|].
  cbn [seq run_frames]. unfold generate_frame. cbn [fresh s_error].
  unfold regenerate_now, divides. destruct (g_invert_every g) as [|k]; [lia|]. cbn [bind].
  destruct (g_scheme g); [| | |contradiction];
  unfold step_euler_ab2, step_rk4, gen; cbn [fresh s_pos INR]; rewrite HR; reflexivity.
Qed.

(** ** Forms *)
Lemma needs_form inv inv3 solve sc table h stale Ns Nd name extract bb minf_only cf g input p0 out :
  (0 < g_num_frames g)%nat -> g_start g = 0%nat ->
  full_simulation inv inv3 solve sc table h stale Ns Nd (form_of_name name) extract bb minf_only cf g input p0 = Ok out ->
  suits name Ns /\ In name ["fts"; "fte"; "ufte"; "ufteu"; "duf"]%string.
Proof.
  intros HN H0 H. unfold full_simulation in H. apply simulate_needs in H; [|exact HN|exact H0].
  destruct H as (vel & mi & s & Hs & _). unfold solve_rest in Hs. binv Hs. destruct a as [i f].
  unfold form_of_name in Hs.
  destruct (String.eqb_spec name "stokes_drag_dumbbells_only") as [E1|E1]; [discriminate Hs|].
  destruct (String.eqb_spec name "fts") as [E2|E2].
  { subst name. split; [|left; reflexivity]. split; [left; reflexivity|].
    intros _ HI. unfold only_dumbbells in HI. cbn [In] in HI. decompose [or] HI; try discriminate; contradiction. }
  assert (HD : forall nm, nm <> "duf"%string -> nm <> "RPY_dumbbells_only"%string -> nm <> "stokes_drag_dumbbells_only"%string ->
    (0 < Ns)%nat -> suits nm Ns).
  { intros nm N1 N2 N3 HP. split; [lia|]. intros _ HI. unfold only_dumbbells in HI. cbn [In] in HI. decompose [or] HI; try contradiction; congruence. }
  destruct (String.eqb_spec name "fte") as [E3|E3].
  { binv Hs. destruct a as [G G']. binv Hs. unfold generate_output in E4. apply fte_vector in E4. destruct E4 as [HP _]. subst name.
    split; [apply HD; try discriminate; exact HP|apply in_names_spec; reflexivity]. }
  destruct (String.eqb_spec name "ufte") as [E4|E4].
  { binv Hs. destruct a as [G G']. binv Hs. unfold generate_output in E5. apply ufte_vector in E5. destruct E5 as [HP _]. subst name.
    split; [apply HD; try discriminate; exact HP|apply in_names_spec; reflexivity]. }
  destruct (String.eqb_spec name "ufteu") as [E5|E5].
  { binv Hs. destruct a as [G G']. binv Hs. unfold generate_output in E6. apply ufteu_vector in E6. destruct E6 as [HP _]. subst name.
    split; [apply HD; try discriminate; exact HP|apply in_names_spec; reflexivity]. }
  destruct (String.eqb_spec name "duf") as [E6|E6].
  { binv Hs. destruct a as [G G']. binv Hs. destruct (Nat.ltb_spec 0 Ns) as [L|L]; [discriminate Hs|]. subst name.
    split; [split; [intros _; right; left; reflexivity|lia]|apply in_names_spec; reflexivity]. }
  binv Hs. destruct a as [G G']. binv Hs.
  match goal with F : generate_output _ _ _ _ other_form _ _ _ _ = _ |- _ => discriminate F end.
Qed.

(** ** The disabled check *)
Lemma among_spec l x : among l x = true <-> In x l.
Proof.
  unfold among. rewrite existsb_exists. split.
  - intros (y & Hy & E). destruct (Req_EM_T x y); [subst; assumption|discriminate E].
  - intros H. exists x. split; [exact H|]. destruct (Req_EM_T x x); [reflexivity|contradiction].
Qed.
Lemma offending_spec sizes lam_range i j : In (i, j) (offending_elements sizes lam_range) <-> offending sizes lam_range i j.
Proof.
  unfold offending_elements, offending. rewrite filter_In, in_flat_map. cbn [fst snd]. split.
  - intros [(a & Ha & Hb) H]. apply in_map_iff in Hb. destruct Hb as (b & E & Hb). injection E as -> ->.
    apply in_seq in Ha, Hb. split; [lia|]. split; [lia|]. intros l Hl.
    apply negb_true_iff in H. split; intros E; (rewrite (proj2 (among_spec _ _)) in H; [discriminate H|]); apply in_or_app.
    + left. rewrite E. exact Hl.
    + right. apply in_map_iff. exists l. split; [symmetry; exact E|exact Hl].
  - intros (Hi & Hj & H). split.
    + exists i. split; [apply in_seq; lia|]. apply in_map_iff. exists j. split; [reflexivity|apply in_seq; lia].
    + apply negb_true_iff. destruct (among _ _) eqn:E; [exfalso|reflexivity]. apply among_spec, in_app_or in E. destruct E as [E|E].
      * destruct (H _ E) as [F _]. apply F. reflexivity.
      * apply in_map_iff in E. destruct E as (l & E & Hl). destruct (H l Hl) as [_ F]. apply F. symmetry. exact E.
Qed.
Lemma offending_sym sizes lam_range i j : (forall a, In a sizes -> 0 < a) -> (forall l, In l lam_range -> l <> 0) ->
  offending sizes lam_range i j -> offending sizes lam_range j i.
Proof.
  intros HP HL (Hi & Hj & H). split; [exact Hj|]. split; [exact Hi|]. intros l Hl. destruct (H l Hl) as [H1 H2]. specialize (HL l Hl).
  assert (0 < nth i sizes 0) by (apply HP, nth_In; exact Hi). assert (0 < nth j sizes 0) by (apply HP, nth_In; exact Hj).
  set (u := nth i sizes 0) in *. set (v := nth j sizes 0) in *. clearbody u v.
  split; intros E.
  - apply H2. rewrite <- E. field. lra.
  - apply H1. replace l with (1 / (1 / l)) by (field; exact HL). rewrite <- E. field. lra.
Qed.
Lemma offending_not_self sizes lam_range i : In 1 lam_range -> (forall a, In a sizes -> 0 < a) -> ~ offending sizes lam_range i i.
Proof.
  intros H1 HP (Hi & _ & H). destruct (H 1 H1) as [F _]. apply F. field.
  assert (0 < nth i sizes 0) by (apply HP, nth_In; exact Hi). lra.
Qed.
Lemma named Ns k : element_of Ns (name_of Ns k) = k.
Proof. unfold name_of. destruct (Nat.leb_spec Ns k); simpl; lia. Qed.
