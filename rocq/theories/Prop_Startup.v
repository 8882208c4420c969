(** C91: the checks before the first frame, and the look-up of size ratios. *)
From Coq Require Import Reals List Arith ZArith Bool Lra Lia String.
From Verif Require Import Base Py Model_Mob Model_Minf Model_Close Model_R2B Model_Step Model_Output Model_Frame Model_Inputs Model_Sim Model_Setups
  Model_Table Model_Startup Spec_Output Spec_Runs Spec_Setups Spec_Startup Proof_Table Proof_Runs Proof_Runs3 Proof_Runs4 Proof_Output3 Prop_Table Prop_Setups Proof_Polygon Proof_Periodic2 Proof_Startup Prop_Runs.
Import ListNotations.
Local Open Scope R_scope.

(** The run begins exactly if the form suits the particles, the inputs can be
    evaluated and the table has, to the tolerance, the ratio of any two sphere
    radii; the warning is given exactly for form fts with spheres. *)
Theorem C91_checks :
  forall input_form Ns sizes table inputs0 warned,
    start_up input_form Ns sizes table inputs0 = Ok warned <->
    suits input_form Ns /\ (exists x, inputs0 = Ok x) /\
    (forall a b, In a sizes -> In b sizes -> is_checked table (b / a)) /\
    (warned = true <-> (0 < Ns)%nat /\ input_form = "fts"%string).
Proof. exact start_up_spec. Qed.
Print Assumptions C91_checks.

(** Otherwise the program exits, or the evaluation of the inputs raises. *)
Theorem C91_otherwise :
  forall input_form Ns sizes table inputs0 e, start_up input_form Ns sizes table inputs0 = Raise e -> e = SystemExit \/ inputs0 = Raise e.
Proof.
  intros name Ns sizes table i0 e. unfold start_up. destruct (_ && _)%bool; [left; congruence|]. destruct (_ && _)%bool; [left; congruence|].
  destruct i0 as [x|e']; cbn [bind]; [|right; congruence]. destruct (forallb _ _); [discriminate|left; congruence].
Qed.
Print Assumptions C91_otherwise.

(** The check of the form turns away nothing that could have run: any
    simulation that completes a frame, whatever the inputs, has a form that
    suits the particles, and one of the five names. *)
Theorem C91_forms :
  forall inv inv3 solve sc table h stale Ns Nd input_form extract bb minf_only cutoff_factor g input p0 out,
    (0 < g_num_frames g)%nat -> g_start g = 0%nat ->
    full_simulation inv inv3 solve sc table h stale Ns Nd (form_of_name input_form) extract bb minf_only cutoff_factor g input p0 = Ok out ->
    suits input_form Ns /\ In input_form ["fts"; "fte"; "ufte"; "ufteu"; "duf"]%string.
Proof. exact needs_form. Qed.
Print Assumptions C91_forms.

(** Finding: a misspelt form passes, and so do the two dumbbell forms of the
    check that nothing else knows; none of them ever completes a frame. *)
Theorem C91_unknown_forms_refuted :
  forall input_form Ns, (input_form = "FTE"%string /\ Ns = 1%nat) \/ (In input_form ["RPY_dumbbells_only"; "stokes_drag_dumbbells_only"]%string /\ Ns = 0%nat) ->
  start_up input_form Ns (repeat 1 Ns) [1] (Ok (default_inputs fte Ns 1, default_flow)) = Ok false /\
  forall inv inv3 solve sc table h stale Nd extract bb minf_only cutoff_factor g input p0 out,
    (0 < g_num_frames g)%nat -> g_start g = 0%nat ->
    main_program inv inv3 solve sc table h stale Ns Nd input_form extract bb minf_only cutoff_factor g input p0 <> Ok out.
Proof.
  intros name Ns H. split.
  - apply start_up_spec. assert (HN : name <> "fts"%string).
    { destruct H as [[-> _]|[[<-|[<-|[]]] _]]; discriminate. }
    split.
    { destruct H as [[-> ->]|[HI ->]].
      - split; [discriminate|]. intros _ [F|[F|[F|[]]]]; discriminate F.
      - split; [|lia]. intros _. right. right. exact HI. }
    split; [eexists; reflexivity|]. split.
    + intros a b Ha Hb. apply repeat_spec in Ha, Hb. subst a b. exists 1. split; [left; reflexivity|].
      replace (1 / 1 - 1) with 0 by field. rewrite Rabs_R0, Rabs_R1. rewrite eps8, eps5. lra.
    + split; [discriminate|]. intros [_ F]. contradiction.
  - intros inv inv3 solve sc table h stale Nd extract bb minf_only cf g input p0 out HG H0 F.
    unfold main_program in F. apply Proof_Output3.bind_ok in F. destruct F as (w & _ & F). apply Proof_Output3.bind_ok in F. destruct F as (o & F & _).
    apply needs_form in F; [|exact HG|exact H0]. destruct F as [_ F]. cbn [In] in F.
    destruct H as [[-> _]|[[<-|[<-|[]]] _]]; decompose [or] F; try discriminate; contradiction.
Qed.
Print Assumptions C91_unknown_forms_refuted.

(** After the checks both look-ups succeed for any two spheres, except for
    ratios in a sliver at the lower edge of the tolerance. *)
Theorem C91_then_found :
  forall input_form Ns sizes table inputs0 warned,
    start_up input_form Ns sizes table inputs0 = Ok warned ->
    (forall x, In x table -> 0 < x) -> (forall a, In a sizes -> 0 < a) ->
    forall a b, In a sizes -> In b sizes ->
      ((exists n, lam_index table (b / a) = Some n) \/ on_the_edge table (b / a)) /\
      ((exists n, lam_index table (1 / (b / a)) = Some n) \/ on_the_edge table (1 / (b / a))).
Proof.
  intros name Ns sizes table i0 w H HT HS a b Ha Hb. apply start_up_spec in H. destruct H as (_ & _ & H & _).
  assert (G : forall a b, In a sizes -> In b sizes -> (exists n, lam_index table (b / a) = Some n) \/ on_the_edge table (b / a)).
  { clear a b Ha Hb. intros a b Ha Hb. rewrite lookup_iff. apply checked_lookup; [exact HT| |apply H; assumption].
    apply Rdiv_lt_0_compat; apply HS; assumption. }
  split; [apply G; assumption|]. replace (1 / (b / a)) with (a / b); [apply G; assumption|].
  pose proof (HS a Ha). pose proof (HS b Hb). field. lra.
Qed.
Print Assumptions C91_then_found.

(** With spheres only, radii ratios off that edge, and inputs that prescribe
    what the form asks for, the program runs to its end once it has started. *)
Theorem C91_then_completes :
  forall inv inv3 solve sc table h stale Ns input_form extract bb minf_only cutoff_factor g input p0 warned,
    solves_shape solve ->
    start_up input_form Ns (map (c_ssizes p0) (seq 0 Ns)) table (input (1 / 10) p0 0) = Ok warned ->
    (forall x, In x table -> 0 < x) -> (forall i, (i < Ns)%nat -> 0 < c_ssizes p0 i) ->
    (forall i j, (i < Ns)%nat -> (j < Ns)%nat -> ~ on_the_edge table (c_ssizes p0 j / c_ssizes p0 i)) ->
    (form_of_name input_form = ufte -> extract = false) ->
    (forall p t, c_ssizes p = c_ssizes p0 -> c_dsizes p = c_dsizes p0 ->
       exists i f, input (g_dt g) p t = Ok (i, f) /\ complete (form_of_name input_form) Ns 0 i /\
         (free_space f = true \/ (g_use_drag g = false /\ i_Ea i <> []))) ->
    usable g 0 ->
    exists s f, main_program inv inv3 solve sc table h stale Ns 0 input_form extract bb minf_only cutoff_factor g input p0 = Ok (warned, Some (s, f)).
Proof.
  intros inv inv3 solve sc table h stale Ns name extract bb mo cf g input p0 w HS HU HT HP HE HX HI HG.
  assert (HM : forall a, In a (map (c_ssizes p0) (seq 0 Ns)) -> exists i, (i < Ns)%nat /\ a = c_ssizes p0 i).
  { intros a Ha. apply in_map_iff in Ha. destruct Ha as (i & <- & Hi). apply in_seq in Hi. exists i. split; [lia|reflexivity]. }
  destruct (C62_complete inv inv3 solve sc table h stale Ns 0 (form_of_name name) extract bb mo cf g (input (g_dt g)) p0 (map (c_ssizes p0) (seq 0 Ns)))
    as (s & f & E & _).
  - exact HS.
  - intros i Hi. apply in_map_iff. exists i. split; [reflexivity|apply in_seq; lia].
  - intros i Hi. lia.
  - right. apply tabulated_iff. intros a b Ha Hb. pose proof HU as HU'. apply start_up_spec in HU'. destruct HU' as (_ & _ & HC & _).
    destruct (HM a Ha) as (i & Hi & Ea). destruct (HM b Hb) as (j & Hj & Eb).
    destruct (checked_lookup table (b / a) HT) as [F|F].
    + subst a b. apply Rdiv_lt_0_compat; apply HP; assumption.
    + apply HC; assumption.
    + exact F.
    + exfalso. subst a b. exact (HE i j Hi Hj F).
  - exact HX.
  - exact HI.
  - exact HG.
  - exists s, f. unfold main_program. rewrite HU. cbn [bind]. rewrite E. reflexivity.
Qed.
Print Assumptions C91_then_completes.

(** Every example command of README.md passes the checks, without warning, and
    completes. *)
Theorem C91_readme :
  forall inv inv3 solve sc table h stale rand fuel file dt num_frames bl tr setup n input_form u,
    solves_shape solve -> incl [1; 1 / 10; 10] table -> (forall k, 0 <= rand k < 1) ->
    In (setup, n, form_of_name input_form) readme_examples -> (setup = 8%Z -> (0 < w_Ns file)%nat) -> (0 < num_frames)%nat ->
    pos_setup rand fuel file setup = Some (Ok u) ->
    let Ns := List.length (u_sp u) in let Nd := List.length (u_dp u) in
    exists s f,
      main_program inv inv3 solve sc table h stale Ns Nd input_form false true false 2 (shipped_settings dt num_frames bl tr)
        (fun dt p t => input_ftsuoe n (form_of_name input_form) Ns Nd p t dt) (config_of u) = Ok (false, Some (s, f)) /\
      List.length s = S num_frames /\ List.length f = num_frames.
Proof.
  intros inv inv3 solve sc table h stale rand fuel file dt N bl tr k n name u HS HT Hr HI H8 HN Hu Ns Nd.
  assert (Z : forall x, Rabs (x - x) <= / 10 ^ 8 + / 10 ^ 5 * Rabs x).
  { intros x. replace (x - x) with 0 by ring. rewrite Rabs_R0, eps8, eps5. pose proof (Rabs_pos x). lra. }
  assert (RT : forall a b, In a [1; 1 / 10] -> In b [1; 1 / 10] -> In (b / a) table).
  { intros a b [<-|[<-|[]]] [<-|[<-|[]]]; apply HT; cbn [In].
    - left. field.
    - right. left. field.
    - right. right. left. field.
    - left. field. }
  assert (TB : tabulated table [1; 1 / 10]).
  { intros a b Ha Hb. exists (b / a). split; [apply RT; assumption|apply Z]. }
  destruct (C62_readme inv inv3 solve sc table h stale rand fuel file dt N bl tr k n (form_of_name name) u HS TB Hr HI H8 HN Hu) as (s & f & E & L1 & L2).
  fold Ns Nd in E. exists s, f. split; [|split; assumption].
  assert (Hk : (1 <= k <= 8)%Z /\ (1 <= n <= 7)%Z /\ form_of_name name <> fts).
  { unfold readme_examples in HI. cbn [In] in HI. decompose [or] HI; try contradiction;
      match goal with H : (_, _, _) = (_, _, _) |- _ => injection H as <- <- <- end; split; try split; try lia; discriminate. }
  destruct Hk as (Hk & Hn & Hf).
  destruct (needs_form inv inv3 solve sc table h stale Ns Nd name false true false 2 (shipped_settings dt N bl tr)
    (fun p t => input_ftsuoe n (form_of_name name) Ns Nd p t dt) (config_of u) (Some (s, f)) HN eq_refl E) as [SU _].
  destruct (Nat.eq_dec (Ns + Nd) 0) as [HZ|HZ].
  { exfalso. destruct SU as [SU _]. destruct SU as [->|SU]; [lia|apply Hf; reflexivity|].
    unfold readme_examples in HI. cbn [In] in HI, SU.
    destruct SU as [<-|[<-|[<-|[]]]]; decompose [or] HI; try contradiction; discriminate. }
  assert (HW : workable n (form_of_name name) Ns).
  { apply (example_needs inv inv3 solve sc table h stale Ns Nd (form_of_name name) false true false 2 (shipped_settings dt N bl tr) n dt (config_of u) (Some (s, f)));
      try assumption; try lia; try reflexivity. }
  destruct (given_inputs n (form_of_name name) Ns Nd (config_of u) 0 (1 / 10) Hn HW) as (i & fl & Ei & _).
  destruct (setup_radii rand fuel file k u Hk Hu) as [R1 _].
  assert (U : start_up name Ns (map (c_ssizes (config_of u)) (seq 0 Ns)) table (input_ftsuoe n (form_of_name name) Ns Nd (config_of u) 0 (1 / 10)) = Ok false).
  { apply start_up_spec. split; [exact SU|]. split; [exists (i, fl); exact Ei|]. split.
    - assert (LS : (List.length (u_ss u) = Ns)%nat).
      { destruct (Z.eq_dec k 8) as [->|K8].
        - assert (I : forall a b : Model_Setups.setup, Some (Ok a) = Some (Ok b) -> a = b) by congruence.
          unfold pos_setup in Hu. cbn [Z.ltb Z.compare] in Hu. unfold same_setup_as in Hu. cbv zeta in Hu.
          match type of Hu with context [match ?x with Some _ => _ | None => _ end] => destruct x end; try discriminate Hu.
          apply I in Hu. unfold Ns. rewrite <- Hu. cbn [u_sp u_ss]. rewrite map_length, seq_length, repeat_length. reflexivity.
        - destruct (Prop_Setups.C61_setups rand fuel file k Hr) as (_ & HC & _); [lia|]. destruct (HC u Hu) as ((L3 & _) & _). symmetry. exact L3. }
      assert (M : forall a, In a (map (c_ssizes (config_of u)) (seq 0 Ns)) -> In a [1; 1 / 10]).
      { intros a Ha. apply in_map_iff in Ha. destruct Ha as (j & <- & Hj). apply in_seq in Hj. cbn [config_of c_ssizes].
        apply R1, nth_In. lia. }
      intros a b Ha Hb. exists (b / a). split; [apply RT; apply M; assumption|apply Z].
    - split; [discriminate|]. intros [_ F]. exfalso. subst name. apply Hf. reflexivity. }
  unfold main_program. rewrite U. cbn [bind shipped_settings g_dt]. rewrite E. reflexivity.
Qed.
Print Assumptions C91_readme.

(** A look-up finds the one entry that is close, ... *)
Theorem C91_unique :
  forall table r n x, spaced table -> 0 < r -> lam_index table r = Some n ->
    In x table -> Rabs (x - r) <= / 10 ^ 8 + / 10 ^ 5 * Rabs r -> nth n table 0 = x.
Proof. exact lookup_unique. Qed.
Print Assumptions C91_unique.
(** ... and the two look-ups for a pair, of the ratio and of its reciprocal,
    find entries in mirrored places of the table. *)
Theorem C91_mirrored :
  forall lam_range r n m, NoDup lam_range -> (forall x, In x lam_range -> 0 < x) ->
    let table := lam_range_with_reciprocals lam_range in
    spaced table -> 0 < r -> lam_index table r = Some n -> lam_index table (1 / r) = Some m ->
    (n + m + 1 = List.length table)%nat /\ nth n table 0 * nth m table 0 = 1.
Proof.
  intros lam_range r n m ND HP table HS Hr Hn Hm. pose proof (lookup_mirrored lam_range r n m ND HP HS Hr Hn Hm) as E. fold table in E.
  split; [exact E|]. pose proof (index_spec _ _ _ Hn) as [Ln _].
  pose proof (mirrored_nth lam_range n ND HP Ln) as F. fold table in F. replace (List.length table - 1 - n)%nat with m in F by lia. rewrite F.
  field. assert (In (nth n table 0) table) as HI by (apply nth_In; exact Ln). destruct HS as [HS _]. specialize (HS _ HI). lra.
Qed.
Print Assumptions C91_mirrored.

(** Two beads within the cutoff whose ratio cannot be looked up: the first
    frame raises IndexError, in every form and for all inputs. *)
Theorem C91_missing_ratio :
  forall inv inv3 solve sc table h stale Ns Nd fm extract bb cutoff_factor g input p0 i f b b',
    input p0 0 = Ok (i, f) -> free_space f = true -> fm <> stokes_drag_dumbbells_only ->
    (0 < g_num_frames g)%nat -> g_start g = 0%nat -> (0 < g_invert_every g)%nat -> g_scheme g <> other_scheme -> 0 < cutoff_factor ->
    let a := bead_sizes (posdata_of Ns Nd p0) in let x := bead_positions (posdata_of Ns Nd p0) in
    (forall k, (k < Ns + 2 * Nd)%nat -> 0 < a k) -> (b <= b')%nat -> (b' < Ns + 2 * Nd)%nat ->
    norm (vsub (x b) (x b')) < cutoff_factor * (a b + a b') -> ~ can_be_looked_up table (a b' / a b) ->
    full_simulation inv inv3 solve sc table h stale Ns Nd fm extract bb false cutoff_factor g input p0 = Raise IndexError.
Proof.
  intros inv inv3 solve sc table h stale Ns Nd fm extract bb cf g input p0 i f b b' Hi HF Hfm HN H0 HI HS Hcf a x Ha Hb Hb' Hd Hn.
  unfold full_simulation. apply first_frame_raises; try assumption.
  intros vel mi. unfold solve_rest. rewrite Hi. cbn [bind]. rewrite HF.
  assert (N : generate_R2Bexact_free sc table bb (posdata_of Ns Nd p0) cf (f_mu f) = None).
  { apply (near_raises sc table bb (posdata_of Ns Nd p0) cf (f_mu f) b b'); try assumption.
    fold a x. assert (0 < a b) by (apply Ha; lia). assert (0 < a b') by (apply Ha; lia).
    apply (Rmult_lt_reg_r (1 / 2 * (a b' + a b))); [lra|].
    replace (norm (vsub (x b) (x b')) / (1 / 2 * (a b' + a b)) * (1 / 2 * (a b' + a b))) with (norm (vsub (x b) (x b'))) by (field; lra). lra. }
  unfold Model_GrandP.grand_resistance_free. rewrite N. destruct fm; try reflexivity. contradiction.
Qed.
Print Assumptions C91_missing_ratio.

Definition shipped_table : list R := [/ 100; / 10; 1; 10; 100].
Lemma shipped_is_loaded : lam_range_with_reciprocals [1; / 100; / 10] = shipped_table.
Proof. exact Prop_Table.C42_example_list. Qed.
Lemma not_listed r : (/ 100 + 1 / 1000 < r < / 10 - 1 / 1000 \/ / 10 + 1 / 1000 < r < 1 - 1 / 1000 \/ 1 + 1 / 1000 < r < 9) -> ~ can_be_looked_up shipped_table r.
Proof.
  intros H (x & Hx & Hc). rewrite eps8, eps5 in Hc. unfold shipped_table in Hx. cbn [In] in Hx.
  decompose [or] Hx; try contradiction; subst x; unfold Rabs in Hc; revert Hc; repeat destruct Rcase_abs; intros Hc; lra.
Qed.
Definition beside : config :=
  mkConfig (fun _ => 1) (fun _ => v3 0 0 0) (fun _ _ => v3 0 0 0) (fun _ => / 3) (fun _ => v3 2 0 0) (fun _ => v3 1 0 0).
Definition gravity (Ns Nd : nat) : R -> config -> R -> res (inputs * flow) := fun dt p t => input_ftsuoe 1 fte Ns Nd p t dt.
Definition two_spheres (r gap : R) : config :=
  mkConfig (fun k => if Nat.eqb k 0 then 1 else r) (fun k => v3 (INR k * gap) 0 0) (fun _ _ => v3 0 0 0) (fun _ => 0) (fun _ => v3 0 0 0) (fun _ => v3 0 0 0).
Lemma norm_axis t : norm (v3 t 0 0) = Rabs t.
Proof. unfold norm. cbn. replace (t * (t * 1) + 0 * (0 * 1) + 0 * (0 * 1)) with (Rsqr t) by (unfold Rsqr; ring). apply sqrt_Rsqr_abs. Qed.

(** Finding: the radii of dumbbell beads are not checked.  A sphere of radius 1
    beside a dumbbell of beads of radius 1/3: the checks pass, the first frame
    raises. *)
Theorem C91_dumbbells_unchecked_refuted :
  start_up "fte" 1 (map (c_ssizes beside) (seq 0 1)) shipped_table (gravity 1 1 (1 / 10) beside 0) = Ok false /\
  forall inv inv3 solve sc h stale dt num_frames, (0 < num_frames)%nat ->
    main_program inv inv3 solve sc shipped_table h stale 1 1 "fte" false true false 2 (shipped_settings dt num_frames (v3 0 0 0) (v3 0 0 0)) (gravity 1 1) beside
    = Raise IndexError.
Proof.
  assert (U : start_up "fte" 1 (map (c_ssizes beside) (seq 0 1)) shipped_table (gravity 1 1 (1 / 10) beside 0) = Ok false).
  { apply start_up_spec. split; [|split; [|split]].
    - split; [discriminate|]. intros _ [F|[F|[F|[]]]]; discriminate F.
    - eexists. reflexivity.
    - intros a b [<-|[]] [<-|[]]. exists 1. split; [right; right; left; reflexivity|]. cbn [beside c_ssizes]. replace (1 / 1 - 1) with 0 by field.
      rewrite Rabs_R0, Rabs_R1, eps8, eps5. lra.
    - split; [discriminate|intros [_ F]; discriminate F]. }
  split; [exact U|]. intros inv inv3 solve sc h stale dt N HN. unfold main_program. rewrite U. cbn [bind shipped_settings g_dt].
  erewrite (C91_missing_ratio inv inv3 solve sc shipped_table h stale 1 1 (form_of_name "fte") false true 2 _ (gravity 1 1 dt) beside _ _ 0 1);
    [reflexivity|reflexivity|apply free_default|discriminate|exact HN|reflexivity|cbn; lia|discriminate|lra| |lia|lia| |].
  - intros k _. destruct k as [|[|k]]; cbn; lra.
  - unfold bead_sizes, bead_positions. cbn [posdata_of num_spheres num_dumbbells Nat.ltb Nat.leb Nat.add Nat.sub sphere_sizes sphere_positions dumbbell_sizes dumbbell_positions dumbbell_deltax beside c_ssizes c_spos c_dsizes c_dpos c_ddx].
    replace (norm _) with (norm (v3 (- (3 / 2)) 0 0)).
    + rewrite norm_axis, Rabs_left by lra. lra.
    + apply Proof_Periodic2.norm_ext. intros l Hl. idx3 Hl; unfold vsub, vscal; cbn [v3]; lra.
  - cbn. apply not_listed. lra.
Qed.
Print Assumptions C91_dumbbells_unchecked_refuted.

(** Finding: the check measures the deviation against the table, the look-up
    against the ratio.  Radii 1 and 10 - 1e-4 - 1e-8: the check passes for the
    ratio and its reciprocal, the look-up fails. *)
Theorem C91_tolerances_refuted :
  let r := 10 - / 10 ^ 4 - / 10 ^ 8 in let p := two_spheres r 12 in
  start_up "fte" 2 (map (c_ssizes p) (seq 0 2)) shipped_table (gravity 2 0 (1 / 10) p 0) = Ok false /\
  forall inv inv3 solve sc h stale dt num_frames, (0 < num_frames)%nat ->
    main_program inv inv3 solve sc shipped_table h stale 2 0 "fte" false true false 2 (shipped_settings dt num_frames (v3 0 0 0) (v3 0 0 0)) (gravity 2 0) p
    = Raise IndexError.
Proof.
  intros r p.
  assert (Er : r = 10 - 1 / 10000 - 1 / 100000000) by (unfold r; field).
  assert (U : start_up "fte" 2 (map (c_ssizes p) (seq 0 2)) shipped_table (gravity 2 0 (1 / 10) p 0) = Ok false).
  { apply start_up_spec. split; [|split; [|split]].
    - split; [discriminate|]. intros _ [F|[F|[F|[]]]]; discriminate F.
    - eexists. reflexivity.
    - assert (O : is_checked shipped_table 1).
      { exists 1. split; [right; right; left; reflexivity|]. replace (1 - 1) with 0 by field. rewrite Rabs_R0, Rabs_R1, eps8, eps5. lra. }
      assert (A1 : is_checked shipped_table r).
      { exists 10. split; [right; right; right; left; reflexivity|]. rewrite eps8, eps5, (Rabs_right 10) by lra. rewrite Rabs_left by lra. lra. }
      assert (A2 : is_checked shipped_table (1 / r)).
      { exists (/ 10). split; [right; left; reflexivity|]. rewrite eps8, eps5, (Rabs_right (/ 10)) by lra.
        assert (0 < r) by lra. assert (B : 1 / r - / 10 = (10 - r) / (10 * r)) by (field; lra). rewrite B.
        assert (0 < (10 - r) / (10 * r)) by (apply Rdiv_lt_0_compat; lra). rewrite Rabs_right by lra.
        apply (Rmult_le_reg_r (10 * r)); [lra|]. replace ((10 - r) / (10 * r) * (10 * r)) with (10 - r) by (field; lra). lra. }
      unfold p, two_spheres. cbn [c_ssizes seq map Nat.eqb In].
      intros a b [<-|[<-|[]]] [<-|[<-|[]]].
      + replace (1 / 1) with 1 by field. exact O.
      + replace (r / 1) with r by field. exact A1.
      + exact A2.
      + replace (r / r) with 1 by (field; lra). exact O.
    - split; [discriminate|intros [_ F]; discriminate F]. }
  split; [exact U|]. intros inv inv3 solve sc h stale dt N HN. unfold main_program. rewrite U. cbn [bind shipped_settings g_dt].
  erewrite (C91_missing_ratio inv inv3 solve sc shipped_table h stale 2 0 (form_of_name "fte") false true 2 _ (gravity 2 0 dt) p _ _ 0 1);
    [reflexivity|reflexivity|apply free_default|discriminate|exact HN|reflexivity|cbn; lia|discriminate|lra| |lia|lia| |].
  - intros k Hk. unfold bead_sizes, p, two_spheres. cbn [posdata_of num_spheres num_dumbbells sphere_sizes dumbbell_sizes c_ssizes c_dsizes].
    destruct (Nat.ltb_spec k 2); [|lia]. destruct (Nat.eqb k 0); lra.
  - unfold bead_sizes, bead_positions, p, two_spheres. cbn [posdata_of num_spheres num_dumbbells Nat.ltb Nat.leb Nat.eqb sphere_sizes sphere_positions c_ssizes c_spos].
    replace (norm _) with (norm (v3 (- (12)) 0 0)).
    + rewrite norm_axis, Rabs_left by lra. lra.
    + apply Proof_Periodic2.norm_ext. intros l Hl. idx3 Hl; unfold vsub; cbn [v3 INR]; lra.
  - unfold bead_sizes, p, two_spheres. cbn [posdata_of num_spheres num_dumbbells Nat.ltb Nat.leb Nat.eqb sphere_sizes c_ssizes].
    intros (x & Hx & Hc). rewrite eps8, eps5 in Hc. unfold shipped_table in Hx. cbn [In] in Hx. replace (r / 1) with r in Hc by field.
    decompose [or] Hx; try contradiction; subst x; unfold Rabs in Hc; revert Hc; repeat destruct Rcase_abs; intros Hc; lra.
Qed.
Print Assumptions C91_tolerances_refuted.

(** Finding: the check is made although nothing will be looked up.  Radii 1 and
    1/3 with the far field only: refused, though the simulation would
    complete. *)
Theorem C91_unneeded_refuted :
  let p := two_spheres (/ 3) 2 in
  (forall inv inv3 solve sc h stale g,
     main_program inv inv3 solve sc shipped_table h stale 2 0 "fte" false true true 2 g (gravity 2 0) p = Raise SystemExit) /\
  forall inv inv3 solve sc h stale dt num_frames, solves_shape solve -> (0 < num_frames)%nat ->
    exists s f, full_simulation inv inv3 solve sc shipped_table h stale 2 0 fte false true true 2 (shipped_settings dt num_frames (v3 0 0 0) (v3 0 0 0))
      (gravity 2 0 dt) p = Ok (Some (s, f)).
Proof.
  intros p. split.
  - intros inv inv3 solve sc h stale g. unfold main_program.
    assert (U : start_up "fte" 2 (map (c_ssizes p) (seq 0 2)) shipped_table (gravity 2 0 (1 / 10) p 0) = Raise SystemExit).
    { destruct (start_up _ _ _ _ _) as [w|e] eqn:E.
      - exfalso. apply start_up_spec in E. destruct E as (_ & _ & E & _).
        destruct (E 1 (/ 3)) as (x & Hx & Hc); [left; reflexivity|right; left; reflexivity|].
        rewrite eps8, eps5 in Hc. unfold shipped_table in Hx. cbn [In] in Hx. replace (/ 3 / 1) with (/ 3) in Hc by field.
        decompose [or] Hx; try contradiction; subst x; unfold Rabs in Hc; revert Hc; repeat destruct Rcase_abs; intros Hc; lra.
      - apply C91_otherwise in E. destruct E as [->|E]; [reflexivity|discriminate E]. }
    rewrite U. reflexivity.
  - intros inv inv3 solve sc h stale dt N HS HN.
    destruct (C62_complete inv inv3 solve sc shipped_table h stale 2 0 fte false true true 2 (shipped_settings dt N (v3 0 0 0) (v3 0 0 0)) (gravity 2 0 dt) p [1; / 3])
      as (s & f & E & _).
    + exact HS.
    + intros i Hi. unfold p, two_spheres. cbn [c_ssizes]. destruct (Nat.eqb i 0); cbn; auto.
    + intros i Hi. lia.
    + left. reflexivity.
    + discriminate.
    + intros q t _ _. destruct (given_inputs 1 fte 2 0 q t dt) as (i & f & Ei & HC & HF); [lia|left; discriminate|]. exists i, f.
      split; [exact Ei|]. split; [exact HC|]. destruct HF as [HF|HF]; [left; exact HF|right; split; [reflexivity|exact HF]].
    + unfold usable, shipped_settings. cbn [g_scheme g_num_frames g_start g_invert_every g_temp_every g_save_pos g_save_forces g_save_after].
      repeat split; try lia. left. reflexivity.
    + exists s, f. exact E.
Qed.
Print Assumptions C91_unneeded_refuted.

(** The check of the radii of all elements that is switched off: it would set
    the error flag exactly if a ratio is missing, and each element it names
    belongs to a pair with a missing ratio, the first to one with the reported
    ratio. *)
Theorem C91_element_check :
  forall error sizes lam_range Ns,
    (forall a, In a sizes -> 0 < a) -> (forall l, In l lam_range -> l <> 0) -> In 1 lam_range ->
    exists flag said, do_we_have_all_size_ratios error sizes lam_range Ns = Ok (flag, said) /\
      (flag = true <-> error = true \/ exists i j, offending sizes lam_range i j) /\
      match said with
      | None => forall i j, ~ offending sizes lam_range i j
      | Some (ratio, e1, e2) => exists j k, offending sizes lam_range (element_of Ns e1) j /\ ratio = nth j sizes 0 / nth (element_of Ns e1) sizes 0 /\
                                offending sizes lam_range (element_of Ns e2) k
      end.
Proof.
  intros error sizes lr Ns HP HL H1. unfold do_we_have_all_size_ratios.
  destruct (offending_elements sizes lr) as [|[i j] [|[k l] rest]] eqn:E.
  - assert (NO : forall i j, ~ offending sizes lr i j) by (intros i j F; apply offending_spec in F; rewrite E in F; exact F).
    exists error, None. split; [reflexivity|]. split; [|exact NO]. split; [auto|]. intros [F|(i & j & F)]; [exact F|exfalso; exact (NO i j F)].
  - exfalso. assert (F : offending sizes lr i j) by (apply offending_spec; rewrite E; left; reflexivity).
    pose proof (offending_sym sizes lr i j HP HL F) as G. apply offending_spec in G. rewrite E in G. destruct G as [G|[]]. injection G as -> _.
    exact (offending_not_self sizes lr j H1 HP F).
  - assert (F : offending sizes lr i j) by (apply offending_spec; rewrite E; left; reflexivity).
    assert (G : offending sizes lr k l) by (apply offending_spec; rewrite E; right; left; reflexivity).
    eexists _, _. split; [reflexivity|]. split.
    + split; [intros _; right; exists i, j; exact F|reflexivity].
    + exists j, l. rewrite !named. auto.
Qed.
Print Assumptions C91_element_check.

(** Finding: the two elements named need not be the pair with that ratio; they
    may be the same element. *)
Theorem C91_element_names_refuted :
  do_we_have_all_size_ratios false [1; 2; 3] [/ 100; / 10; 1] 3 = Ok (true, Some (2 / 1, sphere_named 0, sphere_named 0)).
Proof.
  unfold do_we_have_all_size_ratios. replace (offending_elements [1; 2; 3] [/ 100; / 10; 1]) with [(0, 1); (0, 2); (1, 0); (1, 2); (2, 0); (2, 1)]%nat; [reflexivity|].
  unfold offending_elements, among. cbn [List.length seq flat_map map app filter fst snd nth existsb].
  replace (1 / / 100) with 100 by field. replace (1 / / 10) with 10 by field. replace (1 / 1) with 1 by field.
  replace (2 / 2) with 1 by field. replace (3 / 3) with 1 by field.
  repeat match goal with
  | |- context [Req_EM_T ?a ?b] => destruct (Req_EM_T a b); [try (exfalso; lra)|try (exfalso; lra)]; cbn [orb negb]
  end. reflexivity.
Qed.
Print Assumptions C91_element_names_refuted.

(** Instances: the shipped list of ratios is spaced; radii 1 and 1/10 pass and
    the ratios 1/10 and 10 are found at places 1 and 3 of 5. *)
Example C91_example_table : NoDup [1; / 100; / 10] /\ (forall x, In x [1; / 100; / 10] -> 0 < x) /\ spaced (lam_range_with_reciprocals [1; / 100; / 10]).
Proof.
  split; [apply Prop_Table.C42_example_hypotheses|]. split; [intros x [<-|[<-|[<-|[]]]]; lra|]. rewrite shipped_is_loaded. unfold shipped_table. split.
  - intros x Hx. cbn [In] in Hx. decompose [or] Hx; try contradiction; subst x; lra.
  - intros x y Hx Hy D. cbn [In] in Hx, Hy. decompose [or] Hx; try contradiction; subst x; decompose [or] Hy; try contradiction; subst y; lra.
Qed.
Example C91_example_index : lam_index shipped_table (/ 10) = Some 1%nat /\ lam_index shipped_table (1 / / 10) = Some 3%nat.
Proof.
  unfold shipped_table, lam_index. replace (1 / / 10) with 10 by field. cbn [lam_index_from].
  unfold isclose. rewrite eps8, eps5.
  assert (T : forall x y, Rleb (Rabs (x - y)) (1 / 100000000 + 1 / 100000 * Rabs y) = true <-> Rabs (x - y) <= 1 / 100000000 + 1 / 100000 * Rabs y).
  { intros x y. apply Proof_Polygon.Rleb_t. }
  assert (Y : forall x, Rleb (Rabs (x - x)) (1 / 100000000 + 1 / 100000 * Rabs x) = true).
  { intros x. apply T. replace (x - x) with 0 by ring. rewrite Rabs_R0. pose proof (Rabs_pos x). lra. }
  assert (N : forall x y, 0 < y -> x < y - 1 / 1000 - 1 / 1000 * y -> Rleb (Rabs (x - y)) (1 / 100000000 + 1 / 100000 * Rabs y) = false).
  { intros x y H0 H. apply not_true_iff_false. intros F. apply T in F. rewrite (Rabs_right y), Rabs_left in F by lra. lra. }
  split.
  - rewrite N by lra. rewrite Y. reflexivity.
  - rewrite N by lra. rewrite N by lra. rewrite N by lra. rewrite Y. reflexivity.
Qed.
Example C91_example_start :
  start_up "fte" 2 [1; / 10] shipped_table (gravity 2 0 (1 / 10) (two_spheres (/ 10) 2) 0) = Ok false /\
  start_up "fts" 2 [1; / 10] shipped_table (gravity 2 0 (1 / 10) (two_spheres (/ 10) 2) 0) = Ok true.
Proof.
  assert (C : forall a b, In a [1; / 10] -> In b [1; / 10] -> is_checked shipped_table (b / a)).
  { assert (Z : forall x, Rabs (x - x) <= / 10 ^ 8 + / 10 ^ 5 * Rabs x).
    { intros x. replace (x - x) with 0 by ring. rewrite Rabs_R0, eps8, eps5. pose proof (Rabs_pos x). lra. }
    intros a b [<-|[<-|[]]] [<-|[<-|[]]]; [exists 1|exists (/ 10)|exists 10|exists 1].
    - split; [right; right; left; reflexivity|]. replace (1 / 1) with 1 by field. apply Z.
    - split; [right; left; reflexivity|]. replace (/ 10 / 1) with (/ 10) by field. apply Z.
    - split; [right; right; right; left; reflexivity|]. replace (1 / / 10) with 10 by field. apply Z.
    - split; [right; right; left; reflexivity|]. replace (/ 10 / / 10) with 1 by field. apply Z. }
  split; apply start_up_spec; (split; [split; [discriminate|]; intros _ [F|[F|[F|[]]]]; discriminate F|]); (split; [eexists; reflexivity|]);
    (split; [exact C|]).
  - split; [discriminate|intros [_ F]; discriminate F].
  - split; [intros _; split; [lia|reflexivity]|reflexivity].
Qed.
