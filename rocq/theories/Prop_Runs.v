(** C62: which runs complete, and what they save. *)
From Coq Require Import Reals List Arith ZArith Bool Lra Lia FunctionalExtensionality.
From Verif Require Import Base Py Model_Close Model_R2B Model_Step Model_Output Model_Frame Model_Inputs Model_Sim Model_Setups
  Spec_Output Spec_Runs Spec_Setups Prop_Setups Proof_Runs Proof_Runs2 Proof_Runs3 Proof_Runs4.
Import ListNotations.
Local Open Scope R_scope.

(** Any numerical routines, any configuration, any inputs: if at every
    configuration with these radii the inputs are complete, radii ratios are
    tabulated and the settings usable, the run ends without exception and
    writes its output; saving every frame it holds the positions before and
    after every frame and the forces of every frame. *)
Theorem C62_complete :
  forall inv inv3 solve sc table h stale Ns Nd fm extract bb minf_only cutoff_factor g input p0 sizes,
    solves_shape solve ->
    (forall i, (i < Ns)%nat -> In (c_ssizes p0 i) sizes) -> (forall i, (i < Nd)%nat -> In (c_dsizes p0 i) sizes) ->
    minf_only = true \/ tabulated table sizes ->
    (fm = ufte -> extract = false) ->
    (forall p t, c_ssizes p = c_ssizes p0 -> c_dsizes p = c_dsizes p0 ->
       exists i f, input p t = Ok (i, f) /\ complete fm Ns Nd i /\
         (free_space f = true \/ (g_use_drag g = false /\ i_Ea i <> []))) ->
    usable g Nd ->
    exists s f, full_simulation inv inv3 solve sc table h stale Ns Nd fm extract bb minf_only cutoff_factor g input p0 = Ok (Some (s, f)) /\
      (g_save_pos g = 1%nat -> g_save_forces g = 1%nat -> (g_explosion g = false \/ Nd = 0%nat) ->
       length s = S (g_num_frames g) /\ length f = g_num_frames g).
Proof. intros. eapply whole_returns; eassumption. Qed.
Print Assumptions C62_complete.

(** The example inputs 1 to 7: a run completes exactly in the combinations of
    input, form and number of spheres listed in [workable]. *)
Theorem C62_examples :
  forall inv inv3 solve sc table h stale Ns Nd fm bb minf_only cutoff_factor g n dt p0 sizes,
    solves_shape solve -> (0 < Ns + Nd)%nat -> (1 <= n <= 7)%Z ->
    (forall i, (i < Ns)%nat -> In (c_ssizes p0 i) sizes) -> (forall i, (i < Nd)%nat -> In (c_dsizes p0 i) sizes) ->
    minf_only = true \/ tabulated table sizes -> usable g Nd -> g_use_drag g = false ->
    (exists out, full_simulation inv inv3 solve sc table h stale Ns Nd fm false bb minf_only cutoff_factor g
                   (fun p t => input_ftsuoe n fm Ns Nd p t dt) p0 = Ok out)
    <-> workable n fm Ns.
Proof.
  intros inv inv3 solve sc table h stale Ns Nd fm bb minf_only cf g n dt p0 sizes HS HP Hn H1 H2 HT HG HD. split.
  - intros [out H]. destruct HG as (_ & HN & H0 & _). eapply example_needs; eassumption.
  - intros HW. destruct (C62_complete inv inv3 solve sc table h stale Ns Nd fm false bb minf_only cf g
      (fun p t => input_ftsuoe n fm Ns Nd p t dt) p0 sizes) as (s & f & E & _); try assumption; try reflexivity.
    + intros p t _ _. destruct (given_inputs n fm Ns Nd p t dt Hn HW) as (i & f & Ei & HC & HF). exists i, f.
      split; [exact Ei|]. split; [exact HC|]. destruct HF as [HF|HF]; [left; exact HF|right; split; [exact HD|exact HF]].
    + eexists. exact E.
Qed.
Print Assumptions C62_examples.

Lemma setup_radii rand fuel file n u : (1 <= n <= 8)%Z -> pos_setup rand fuel file n = Some (Ok u) ->
  (forall r, In r (u_ss u) -> In r [1; 1 / 10]) /\ (forall r, In r (u_ds u) -> In r [1; 1 / 10]).
Proof.
  intros Hn H.
  assert (R1 : forall k r, In r (repeat 1 k) -> In r [1; 1 / 10]). { intros k r Hr. left. symmetry. exact (repeat_spec k 1 r Hr). }
  assert (R2 : forall k r, In r (repeat (1 / 10) k) -> In r [1; 1 / 10]). { intros k r Hr. right. left. symmetry. exact (repeat_spec k (1 / 10) r Hr). }
  assert (Hn' : (n = 1 \/ n = 2 \/ n = 3 \/ n = 4 \/ n = 5 \/ n = 6 \/ n = 7 \/ n = 8)%Z) by lia. clear Hn.
  assert (SO : forall k l, u = spheres_only (repeat 1 k) l -> (forall r, In r (u_ss u) -> In r [1; 1 / 10]) /\ (forall r, In r (u_ds u) -> In r [1; 1 / 10])).
  { intros k l ->. split; [exact (R1 k)|intros r []]. }
  assert (E : forall a b : setup, Some (Ok a) = Some (Ok b) -> a = b) by congruence.
  decompose [or] Hn'; subst n; unfold pos_setup in H; cbn [Z.ltb Z.compare] in H.
  - apply (SO 15%nat (map (fun i => v3 (4 * INR i) 0 0) (seq 0 15))). congruence.
  - apply E in H. apply (SO 3%nat [v3 (- (5)) 0 0; v3 0 0 0; v3 7 0 0]). symmetry. exact H.
  - unfold simple_cubic_8 in H. eapply (SO 8%nat). symmetry. apply E. exact H.
  - apply E in H. subst u. cbn [u_ss u_ds].
    split; intros r Hr; [apply (R1 2%nat); exact Hr|apply (R2 2%nat); exact Hr].
  - destruct (Model_Place.randomise_spheres _ _ _ _ _ _ _) as [[[ps k]|e]|]; try discriminate H. cbn [bind] in H.
    apply (SO 41%nat ps). congruence.
  - destruct (Model_Place.randomise_dumbbells _ _ _ _ _ _ _ _ _ _) as [[[dsb k]|e]|]; try discriminate H. cbn [bind] in H.
    apply E in H. subst u. cbn [u_ss u_ds].
    split; intros r Hr; [apply (R1 (45 * 2)%nat); exact Hr|apply (R2 (100 * 2)%nat); exact Hr].
  - apply E in H. eapply (SO (45 * 2 + 9)%nat). symmetry. exact H.
  - unfold same_setup_as in H. cbv zeta in H.
      match type of H with context [match ?x with Some _ => _ | None => _ end] => destruct x end; try discriminate H;
      (apply E in H; subst u; cbn [u_ss u_ds];
       split; intros r Hr; [apply (R1 (w_Ns file)); exact Hr|apply (R2 (w_Nd file)); exact Hr]).
Qed.

(** Every example command of README.md runs to completion, with the settings
    the repository comes with: for any random numbers for which the setup
    terminates, any timestep, any number of frames, and for command 8 any file
    of a simulation with at least one sphere.  The output holds one more
    entry of positions than frames and one entry of forces per frame. *)
Theorem C62_readme :
  forall inv inv3 solve sc table h stale rand fuel file dt num_frames bl tr setup n fm u,
    solves_shape solve -> tabulated table [1; 1 / 10] -> (forall k, 0 <= rand k < 1) ->
    In (setup, n, fm) readme_examples -> (setup = 8%Z -> (0 < w_Ns file)%nat) -> (0 < num_frames)%nat ->
    pos_setup rand fuel file setup = Some (Ok u) ->
    let Ns := length (u_sp u) in let Nd := length (u_dp u) in
    exists s f,
      full_simulation inv inv3 solve sc table h stale Ns Nd fm false true false 2 (shipped_settings dt num_frames bl tr)
        (fun p t => input_ftsuoe n fm Ns Nd p t dt) (config_of u) = Ok (Some (s, f)) /\
      length s = S num_frames /\ length f = num_frames.
Proof.
  intros inv inv3 solve sc table h stale rand fuel file dt N bl tr k n fm u HS HT Hr HI H8 HN Hu Ns Nd.
  assert (Hk : (1 <= k <= 8)%Z /\ (1 <= n <= 7)%Z).
  { unfold readme_examples in HI. cbn [In] in HI. decompose [or] HI; try contradiction;
      match goal with H : (_, _, _) = (_, _, _) |- _ => injection H as <- <- _ end; lia. }
  destruct Hk as [Hk Hn].
  destruct (setup_radii rand fuel file k u Hk Hu) as [R1 R2].
  assert (L : length (u_sp u) = length (u_ss u) /\ length (u_dp u) = length (u_ds u) /\
              (k <> 8%Z -> Ns = fst (advertised k)) /\ (k = 8%Z -> Ns = w_Ns file)).
  { destruct (Z.eq_dec k 8) as [->|K8].
    - assert (E : forall a b : Model_Setups.setup, Some (Ok a) = Some (Ok b) -> a = b) by congruence.
      unfold pos_setup in Hu. cbn [Z.ltb Z.compare] in Hu. unfold same_setup_as in Hu. cbv zeta in Hu.
      match type of Hu with context [match ?x with Some _ => _ | None => _ end] => destruct x end; try discriminate Hu.
      apply E in Hu. unfold Ns. rewrite <- Hu. cbn [u_sp u_ss u_dp u_ds]. rewrite !map_length, !seq_length, !repeat_length. repeat split; congruence.
    - destruct (C61_setups rand fuel file k Hr) as (_ & HC & _); [lia|]. destruct (HC u Hu) as ((L1 & L2 & _) & LA & _).
      split; [exact L1|]. split; [exact L2|]. split; [intros _; unfold Ns; rewrite <- LA; reflexivity|contradiction]. }
  destruct L as (L1 & L2 & L3 & L4).
  assert (HW : workable n fm Ns).
  { unfold readme_examples in HI. cbn [In] in HI. decompose [or] HI; try contradiction;
      match goal with H : (_, _, _) = (_, _, _) |- _ => injection H as <- <- <- end; unfold workable;
      try (rewrite L3 by discriminate; cbn [advertised fst Nat.eqb]; first [left; discriminate|right; right; left; reflexivity|
        right; right; right; split; [reflexivity|lia]]).
    destruct (Nat.eqb_spec Ns 0) as [E|E]; [rewrite L4 in E by reflexivity; specialize (H8 eq_refl); lia|left; discriminate]. }
  destruct (C62_complete inv inv3 solve sc table h stale Ns Nd fm false true false 2 (shipped_settings dt N bl tr)
    (fun p t => input_ftsuoe n fm Ns Nd p t dt) (config_of u) [1; 1 / 10]) as (s & f & E & HL).
  - exact HS.
  - intros i Hi. cbn [config_of c_ssizes]. apply R1, nth_In. unfold Ns in Hi. lia.
  - intros i Hi. cbn [config_of c_dsizes]. apply R2, nth_In. unfold Nd in Hi. lia.
  - right. exact HT.
  - reflexivity.
  - intros p t _ _. destruct (given_inputs n fm Ns Nd p t dt Hn HW) as (i & f & Ei & HC & HF). exists i, f.
    split; [exact Ei|]. split; [exact HC|]. destruct HF as [HF|HF]; [left; exact HF|right; split; [reflexivity|exact HF]].
  - unfold usable, shipped_settings. cbn [g_scheme g_num_frames g_start g_invert_every g_temp_every g_save_pos g_save_forces g_save_after].
    repeat split; try lia. left. reflexivity.
  - exists s, f. split; [exact E|]. apply HL; try reflexivity. left. reflexivity.
Qed.
Print Assumptions C62_readme.

(** Finding: in forms fts and fte the velocities prescribed by example input 5
    are silently ignored; the run is the one with no forcing at all. *)
Theorem C62_velocities_ignored_refuted :
  forall inv inv3 solve sc table h stale Ns Nd fm extract bb minf_only cutoff_factor g dt p0,
    fm = fts \/ fm = fte ->
    full_simulation inv inv3 solve sc table h stale Ns Nd fm extract bb minf_only cutoff_factor g
      (fun p t => input_ftsuoe 5 fm Ns Nd p t dt) p0 =
    full_simulation inv inv3 solve sc table h stale Ns Nd fm extract bb minf_only cutoff_factor g
      (fun _ _ => Ok (default_inputs fm Ns Nd, default_flow)) p0.
Proof.
  intros inv inv3 solve sc table h stale Ns Nd fm extract bb minf_only cf g dt p0 Hf. unfold full_simulation.
  assert (E1 : far_inverse inv h stale Ns Nd bb g (fun p t => input_ftsuoe 5 fm Ns Nd p t dt) =
               far_inverse inv h stale Ns Nd bb g (fun _ _ => Ok (default_inputs fm Ns Nd, default_flow))).
  { extensionality p. extensionality t. reflexivity. }
  rewrite E1. f_equal. extensionality p. extensionality t. extensionality vel. extensionality mi.
  unfold solve_rest. cbn [input_ftsuoe Z.ltb Z.compare bind].
  destruct Hf as [-> | ->].
  - unfold generate_output, output_fts. rewrite free_default. cbn [with_Ua i_Ua i_Fa i_Ta i_Sa i_Fb i_DFb i_Ea default_inputs empty_vectors].
    rewrite opposed_length, repeat_length. reflexivity.
  - rewrite free_default. reflexivity.
Qed.
Print Assumptions C62_velocities_ignored_refuted.

(** Instances: the table needs the ratios 1, 1/10 and 10 only; the hypotheses
    of [C62_readme] hold for a solver which returns the right-hand side. *)
Example C62_example_table : tabulated [1; 1 / 10; 10] [1; 1 / 10].
Proof.
  assert (Z : forall x, Rabs (x - x) <= / 10 ^ 8 + / 10 ^ 5 * Rabs x).
  { intros x. replace (x - x) with 0 by ring. rewrite Rabs_R0. pose proof (Rabs_pos x).
    assert (0 < / 10 ^ 8) by (apply Rinv_0_lt_compat; lra). assert (0 < / 10 ^ 5) by (apply Rinv_0_lt_compat; lra).
    assert (0 <= / 10 ^ 5 * Rabs x) by (apply Rmult_le_pos; lra). lra. }
  intros a b [<-|[<-|[]]] [<-|[<-|[]]].
  - exists 1. split; [left; reflexivity|]. replace (1 / 1) with 1 by field. apply Z.
  - exists (1 / 10). split; [right; left; reflexivity|]. replace (1 / 10 / 1) with (1 / 10) by field. apply Z.
  - exists 10. split; [right; right; left; reflexivity|]. replace (1 / (1 / 10)) with 10 by field. apply Z.
  - exists 1. split; [left; reflexivity|]. replace (1 / 10 / (1 / 10)) with 1 by field. apply Z.
Qed.
Example C62_example :
  exists u s f, pos_setup (fun _ => 0) 0 (mkSaved 0 0 []) 4 = Some (Ok u) /\
    full_simulation (fun _ A => A) (fun A => A) (fun _ _ b => b) (fun _ _ _ _ => 0) [1; 1 / 10; 10] 2 (fun _ _ => 0) 2 2 fte false true false 2
      (shipped_settings 1 100 (v3 0 0 0) (v3 0 0 0)) (fun p t => input_ftsuoe 3 fte 2 2 p t 1) (config_of u) = Ok (Some (s, f)) /\
    length s = 101%nat /\ length f = 100%nat.
Proof.
  destruct (pos_setup (fun _ => 0) 0 (mkSaved 0 0 []) 4) as [[u|e]|] eqn:E; [|discriminate E|discriminate E]. exists u.
  destruct (C62_readme (fun _ A => A) (fun A => A) (fun _ _ b => b) (fun _ _ _ _ => 0) [1; 1 / 10; 10] 2%nat (fun _ _ => 0)
    (fun _ => 0) 0%nat (mkSaved 0 0 []) 1 100%nat (v3 0 0 0) (v3 0 0 0) 4%Z 3%Z fte u) as (s & f & H & L).
  - intros n A b Hb. exact Hb.
  - exact C62_example_table.
  - intros _. lra.
  - unfold readme_examples. cbn [In]. tauto.
  - discriminate.
  - lia.
  - exact E.
  - exists s, f. split; [reflexivity|]. split; [|exact L]. unfold pos_setup in E. cbn [Z.ltb Z.compare] in E.
    assert (I : forall a b : setup, Some (Ok a) = Some (Ok b) -> a = b) by congruence. apply I in E. subst u. exact H.
Qed.
(** Not workable: three spheres falling under gravity in form duf, sheared
    spheres in form ufte, dumbbells alone in form fte. *)
Example C62_example_unworkable : ~ workable 1 duf 3 /\ ~ workable 7 ufte 3 /\ ~ workable 3 fte 0 /\ workable 3 fts 0 /\ ~ workable 6 fte 3.
Proof.
  unfold workable. cbn [Nat.eqb]. repeat split; try lia; try (intros []; fail); try (intros [? _]; discriminate); try (left; reflexivity).
Qed.
