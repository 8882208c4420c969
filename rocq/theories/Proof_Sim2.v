(** Translation of a whole run: matrices, solution, inputs. *)
From Coq Require Import Reals List Arith ZArith Bool Lra Lia FunctionalExtensionality.
From Verif Require Import Base Py Model_Mob Model_Minf Model_Grand Model_Close Model_R2B Model_MinfP Model_GrandP
  Model_Step Model_Shear Model_Repulsion Model_Pack Model_Output Model_Frame Model_Inputs Model_Sim Spec_Minf Spec_Sim
  Proof_Minf3 Proof_R2B4 Proof_GrandP Proof_Output3 Proof_Sim.
Import ListNotations.
Local Open Scope R_scope.

Lemma cross0 O v l : (forall k, (k < 3)%nat -> O k = 0) -> cross O v l = 0.
Proof. intros H. unfold cross. destruct l as [|[|[|l]]]; cbn; rewrite ?(H 0%nat), ?(H 1%nat), ?(H 2%nat) by lia; ring. Qed.

Lemma solution_along o f c :
  solution_of o (mkFlow (f_U f) (f_O f) c (f_Ot f) (f_Et f) (f_bl f) (f_tr f) (f_mu f)) = recentre c (solution_of o f).
Proof. reflexivity. Qed.

Section Full.
Variable inv : nat -> mat -> mat.
Variable inv3 : mat -> mat.
Variable solve : nat -> mat -> list R -> list R.
Variable sc : nat -> nat -> R -> nat -> R.
Variable table : list R.
Variable h : nat.
Variable stale : nat -> nat -> R.
Variables Ns Nd : nat.
Variable fm : form.
Variables extract bb minf_only : bool.
Variable cutoff_factor : R.
Variable g : settings.
Variable d : vec.

Lemma posdata_moved p : posdata_of Ns Nd (moved d p) = translate d (posdata_of Ns Nd p).
Proof. reflexivity. Qed.

Lemma minfinity_inverse_translate q mu dr rg l :
  Minfinity_inverse inv bb (translate d q) mu dr rg l = Minfinity_inverse inv bb q mu dr rg l.
Proof. unfold Minfinity_inverse. rewrite gen_translate. reflexivity. Qed.

(** The solver for given inputs, free space. *)
Lemma no_box_free input p t i f : no_box input -> input p t = Ok (i, f) -> free_space f = true.
Proof.
  intros H E. unfold free_space, is_zero3, vsub, Reqb. rewrite !(H p t i f E) by lia. rewrite !Rminus_diag_eq by reflexivity.
  destruct (Req_EM_T 0 0); [reflexivity|congruence].
Qed.

Section Centre.
Variables input input' : config -> R -> res (inputs * flow).
Variable nf : flow -> vec.
Hypothesis Hin : forall p t, input' (moved d p) t =
  map_res (fun r => (fst r, mkFlow (f_U (snd r)) (f_O (snd r)) (nf (snd r)) (f_Ot (snd r)) (f_Et (snd r))
                                   (f_bl (snd r)) (f_tr (snd r)) (f_mu (snd r)))) (input p t).
Hypothesis Hbox : no_box input.

Lemma far_inverse_moved p t :
  far_inverse inv h stale Ns Nd bb g input' (moved d p) t = far_inverse inv h stale Ns Nd bb g input p t.
Proof.
  unfold far_inverse. rewrite Hin. destruct (input p t) as [[i f]|e] eqn:E; [|reflexivity]. cbn [map_res fst snd].
  change (free_space (mkFlow (f_U f) (f_O f) (nf f) (f_Ot f) (f_Et f) (f_bl f) (f_tr f) (f_mu f))) with (free_space f).
  rewrite (no_box_free input p t i f Hbox E). rewrite posdata_moved, minfinity_inverse_translate. reflexivity.
Qed.

Lemma solve_rest_moved p t vel mi :
  match input p t with
  | Raise e => solve_rest inv inv3 solve sc table h stale Ns Nd fm extract bb minf_only cutoff_factor g input' (moved d p) t vel mi = Raise e
      /\ solve_rest inv inv3 solve sc table h stale Ns Nd fm extract bb minf_only cutoff_factor g input p t vel mi = Raise e
  | Ok (i, f) =>
      solve_rest inv inv3 solve sc table h stale Ns Nd fm extract bb minf_only cutoff_factor g input' (moved d p) t vel mi =
      map_res (recentre (nf f)) (solve_rest inv inv3 solve sc table h stale Ns Nd fm extract bb minf_only cutoff_factor g input p t vel mi)
  end.
Proof.
  unfold solve_rest. rewrite Hin. destruct (input p t) as [[i f]|e] eqn:E; [|split; reflexivity]. cbn [map_res fst snd bind].
  change (free_space (mkFlow (f_U f) (f_O f) (nf f) (f_Ot f) (f_Et f) (f_bl f) (f_tr f) (f_mu f))) with (free_space f).
  rewrite (no_box_free input p t i f Hbox E). rewrite posdata_moved. cbn [f_mu].
  rewrite (Proof_GrandP.free_translate inv sc table bb (posdata_of Ns Nd p) cutoff_factor (f_mu f) mi false false false minf_only d).
  destruct (grand_resistance_free inv sc table bb (posdata_of Ns Nd p) mi false cutoff_factor false false minf_only (f_mu f)) as [[G m]|e];
    [|destruct fm; reflexivity].
  cbn [bind]. destruct (generate_output inv solve Ns Nd fm extract G i (fun _ => i)) as [o|e] eqn:Eo; [|destruct fm; reflexivity].
  cbn [bind]. rewrite solution_along. destruct fm; try reflexivity. destruct (Nat.ltb 0 Ns); reflexivity.
Qed.
End Centre.

(** The strain returned is the strain given, except in form fts. *)
Lemma output_strain G i o :
  fm <> fts -> generate_output inv solve Ns Nd fm extract G i (fun _ => i) = Ok o ->
  i_Ea i = map Some (Model_Output.o_Ea o).
Proof.
  intros Hf H. unfold generate_output in H. destruct fm; try discriminate H; try (exfalso; apply Hf; reflexivity).
  - unfold output_fte in H. repeat match goal with
      | H : bind _ _ = Ok _ |- _ => apply bind_ok in H; destruct H as (? & ? & H)
      | H : (let '(_, _) := ?r in _) = Ok _ |- _ => destruct r
      end. injection H as <-. cbn [Model_Output.o_Ea].
    match goal with H : given _ (i_Ea i) = Ok _ |- _ => apply given_ok in H; exact H end.
  - unfold output_ufte in H. cbv zeta in H. destruct extract; repeat match goal with
      | H : bind _ _ = Ok _ |- _ => apply bind_ok in H; destruct H as (? & ? & H)
      | H : (let '(_, _) := ?r in _) = Ok _ |- _ => destruct r
      end; [discriminate H|]. injection H as <-. cbn [Model_Output.o_Ea].
    match goal with H : given _ (i_Ea i) = Ok _ |- _ => apply given_ok in H; exact H end.
  - unfold output_ufteu in H. cbv zeta in H. repeat match goal with
      | H : bind _ _ = Ok _ |- _ => apply bind_ok in H; destruct H as (? & ? & H)
      | H : (let '(_, _) := ?r in _) = Ok _ |- _ => destruct r
      end. injection H as <-. cbn [Model_Output.o_Ea].
    match goal with H : given _ (i_Ea i) = Ok _ |- _ => apply given_ok in H; exact H end.
  - unfold output_duf in H. cbv zeta in H. repeat match goal with
      | H : bind _ _ = Ok _ |- _ => apply bind_ok in H; destruct H as (? & ? & H)
      | H : (let '(_, _) := ?r in _) = Ok _ |- _ => destruct r
      end. injection H as <-. cbn [Model_Output.o_Ea].
    match goal with H : given _ (i_Ea i) = Ok _ |- _ => apply given_ok in H; exact H end.
Qed.

Lemma solve_rest_strain input p t vel mi s :
  solve_rest inv inv3 solve sc table h stale Ns Nd fm extract bb minf_only cutoff_factor g input p t vel mi = Ok s ->
  exists i f o, input p t = Ok (i, f) /\ s = solution_of o f /\ (fm <> fts -> i_Ea i = map Some (Model_Output.o_Ea o)).
Proof.
  unfold solve_rest. intros H. apply bind_ok in H. destruct H as ([i f] & Hi & H).
  assert (K : exists o, s = solution_of o f /\ (fm <> fts -> i_Ea i = map Some (Model_Output.o_Ea o))).
  { assert (K : exists G o, generate_output inv solve Ns Nd fm extract G i (fun _ => i) = Ok o /\ s = solution_of o f).
    { destruct fm; try discriminate H; apply bind_ok in H; destruct H as ([G m] & HG & H);
        apply bind_ok in H; destruct H as (o & Ho & H); try destruct (Nat.ltb 0 Ns); try discriminate H;
        injection H as <-; exists G, o; (split; [exact Ho|reflexivity]). }
    destruct K as (G & o & Ho & ->). exists o. split; [reflexivity|]. intros Hf. exact (output_strain G i o Hf Ho). }
  destruct K as (o & ? & ?). exists i, f, o. repeat split; assumption.
Qed.

Notation full input := (full_simulation inv inv3 solve sc table h stale Ns Nd fm extract bb minf_only cutoff_factor g input).

(** Case A: the centre of the flow moves with the particles. *)
Theorem translation input input' p :
  periodic g = false -> no_box input -> moves_with d input input' ->
  full input' (moved d p) = map_res (option_map (moved_file d)) (full input p).
Proof.
  intros Hper Hbox Hin. unfold full_simulation.
  apply (simulate_moved inv3 Ns Nd _ _ _ _ g d Hper) with (nc := fun s => vadd (o_centre s) d) (Q := fun _ => True).
  - intros q t. exact (far_inverse_moved input input' (fun f => vadd (f_centre f) d) Hin Hbox q t).
  - exact I.
  - intros q t vel mi s H. split; [intros; exact I|]. intros E x l _. rewrite vsub_moved. reflexivity.
  - intros q t vel mi. pose proof (solve_rest_moved input input' (fun f => vadd (f_centre f) d) Hin Hbox q t vel mi) as K.
    destruct (input q t) as [[i f]|e] eqn:Ei.
    + rewrite K. clear K.
      destruct (solve_rest inv inv3 solve sc table h stale Ns Nd fm extract bb minf_only cutoff_factor g input q t vel mi) as [s|e] eqn:Es; [|reflexivity].
      destruct (solve_rest_strain input q t vel mi s Es) as (i' & f' & o & Hi & -> & _). rewrite Ei in Hi. injection Hi as <- <-. reflexivity.
    + destruct K as [-> ->]. reflexivity.
Qed.

(** Case B: no rotation, no strain; nothing but the particles moves. *)
Theorem translation_no_flow input p :
  periodic g = false -> no_box input -> relative_inputs d input -> no_strain input -> fm <> fts ->
  full input (moved d p) = map_res (option_map (moved_file d)) (full input p).
Proof.
  intros Hper Hbox Hrel Hst Hfm. unfold full_simulation.
  assert (Hin : forall p t, input (moved d p) t =
    map_res (fun r => (fst r, mkFlow (f_U (snd r)) (f_O (snd r)) (f_centre (snd r)) (f_Ot (snd r)) (f_Et (snd r))
                                     (f_bl (snd r)) (f_tr (snd r)) (f_mu (snd r)))) (input p t)).
  { intros q t. rewrite Hrel. destruct (input q t) as [[i [? ? ? ? ? ? ? ?]]|e]; reflexivity. }
  apply (simulate_moved inv3 Ns Nd _ _ _ _ g d Hper) with (nc := fun s => o_centre s) (Q := fun E => forall x l, mvec 3 E x l = 0).
  - intros q t. exact (far_inverse_moved input input f_centre Hin Hbox q t).
  - intros x l. unfold mvec, rsum, mzero. cbn. ring.
  - intros q t vel mi s H. destruct (solve_rest_strain input q t vel mi s H) as (i & f & o & Hi & -> & HE).
    destruct (Hst q t i f Hi) as [HO HS]. specialize (HE Hfm). split.
    + cbn [solution_of o_Ea]. intros E HIn. apply in_map_iff in HIn. destruct HIn as (m & <- & Hm).
      assert (Hm' : In (Some m) (i_Ea i)) by (rewrite HE; apply in_map; exact Hm).
      assert (Z : forall a b, unrow2 m a b = 0).
      { intros a b. unfold unrow2. destruct (lt_dec a (length m)) as [Ha|Ha].
        - destruct (lt_dec b (length (nth a m []))) as [Hb|Hb].
          + exact (HS m Hm' _ _ (nth_In m [] Ha) (nth_In _ 0 Hb)).
          + apply nth_overflow. lia.
        - rewrite (nth_overflow m) by lia. destruct b; reflexivity. }
      intros x l. unfold mvec. cbn. rewrite !Z. ring.
    + cbn [solution_of o_Oinf o_centre]. intros E x l HE0. rewrite !HE0, !cross0 by exact HO. reflexivity.
  - intros q t vel mi. pose proof (solve_rest_moved input input f_centre Hin Hbox q t vel mi) as K.
    destruct (input q t) as [[i f]|e] eqn:Ei.
    + rewrite K. clear K.
      destruct (solve_rest inv inv3 solve sc table h stale Ns Nd fm extract bb minf_only cutoff_factor g input q t vel mi) as [s|e] eqn:Es; [|reflexivity].
      destruct (solve_rest_strain input q t vel mi s Es) as (i' & f' & o & Hi & -> & _). rewrite Ei in Hi. injection Hi as <- <-. reflexivity.
    + destruct K as [K1 K2]. rewrite K1, K2. reflexivity.
Qed.
End Full.

(** The repulsion forces depend on relative positions only. *)
Lemma repulsion_beads_moved Ns Nd spos dpos ddx d b :
  bead_positions Ns Nd (fun i => vadd (spos i) d) (fun i => vadd (dpos i) d) ddx b = vadd (bead_positions Ns Nd spos dpos ddx b) d.
Proof.
  unfold bead_positions. destruct (Nat.ltb b Ns); [reflexivity|].
  destruct (Nat.ltb b (Ns + Nd)); extensionality l; unfold vadd; ring.
Qed.
Lemma repulsion_moved s tau Ns Nd spos dpos ddx ss ds lid Fa Fb DFb d :
  repulsion_forces s tau Ns Nd (fun i => vadd (spos i) d) (fun i => vadd (dpos i) d) ddx ss ds lid Fa Fb DFb =
  repulsion_forces s tau Ns Nd spos dpos ddx ss ds lid Fa Fb DFb.
Proof.
  assert (D : scaled_distance_matrix Ns Nd (fun i => vadd (spos i) d) (fun i => vadd (dpos i) d) ddx ss ds =
              scaled_distance_matrix Ns Nd spos dpos ddx ss ds).
  { extensionality i. extensionality j. unfold scaled_distance_matrix. rewrite !repulsion_beads_moved, vsub_moved. reflexivity. }
  assert (B : bead_force s tau Ns Nd (fun i => vadd (spos i) d) (fun i => vadd (dpos i) d) ddx ss ds =
              bead_force s tau Ns Nd spos dpos ddx ss ds).
  { unfold bead_force, overlapping_or_close_pairs. rewrite D.
    assert (P : repel s tau Ns Nd (fun i => vadd (spos i) d) (fun i => vadd (dpos i) d) ddx ss ds = repel s tau Ns Nd spos dpos ddx ss ds).
    { extensionality f. extensionality q. unfold repel. rewrite D, !repulsion_beads_moved, vsub_moved. reflexivity. }
    rewrite P. reflexivity. }
  unfold repulsion_forces. rewrite B. reflexivity.
Qed.

Definition still_inputs : list Z := [-1; -2; -3; -4; -5; -6; -7; -8; -12; -13; 1; 4; 5; 6]%Z.

Lemma tests_keep_Ea n i i' : In n [-1; -2; -3; -4; -5; -6; -7; -8; -12; -13]%Z ->
  input_ftsuoe_tests n i = Ok i' -> i_Ea i' = i_Ea i.
Proof.
  intros Hn H. cbn in Hn.
  repeat (destruct Hn as [<-|Hn]; [cbn in H; repeat (apply bind_ok in H; destruct H as (? & ? & H)); injection H as <-; reflexivity|]).
  destruct Hn.
Qed.
Lemma default_Ea fm Ns Nd m : In (Some m) (i_Ea (default_inputs fm Ns Nd)) -> m = zeros33.
Proof.
  intros H. assert (E : In (Some m) (repeat None Ns) \/ In (Some m) (repeat (Some zeros33) Ns)).
  { destruct fm; cbn in H; try (right; exact H); left; exact H. }
  destruct E as [E|E]; apply repeat_spec in E; [discriminate E|injection E as ->; reflexivity].
Qed.
Lemma zeros33_zero r x : In r zeros33 -> In x r -> x = 0.
Proof. cbn. intros [<-|[<-|[<-|[]]]] [<-|[<-|[<-|[]]]]; reflexivity. Qed.

Lemma still_input_result n fm Ns Nd p t dt i f : In n still_inputs -> input_ftsuoe n fm Ns Nd p t dt = Ok (i, f) ->
  f = default_flow /\ i_Ea i = i_Ea (default_inputs fm Ns Nd).
Proof.
  intros Hn H.
  assert (C : In n [-1; -2; -3; -4; -5; -6; -7; -8; -12; -13]%Z \/ In n [1; 4; 5; 6]%Z) by (cbn in *; tauto).
  destruct C as [C|C].
  - unfold input_ftsuoe in H. assert (L : (n <? 0)%Z = true) by (apply Z.ltb_lt; cbn in C; lia). rewrite L in H.
    apply bind_ok in H. destruct H as (i' & Hi & H). injection H as <- <-. split; [reflexivity|]. exact (tests_keep_Ea n _ _ C Hi).
  - destruct C as [<-|[<-|[<-|[<-|[]]]]].
    + injection H as <- <-. split; reflexivity.
    + unfold input_ftsuoe in H. cbn [Z.ltb Z.compare] in H.
      apply bind_ok in H. destruct H as (a & Ha & H). apply bind_ok in H. destruct H as (b & Hb & H).
      apply bind_ok in H. destruct H as (c & Hc & H). apply bind_ok in H. destruct H as ([[? ?] ?] & Hd & H).
      injection H as <- <-. split; reflexivity.
    + injection H as <- <-. split; reflexivity.
    + unfold input_ftsuoe in H. cbn [Z.ltb Z.compare] in H. injection H as <- <-. split; reflexivity.
Qed.

Lemma still_input_relative n fm Ns Nd dt d : In n still_inputs -> relative_inputs d (fun p t => input_ftsuoe n fm Ns Nd p t dt).
Proof.
  intros Hn p t. unfold input_ftsuoe. destruct (n <? 0)%Z eqn:L; [reflexivity|].
  cbn in Hn. assert (C : n = 1%Z \/ n = 4%Z \/ n = 5%Z \/ n = 6%Z) by (apply Z.ltb_ge in L; lia).
  destruct C as [->|[->|[->| ->]]]; try reflexivity. cbv beta iota. cbn [moved c_spos c_dpos c_ddx c_ssizes c_dsizes].
  destruct (given TypeError (i_Fa (default_inputs fm Ns Nd))) as [a|e]; [|reflexivity]. cbn [bind].
  destruct (given TypeError (i_Fb (default_inputs fm Ns Nd))) as [b|e]; [|reflexivity]. cbn [bind].
  destruct (given TypeError (i_DFb (default_inputs fm Ns Nd))) as [c|e]; [|reflexivity]. cbn [bind].
  rewrite repulsion_moved. reflexivity.
Qed.

Theorem translation_builtin inv inv3 solve sc table h stale Ns Nd fm extract bb minf_only cutoff_factor g d n dt p :
  In n still_inputs -> fm <> fts -> periodic g = false ->
  let input := fun p t => input_ftsuoe n fm Ns Nd p t dt in
  full_simulation inv inv3 solve sc table h stale Ns Nd fm extract bb minf_only cutoff_factor g input (moved d p) =
  map_res (option_map (moved_file d))
    (full_simulation inv inv3 solve sc table h stale Ns Nd fm extract bb minf_only cutoff_factor g input p).
Proof.
  intros Hn Hf Hp input. apply translation_no_flow; try assumption.
  - intros q t i f H l Hl. apply still_input_result in H; [|exact Hn]. destruct H as [-> _]. reflexivity.
  - apply still_input_relative. exact Hn.
  - intros q t i f H. apply still_input_result in H; [|exact Hn]. destruct H as [-> E]. split.
    + intros l Hl. destruct l as [|[|[|l]]]; try reflexivity; lia.
    + intros m Hm. rewrite E in Hm. apply default_Ea in Hm. subst m. apply zeros33_zero.
Qed.

(** Form fts: a sphere with a prescribed stresslet. *)
Definition squeeze : list (list R) := [[0; 0; 1]; [0; 0; 0]; [1; 0; 0]].
Definition squeezed : inputs :=
  mkInputs [Some zeros3] [Some zeros3] [Some squeeze] [] [] [None] [None] [None] [] [].
Definition one_frame : settings :=
  mkSettings euler 1 1 0 1 true false false false (v3 0 0 0) (v3 0 0 0) 1 1 0 false 1.
Definition one_at (c : vec) : config :=
  mkConfig (fun _ => 1) (fun _ => c) (fun _ _ => c) (fun _ => 1) (fun _ => c) (fun _ => v3 0 0 0).
Lemma free_default : free_space default_flow = true.
Proof. unfold free_space, is_zero3, Reqb, vsub. cbn. rewrite Rminus_0_r. destruct (Req_EM_T 0 0); [reflexivity|congruence]. Qed.

Notation rest := (fun inv sc => solve_rest inv (fun m => m) dsolve sc [] 0 (fun _ _ => 0) 1 0 fts false true true 2 one_frame (fun _ _ => Ok (squeezed, default_flow))).
Lemma ent0 i : In i [0;1;2;4]%nat -> condense_flat_entry squeeze i = 0.
Proof. intros [<-|[<-|[<-|[<-|[]]]]]; unfold condense_flat_entry, contraction, get2, squeeze, rsum; cbn; ring. Qed.
Lemma ent3 : condense_flat_entry squeeze 3 = sqrt 2.
Proof. unfold condense_flat_entry, contraction, get2, squeeze, rsum; cbn. unfold s2. ring. Qed.
Lemma squeezed_out inv sc p t vel c : exists s,
  rest inv sc p t vel (drag_Minfinity_inverse (posdata_of 1 0 (one_at c)) 1) = Ok s /\
  length (o_Ea s) = 1%nat /\ (forall k, o_Ua s 0%nat k = 0) /\
  (forall i j, nth 0 (o_Ea s) mzero i j = if (Nat.eqb i 0 && Nat.eqb j 2 || Nat.eqb i 2 && Nat.eqb j 0)%bool then 9 / 10 else 0)
  /\ o_Uinf s = v3 0 0 0 /\ o_Oinf s = v3 0 0 0 /\ o_centre s = v3 0 0 0.
Proof.
unfold solve_rest. cbn [bind].
rewrite free_default.
unfold grand_resistance_free, Minfinity_inverse, add_near. cbn [bind andb negb orb].
unfold generate_output, output_fts, force_vector. cbn [squeezed i_Sa i_Fa i_Ta i_Fb i_DFb given bind i_Ua i_Ea]. 
eexists. split.
- cbn -[drag_Minfinity_inverse Rdiv squeeze sqrt condense_flat_entry]. reflexivity.
- split; [reflexivity|]. split; [|split].
  + intros k. unfold solution_of, unrow. cbn [o_Ua Model_Output.o_Ua nth]. destruct k as [|[|[|k]]]; cbn -[drag_Minfinity_inverse]; unfold Rdiv; try ring. destruct k; reflexivity.
  + intros i j. unfold solution_of, unrow2.
    assert (H2 : sqrt 2 <> 0) by (apply Rgt_not_eq, sqrt_lt_R0; lra).
    assert (E3 : drag_Minfinity_inverse (posdata_of 1 0 (one_at c)) 1 9%nat 9%nat = 10 / 9) by (unfold drag_Minfinity_inverse; cbn -[Rdiv pow]; field).
    cbn -[drag_Minfinity_inverse Rdiv sqrt Nat.eqb condense_flat_entry squeeze].
    rewrite !ent0 by (cbn; tauto). rewrite ent3. rewrite !E3.
    destruct i as [|[|[|i]]]; [destruct j as [|[|[|j]]]..|]; cbn -[drag_Minfinity_inverse Rdiv sqrt]; try (unfold Rdiv; ring);
      try (field; exact H2); try (destruct j; reflexivity); try (destruct i, j; reflexivity).
  + repeat split; reflexivity.
Qed.

Lemma one_frame_run far rst c s :
  rst (one_at c) (INR 0) zero_vel (far (one_at c) (INR 0)) = Ok s -> length (o_Ea s) = 1%nat ->
  exists x fs, simulate (fun m => m) 1 0 far rst one_frame (fresh (one_at c)) = Ok (Some ([snap 1 (one_at c); x], fs)) /\
    forall l, n_pos x 0%nat l = c l + (o_Ua s 0%nat l + o_Uinf s l + cross (o_Oinf s) (vsub c (o_centre s)) l
                                       + mvec 3 (nth 0 (o_Ea s) mzero) (vsub c (o_centre s)) l).
Proof.
  intros Hs HL.
  assert (HP : periodic one_frame = false).
  { unfold periodic, is_zero3, Reqb, vsub. cbn. rewrite Rminus_0_r. destruct (Req_EM_T 0 0); [reflexivity|congruence]. }
  assert (HG : gen far rst one_frame (one_at c) (INR 0) zero_vel no_matrix true = Ok (far (one_at c) (INR 0), s)).
  { unfold gen. cbn [one_frame g_use_drag orb]. rewrite Hs. reflexivity. }
  assert (HS : exists r, step_euler_ab2 (fun m => m) 1 0 far rst one_frame 0 true (one_at c) false no_matrix zero_vel = Ok r /\
     (forall l, c_spos (t_pos r) 0%nat l = c l + (o_Ua s 0%nat l + o_Uinf s l + cross (o_Oinf s) (vsub c (o_centre s)) l
                                       + mvec 3 (nth 0 (o_Ea s) mzero) (vsub c (o_centre s)) l)) /\ t_error r = false).
  { unfold step_euler_ab2. rewrite HG. cbn [bind]. unfold flow_spheres. rewrite HL.
    cbn [Nat.eqb Nat.ltb Nat.leb bind one_frame g_scheme g_fully_2d g_dt]. eexists. split; [reflexivity|].
    cbn [t_pos t_error c_spos]. split; [|reflexivity]. intros l. rewrite (wrap_id (fun m => m) one_frame HP).
    unfold eul, euler_timestep, one_at. cbn [c_spos fst add_background_flow_sphere].
    unfold add_background_flow_sphere. cbn [fst]. ring. }
  destruct HS as (r & HS & Hx & He).
  exists (snap 1 (t_pos r)). eexists. split; [|exact Hx].
  unfold simulate, run. cbn [one_frame g_num_frames g_start seq Nat.sub run_frames].
  unfold generate_frame. cbn [fresh s_error s_pos s_minv s_vel s_saved s_fsaved s_tempfile].
  change (regenerate_now _ 0) with (@Ok bool true). cbn [bind one_frame g_scheme Nat.eqb orb].
  change (mkSettings euler 1 1 0 1 true false false false (v3 0 0 0) (v3 0 0 0) 1 1 0 false 1) with one_frame.
  rewrite HS. cbn [bind]. reflexivity.
Qed.

Lemma squeezed_origin inv sc c : exists x fs,
  full_simulation inv (fun m => m) dsolve sc [] 0 (fun _ _ => 0) 1 0 fts false true true 2 one_frame
    (fun _ _ => Ok (squeezed, default_flow)) (one_at c) = Ok (Some ([snap 1 (one_at c); x], fs)) /\
  n_pos x 0%nat 0%nat = c 0%nat + 9 / 10 * c 2%nat.
Proof.
  set (far := far_inverse inv 0 (fun _ _ => 0) 1 0 true one_frame (fun _ _ => Ok (squeezed, default_flow))).
  set (rst := rest inv sc).
  assert (Hfar : far (one_at c) (INR 0) = drag_Minfinity_inverse (posdata_of 1 0 (one_at c)) 1).
  { unfold far, far_inverse. rewrite free_default. reflexivity. }
  destruct (squeezed_out inv sc (one_at c) (INR 0) zero_vel c) as (s & Hs & HL & HU & HE & H1 & H2 & H3).
  destruct (one_frame_run far rst c s) as (x & fs & E & Hx); [rewrite Hfar; exact Hs|exact HL|].
  exists x, fs. split; [exact E|]. rewrite Hx.
  unfold mvec, rsum, cross, vsub. rewrite H1, H2, H3, HU, !HE. cbn. ring.
Qed.

Theorem fts_origin inv sc c : exists d, let input := fun (_ : config) (_ : R) => Ok (squeezed, default_flow) in
  relative_inputs d input /\ no_box input /\ no_strain input /\ periodic one_frame = false /\
  let f := full_simulation inv (fun m => m) dsolve sc [] 0 (fun _ _ => 0) 1 0 fts false true true 2 one_frame input in
  f (moved d (one_at c)) <> map_res (option_map (moved_file d)) (f (one_at c)).
Proof.
  exists (v3 0 0 1). intros input. split; [intros p t; reflexivity|]. split; [intros p t i f H; injection H as <- <-; reflexivity|].
  split. { intros p t i f H. injection H as <- <-. split; [intros [|[|[|l]]] Hl; try reflexivity; lia|].
    cbn. intros m [H|[]]. discriminate H. }
  split. { unfold periodic, is_zero3, Reqb, vsub. cbn. rewrite Rminus_0_r. destruct (Req_EM_T 0 0); [reflexivity|congruence]. }

  intros f H. unfold f in H. change (moved (v3 0 0 1) (one_at c)) with (one_at (vadd c (v3 0 0 1))) in H.
  destruct (squeezed_origin inv sc c) as (x & fs & E & Hx).
  destruct (squeezed_origin inv sc (vadd c (v3 0 0 1))) as (y & fs' & E' & Hy).
  unfold input in H. rewrite E, E' in H. cbn [map_res option_map moved_file map fst snd] in H. injection H as _ Hyx _.
  apply (f_equal (fun s => n_pos s 0%nat 0%nat)) in Hyx. cbn [moved_snap n_pos] in Hyx. rewrite Hy in Hyx.
  unfold vadd in Hyx. rewrite Hx in Hyx. cbn in Hyx. lra.
Qed.
