(** C96: spheres with prescribed forces, torques and no stresslets (form fts). *)
From Coq Require Import Reals List Arith ZArith Bool Lia Lra.
From Verif Require Import Base Py Model_Pack Model_Mob Model_Layout Model_Minf Model_Grand Model_Close Model_R2B Model_GrandP Model_Step
  Model_Output Model_Frame Model_Inputs Model_Sim Spec_Pack Spec_Layout Spec_Minf Spec_Convert Spec_Output Spec_Step Spec_Frame Spec_Posdef Spec_Run
  Spec_Turn Spec_Two Spec_Push
  Proof_Minf Proof_Minf4 Proof_MinfP8 Proof_Posdef Proof_Posdef2 Proof_Frame Proof_Run Proof_Run2 Spec_Runs Proof_Runs2 Proof_Runs3 Prop_Runs Prop_Run
  Proof_Turn2 Proof_Work3 Proof_Two4 Proof_Two6 Prop_Two Proof_Push1 Proof_Push2 Proof_Push3.
From Verif Require Proof_Step Prop_Minf.
Import ListNotations.
Local Open Scope R_scope.

(** The grand problem of form fts for any number of spheres of any radii,
    overlapping or not, far field only, no stresslets: velocities, angular
    velocities and rates of strain are the sums of what the forces and torques
    on the spheres do one by one, and the prescribed forces, torques and (zero)
    stresslets are kept. *)
Theorem C96_solution :
  forall bb Ns q mu i L o,
    0 < mu -> (forall b, (b < Ns)%nat -> 0 < c_ssizes q b) ->
    (forall b b', (b < Ns)%nat -> (b' < Ns)%nat -> b <> b' -> / 10 ^ 8 < norm (vsub (c_spos q b) (c_spos q b'))) ->
    is_inv (11 * Ns + 6 * 0) (generate_Minfinity bb (posdata_of Ns 0 q) mu) L ->
    answers Ns 0 fts i L o -> no_stresslet (i_Sa i) ->
    let F := load (i_Fa i) in
    let T := load (i_Ta i) in
    forall j, (j < Ns)%nat ->
      (forall l, (l < 3)%nat -> rowof (Model_Output.o_Ua o) j l = pushed_velocity mu Ns (c_spos q) (c_ssizes q) F T j l) /\
      (forall l, (l < 3)%nat -> rowof (Model_Output.o_Oa o) j l = pushed_spin mu Ns (c_spos q) (c_ssizes q) F T j l) /\
      (forall k l, (k < 3)%nat -> (l < 3)%nat -> matof (Model_Output.o_Ea o) j k l = pushed_strain mu Ns (c_spos q) (c_ssizes q) F T j k l) /\
      (forall l, rowof (Model_Output.o_Fa o) j l = F j l) /\ (forall l, rowof (o_Ta o) j l = T j l) /\
      (forall k l, (k < 3)%nat -> (l < 3)%nat -> matof (Model_Output.o_Sa o) j k l = 0).
Proof. intros bb Ns q mu i L o Hmu Hsz Hap HL HA HS. exact (pushed_answers bb Ns q mu i L L o Hmu Hsz Hap HL (fun _ _ _ _ => eq_refl) HA HS). Qed.
Print Assumptions C96_solution.

(** Every completed run of form fts without dumbbells, near field and
    stresslets in which the spheres keep having room, Euler or Adams-Bashforth:
    the saved positions are those of spheres moved with these velocities, and
    the saved forces are the prescribed ones. *)
Theorem C96_run :
  forall inv inv3 solve sc table h stale Ns bb cutoff_factor g input p0 s fs,
    let N := g_num_frames g in
    let frames := run_frames inv3 Ns 0 (far_inverse inv h stale Ns 0 bb g input)
      (solve_rest inv inv3 solve sc table h stale Ns 0 fts false bb true cutoff_factor g input) g (fresh p0) in
    inverts_posdef inv -> solves_posdef solve -> (0 < Ns)%nat ->
    g_use_drag g = false -> g_start g = 0%nat -> no_box_g g -> g_scheme g = euler \/ g_scheme g = ab2 ->
    (0 < g_save_pos g)%nat -> (0 < g_save_forces g)%nat ->
    (g_save_after g mod g_save_pos g = 0)%nat -> (g_save_after g mod g_save_forces g = 0)%nat ->
    (forall p t i f, input p t = Ok (i, f) -> well_posed Ns 0 fts i /\ no_stresslet (i_Sa i) /\ 0 < f_mu f /\ unbounded f) ->
    (forall m st, (m < N)%nat -> frames (seq 0 m) = Ok st ->
       roomy Ns (bead_positions (posdata_of Ns 0 (s_pos st))) (bead_sizes (posdata_of Ns 0 (s_pos st)))) ->
    full_simulation inv inv3 solve sc table h stale Ns 0 fts false bb true cutoff_factor g input p0 = Ok (Some (s, fs)) ->
    exists (pos : nat -> config) (inp : nat -> inputs) (fl : nat -> flow) (V W : nat -> nat -> vec) (frc : nat -> fsnapshot),
      pos 0%nat = p0 /\
      (forall m, (m < N)%nat -> input (pos m) (INR m) = Ok (inp m, fl m) /\ pushed_frame Ns g pos inp fl m (V m) (W m)) /\
      (forall m j, (m < N)%nat -> (j < Ns)%nat ->
         let first := match g_scheme g with euler => true | _ => Nat.eqb m 0 end in
         forall l, (l < 3)%nat -> c_spos (pos (S m)) j l = c_spos (pos m) j l
           + g_dt g * (if first then V m j l else 3 / 2 * V m j l - 1 / 2 * V (m - 1)%nat j l)) /\
      (forall m j, (m < N)%nat -> (j < Ns)%nat ->
         (forall l, n_Fa (frc m) j l = load (i_Fa (inp m)) j l) /\ (forall k l, (k < 3)%nat -> (l < 3)%nat -> n_Sa (frc m) j k l = 0)) /\
      s = map (fun m => snap Ns (pos m)) (due_frames (g_save_pos g) (g_save_after g) N)
          ++ (if save_due (g_save_pos g) (g_save_after g) (N - 1) then [snap Ns (pos N)] else []) /\
      fs = map frc (due_frames (g_save_forces g) (g_save_after g) N).
Proof.
  intros inv inv3 solve sc table h stale Ns bb cf g input p0 s fs N frames Hi Hs HN Hd H0 Hb Hsch S1 S2 S3 S4 HI HR E.
  apply (pushed_run inv inv3 solve sc table h stale Ns bb cf g input p0 Hi Hs HN Hd H0 Hb S1 S2 S3 S4); try assumption.
  - intros p t i f EI. destruct (HI p t i f EI) as (A & _ & B & C). auto.
  - intros p t i f EI. apply (HI p t i f EI).
  - intros m p Hm (st & Es & <-). replace (Ns + 2 * 0)%nat with Ns by lia. exact (HR m st Hm Es).
Qed.
Print Assumptions C96_run.

(** ** Gravity *)
Lemma load_repeat r n j : (j < n)%nat -> load (repeat (Some r) n) j = fun c => nth c r 0.
Proof. intros Hj. unfold load. rewrite (nth_error_nth' _ None) by (rewrite repeat_length; exact Hj). rewrite (nth_indep _ None (Some r)) by (rewrite repeat_length; exact Hj). rewrite nth_repeat. reflexivity. Qed.
Lemma gravity_fts Ns dt : (0 < Ns)%nat -> forall p t i f, input_ftsuoe 1 fts Ns 0 p t dt = Ok (i, f) ->
  well_posed Ns 0 fts i /\ no_stresslet (i_Sa i) /\ 0 < f_mu f /\ unbounded f.
Proof.
  intros HN p t i f EI. rewrite (gravity_flow Ns 0 fts p t dt i f EI). split; [|split; [|split; [cbn; lra|intros l Hl; reflexivity]]].
  - destruct (given_inputs 1 fts Ns 0 p t dt ltac:(lia)) as (i' & f' & E' & C & _).
    + unfold workable. destruct (Nat.eqb_spec Ns 0); [lia|left; discriminate].
    + rewrite EI in E'. injection E' as <- <-. unfold complete in C. unfold well_posed. tauto.
  - rewrite (gravity_inputs Ns 0 fts p t dt i f EI). cbn [with_Fa i_Sa default_inputs]. intros j m a b Hm.
    apply nth_error_In, repeat_spec in Hm. injection Hm as ->. unfold zeros33, zeros3. destruct a as [|[|[|[|a]]]], b as [|[|[|[|b]]]]; reflexivity.
Qed.
Lemma fts_completes inv inv3 solve sc table h stale Ns bb cf g dt p0 :
  solves_shape solve -> (0 < Ns)%nat -> usable g 0 ->
  exists s fs, full_simulation inv inv3 solve sc table h stale Ns 0 fts false bb true cf g (fun p t => input_ftsuoe 1 fts Ns 0 p t dt) p0 = Ok (Some (s, fs)).
Proof.
  intros Hsh HN HU.
  destruct (C62_complete inv inv3 solve sc table h stale Ns 0 fts false bb true cf g (fun p t => input_ftsuoe 1 fts Ns 0 p t dt) p0 (map (c_ssizes p0) (seq 0 Ns)) Hsh) as (s & fs & E & _).
  - intros i Hi'. apply in_map, in_seq. lia.
  - intros i Hi'. lia.
  - left. reflexivity.
  - reflexivity.
  - intros p t _ _. destruct (given_inputs 1 fts Ns 0 p t dt ltac:(lia)) as (i & f & E & C & _).
    + unfold workable. destruct (Nat.eqb_spec Ns 0); [lia|left; discriminate].
    + exists i, f. split; [exact E|]. split; [exact C|]. left. rewrite (gravity_flow Ns 0 fts p t dt i f E). exact free_default.
  - exact HU.
  - exists s, fs. exact E.
Qed.
Lemma pushed_loads mu n x a F F' T T' i : (forall j l, (j < n)%nat -> (l < 3)%nat -> F j l = F' j l /\ T j l = T' j l) -> (i < n)%nat ->
  (forall l, (l < 3)%nat -> pushed_velocity mu n x a F T i l = pushed_velocity mu n x a F' T' i l) /\
  (forall k l, (k < 3)%nat -> (l < 3)%nat -> pushed_strain mu n x a F T i k l = pushed_strain mu n x a F' T' i k l).
Proof.
  intros H Hi. split.
  - intros l Hl. unfold pushed_velocity. rewrite (proj1 (H i l Hi Hl)). f_equal. apply rsum_ext. intros j Hj. destruct (Nat.eqb i j); [reflexivity|].
    unfold swept, dot3, cross. destruct (H j 0%nat Hj ltac:(lia)) as [-> ->], (H j 1%nat Hj ltac:(lia)) as [-> ->], (H j 2%nat Hj ltac:(lia)) as [-> ->]. destruct (H j l Hj Hl) as [-> _]. reflexivity.
  - intros k l Hk Hl. apply rsum_ext. intros j Hj. destruct (Nat.eqb i j); [reflexivity|].
    unfold strained, dot3, cross. destruct (H j 0%nat Hj ltac:(lia)) as [-> ->], (H j 1%nat Hj ltac:(lia)) as [-> ->], (H j 2%nat Hj ltac:(lia)) as [-> ->]. rewrite (proj1 (H j k Hj Hk)), (proj1 (H j l Hj Hl)). reflexivity.
Qed.

(** Spheres falling under gravity (input 1) in form fts: with usable settings
    the run completes, and as long as the spheres have room sphere j moves in
    frame m with its velocity in the sum of the disturbances, plus its own rate
    of strain times its position. *)
Theorem C96_gravity :
  forall inv inv3 solve sc table h stale Ns bb cutoff_factor g dt p0,
    let N := g_num_frames g in
    let input := fun p t => input_ftsuoe 1 fts Ns 0 p t dt in
    let frames := run_frames inv3 Ns 0 (far_inverse inv h stale Ns 0 bb g input)
      (solve_rest inv inv3 solve sc table h stale Ns 0 fts false bb true cutoff_factor g input) g (fresh p0) in
    let down := fun _ : nat => v3 0 0 (-1) in
    let none := fun _ : nat => v3 0 0 0 in
    inverts_posdef inv -> solves_posdef solve -> solves_shape solve -> (0 < Ns)%nat ->
    usable g 0 -> g_scheme g <> rk4 -> g_use_drag g = false -> no_box_g g ->
    (forall m st, (m < N)%nat -> frames (seq 0 m) = Ok st ->
       roomy Ns (bead_positions (posdata_of Ns 0 (s_pos st))) (bead_sizes (posdata_of Ns 0 (s_pos st)))) ->
    exists s fs, full_simulation inv inv3 solve sc table h stale Ns 0 fts false bb true cutoff_factor g input p0 = Ok (Some (s, fs)) /\
      exists (pos : nat -> config) (V : nat -> nat -> vec),
        pos 0%nat = p0 /\
        (forall m, (m < N)%nat -> exists k, latest_due 0 (g_invert_every g) m k /\
           forall j l, (j < Ns)%nat -> (l < 3)%nat ->
             V m j l = if (g_fully_2d g && Nat.eqb l 1)%bool then 0
                       else pushed_velocity 1 Ns (c_spos (pos k)) (c_ssizes (pos k)) down none j l
                            + mvec 3 (pushed_strain 1 Ns (c_spos (pos k)) (c_ssizes (pos k)) down none j) (c_spos (pos m) j) l) /\
        (forall m j l, (m < N)%nat -> (j < Ns)%nat -> (l < 3)%nat ->
           let first := match g_scheme g with euler => true | _ => Nat.eqb m 0 end in
           c_spos (pos (S m)) j l = c_spos (pos m) j l + g_dt g * (if first then V m j l else 3 / 2 * V m j l - 1 / 2 * V (m - 1)%nat j l)) /\
        s = map (fun m => snap Ns (pos m)) (due_frames (g_save_pos g) 0 N) ++ (if save_due (g_save_pos g) 0 (N - 1) then [snap Ns (pos N)] else []).
Proof.
  intros inv inv3 solve sc table h stale Ns bb cf g dt p0 N input frames down none Hi Hs Hsh HN HU Hr Hd Hb HR.
  destruct (fts_completes inv inv3 solve sc table h stale Ns bb cf g dt p0 Hsh HN HU) as (s & fs & E). exists s, fs. split; [exact E|].
  pose proof HU as (SC & U1 & U2 & U3 & U4 & U5 & U6 & U7).
  assert (Hsch : g_scheme g = euler \/ g_scheme g = ab2) by (destruct SC as [C|[C|[C _]]]; [left; exact C|contradiction|right; exact C]).
  assert (M0 : forall e, (0 < e)%nat -> (g_save_after g mod e = 0)%nat) by (intros e He; rewrite U7; apply Nat.mod_0_l; lia).
  destruct (C96_run inv inv3 solve sc table h stale Ns bb cf g input p0 s fs Hi Hs HN Hd U2 Hb Hsch U5 U6 (M0 _ U5) (M0 _ U6) (gravity_fts Ns dt HN) HR E)
    as (pos & inp & fl & V & W & frc & P0 & PF & PM & _ & PS & _).
  exists pos, V. split; [exact P0|]. split; [|split; [|rewrite U7 in PS; exact PS]].
  - intros m Hm. destruct (PF m Hm) as (EI & k & LD & K). exists k. split; [exact LD|]. intros j l Hj Hl.
    assert (Hk : (k <= m)%nat) by apply LD. destruct (PF k ltac:(lia)) as (EK & _).
    rewrite (proj1 (K j l Hj Hl)). destruct (g_fully_2d g && Nat.eqb l 1)%bool; [reflexivity|].
    rewrite (gravity_flow Ns 0 fts (pos k) (INR k) dt _ _ EK), (gravity_flow Ns 0 fts (pos m) (INR m) dt _ _ EI), (gravity_inputs Ns 0 fts (pos m) (INR m) dt _ _ EI).
    cbn [with_Fa i_Fa i_Ta default_inputs f_mu default_flow f_U f_O f_centre].
    destruct (pushed_loads 1 Ns (c_spos (pos k)) (c_ssizes (pos k)) (load (repeat (Some [0; 0; - (1)]) Ns)) down (load (repeat (Some zeros3) Ns)) none j) as [Q1 Q2]; [|exact Hj|].
    { intros b c Hb' Hc. rewrite !load_repeat by exact Hb'. unfold down, none, zeros3. split; idx3 Hc; cbn [nth v3]; ring. }
    rewrite (Q1 l Hl). f_equal. unfold linear_flow.
    transitivity (mvec 3 (pushed_strain 1 Ns (c_spos (pos k)) (c_ssizes (pos k)) (load (repeat (Some [0; 0; - (1)]) Ns)) (load (repeat (Some zeros3) Ns)) j) (vsub (c_spos (pos m) j) (v3 0 0 0)) l).
    + unfold cross. idx3 Hl; cbn [v3]; ring.
    + unfold mvec. apply rsum_ext. intros b Hb'. rewrite (Q2 l b Hl Hb'). f_equal. unfold vsub. idx3 Hb'; cbn [v3]; ring.
  - intros m j l Hm Hj Hl. exact (PM m j Hm Hj l Hl).
Qed.
Print Assumptions C96_gravity.

(** Finding: the motion depends on where the spheres are.  Two unit spheres side
    by side at a height of [z] and a distance of 4, the first above the origin,
    one Euler step of the settings the repository comes with, without near
    field: the spheres drift apart at a rate proportional to the height (or
    towards each other, below the origin), and the second falls more slowly. *)
Definition beside (z : R) : config :=
  mkConfig (fun _ => 1) (fun j => v3 (4 * INR j) 0 z) (fun j k => v3 1 0 (INR j)) (fun _ => 1) (fun _ => v3 0 0 0) (fun _ => v3 0 0 0).
Lemma beside_far z : norm (vsub (c_spos (beside z) 0%nat) (c_spos (beside z) 1%nat)) = 4 /\ norm (vsub (c_spos (beside z) 1%nat) (c_spos (beside z) 0%nat)) = 4.
Proof.
  unfold norm, vsub, beside, v3. cbn. split;
  (match goal with |- sqrt ?x = 4 => replace x with (4 * 4) by ring end); apply sqrt_square; lra.
Qed.
Lemma beside_roomy z : roomy 2 (bead_positions (posdata_of 2 0 (beside z))) (bead_sizes (posdata_of 2 0 (beside z))).
Proof.
  apply (proj1 C92_room); [cbn; lra|cbn; lra|].
  change (/ 10 ^ 8 < norm (vsub (c_spos (beside z) 0%nat) (c_spos (beside z) 1%nat))). rewrite (proj1 (beside_far z)).
  apply Rlt_trans with 1; [|lra]. rewrite <- Rinv_1. apply Rinv_lt_contravar; cbn; lra.
Qed.
Theorem C96_origin_refuted :
  forall inv inv3 solve sc table h stale bb cutoff_factor dt z,
    inverts_posdef inv -> solves_posdef solve -> solves_shape solve ->
    let fall := 1 / (6 * PI) + 25 / (768 * PI) in
    exists x fs, full_simulation inv inv3 solve sc table h stale 2 0 fts false bb true cutoff_factor
        (shipped_settings dt 1 (v3 0 0 0) (v3 0 0 0)) (fun p t => input_ftsuoe 1 fts 2 0 p t dt) (beside z) = Ok (Some ([snap 2 (beside z); x], fs)) /\
      n_pos x 0%nat 0%nat = - (dt * z / (1280 * PI)) /\ n_pos x 0%nat 2%nat = z - dt * fall /\
      n_pos x 1%nat 0%nat = 4 + dt * z / (1280 * PI) /\ n_pos x 1%nat 2%nat = z - dt * (fall - 1 / (320 * PI)).
Proof.
  intros inv inv3 solve sc table h stale bb cf dt z Hi Hs Hsh fall.
  destruct (C96_gravity inv inv3 solve sc table h stale 2 bb cf (shipped_settings dt 1 (v3 0 0 0) (v3 0 0 0)) dt (beside z)) as (s & fs & E & pos & V & P0 & PV & PM & PS);
    try assumption; try lia.
  - repeat split; cbn; auto; lia.
  - discriminate.
  - reflexivity.
  - intros l Hl. reflexivity.
  - intros m st Hm Es. cbn [shipped_settings g_num_frames] in Hm. assert (m = 0%nat) by lia. subst m. cbn [seq run_frames] in Es. injection Es as <-. exact (beside_roomy z).
  - cbn [shipped_settings g_num_frames g_save_pos] in PS. cbn in PS. rewrite P0 in PS.
    exists (snap 2 (pos 1%nat)), fs. split; [rewrite E, PS; reflexivity|].
    assert (X : forall j l, (j < 2)%nat -> n_pos (snap 2 (pos 1%nat)) j l = c_spos (pos 1%nat) j l).
    { intros j l Hj. cbn [snap n_pos]. unfold append_rows. destruct (Nat.ltb_spec j 2); [reflexivity|lia]. }
    rewrite !X by lia. clear X. destruct (PV 0%nat ltac:(cbn; lia)) as (k & LD & K). assert (k = 0%nat) by (destruct LD; lia). subst k. rewrite P0 in K.
    assert (C : forall j l, (j < 2)%nat -> (l < 3)%nat -> c_spos (pos 1%nat) j l = c_spos (beside z) j l + dt * V 0%nat j l).
    { intros j l Hj Hl. rewrite (PM 0%nat j l ltac:(cbn; lia) Hj Hl), P0. reflexivity. }
    rewrite !C by lia. rewrite !K by lia. cbn [shipped_settings g_fully_2d andb]. clear K C PM PV PS E.
    pose proof PI_RGT_0 as HPI.
    unfold pushed_velocity, pushed_strain, mvec, rsum. cbn [Nat.eqb]. unfold swept, strained, used_separation, heading.
    rewrite (proj1 (beside_far z)), (proj2 (beside_far z)). cbn [beside c_ssizes c_spos INR]. rewrite Rmax_left by lra.
    unfold dot3, cross, delta. cbn [Nat.eqb v3]. unfold fall. repeat split; field; lra.
Qed.
Print Assumptions C96_origin_refuted.

(** ** Examples *)
(** Height 10, timestep 1, with a matrix inverse and a solver that are right. *)
Example C96_gravity_example sc :
  exists x fs, full_simulation pinv Proof_Step.inv3 psolve sc [] 0 (fun _ _ => 0) 2 0 fts false true true 2
      (shipped_settings 1 1 (v3 0 0 0) (v3 0 0 0)) (fun p t => input_ftsuoe 1 fts 2 0 p t 1) (beside 10) = Ok (Some ([snap 2 (beside 10); x], fs)) /\
    n_pos x 0%nat 0%nat < 0 /\ 4 < n_pos x 1%nat 0%nat /\ n_pos x 0%nat 2%nat < n_pos x 1%nat 2%nat < 10.
Proof.
  assert (SH : solves_shape psolve) by (intros n A b _; unfold psolve; rewrite map_length, seq_length; reflexivity).
  destruct (C96_origin_refuted pinv Proof_Step.inv3 psolve sc [] 0 (fun _ _ => 0) true 2 1 10 pinv_ok psolve_ok SH) as (x & fs & E & A & B & C & D).
  exists x, fs. split; [exact E|]. rewrite A, B, C, D. pose proof PI_RGT_0 as HPI.
  assert (H1 : 0 < 1 * 10 / (1280 * PI)) by (apply Rdiv_lt_0_compat; lra).
  assert (H2 : 0 < 1 / (320 * PI)) by (apply Rdiv_lt_0_compat; lra).
  assert (H3 : 0 < 1 / (6 * PI) + 25 / (768 * PI) - 1 / (320 * PI)).
  { replace (1 / (6 * PI) + 25 / (768 * PI) - 1 / (320 * PI)) with (753 / (3840 * PI)) by (field; lra). apply Rdiv_lt_0_compat; lra. }
  lra.
Qed.

(** A torque about the y axis on the first sphere and nothing else (test input
    -6): the flow at the second, 4 away on the x axis, goes down at the speed
    1 / (128 pi), but the sphere is moved up, at half that speed. *)
Example C96_torque_example sc dt :
  exists x fs, full_simulation pinv Proof_Step.inv3 psolve sc [] 0 (fun _ _ => 0) 2 0 fts false true true 2
      (shipped_settings dt 1 (v3 0 0 0) (v3 0 0 0)) (fun p t => input_ftsuoe (-6) fts 2 0 p t dt) (beside 0) = Ok (Some ([snap 2 (beside 0); x], fs)) /\
    (forall l, (l < 3)%nat -> n_pos x 0%nat l = 0) /\ n_pos x 1%nat 0%nat = 4 /\ n_pos x 1%nat 1%nat = 0 /\
    n_pos x 1%nat 2%nat = dt * (- (1 / (128 * PI)) + 4 * (3 / (1024 * PI))).
Proof.
  assert (SH : solves_shape psolve) by (intros n A b _; unfold psolve; rewrite map_length, seq_length; reflexivity).
  assert (EI : forall p t, exists i, input_ftsuoe (-6) fts 2 0 p t dt = Ok (i, default_flow) /\ i_Fa i = [Some zeros3; Some zeros3] /\
    i_Ta i = [Some [0; 1; 0]; Some zeros3] /\ no_stresslet (i_Sa i) /\ complete fts 2 0 i /\ well_posed 2 0 fts i).
  { intros p t. eexists. split; [reflexivity|]. cbn. split; [reflexivity|]. split; [reflexivity|]. split; [|split].
    - intros j m a b Hm. destruct j as [|[|j]]; cbn in Hm; try (destruct j; discriminate Hm); injection Hm as <-;
        destruct a as [|[|[|[|a]]]], b as [|[|[|[|b]]]]; reflexivity.
    - unfold complete. cbv zeta. cbn. split; [reflexivity|]. split; [discriminate|]. repeat split; first [reflexivity | exact (proj2 (zeros_given33 2)) | exact (proj2 (zeros_given 2)) | solve [intros o []] | intros o [<-|[<-|[]]]; eexists; split; reflexivity].
    - unfold well_posed. cbn. repeat split; first [reflexivity | exact (proj2 (zeros_given33 2)) | exact (proj2 (zeros_given 2)) | solve [intros o []] | intros o [<-|[<-|[]]]; eexists; split; reflexivity]. }
  set (input := fun p t => input_ftsuoe (-6) fts 2 0 p t dt).
  assert (HI : forall p t i f, input p t = Ok (i, f) -> f = default_flow /\ i_Fa i = [Some zeros3; Some zeros3] /\ i_Ta i = [Some [0; 1; 0]; Some zeros3] /\
    no_stresslet (i_Sa i) /\ complete fts 2 0 i /\ well_posed 2 0 fts i).
  { intros p t i f E. destruct (EI p t) as (i' & E' & R). unfold input in E. rewrite E in E'. injection E' as <- ->. split; [reflexivity|exact R]. }
  destruct (C62_complete pinv Proof_Step.inv3 psolve sc [] 0 (fun _ _ => 0) 2 0 fts false true true 2 (shipped_settings dt 1 (v3 0 0 0) (v3 0 0 0)) input (beside 0) [1; 1] SH) as (s & fs & E & _).
  - intros i Hi. left. reflexivity.
  - intros i Hi. lia.
  - left. reflexivity.
  - reflexivity.
  - intros p t _ _. destruct (EI p t) as (i & E & _). exists i, default_flow. split; [exact E|]. split; [apply (HI p t i default_flow E)|]. left. exact free_default.
  - repeat split; cbn; auto; lia.
  - destruct (C96_run pinv Proof_Step.inv3 psolve sc [] 0 (fun _ _ => 0) 2 true 2 (shipped_settings dt 1 (v3 0 0 0) (v3 0 0 0)) input (beside 0) s fs)
      as (pos & inp & fl & V & W & frc & P0 & PF & PM & _ & PS & _); try exact E; try (cbn; lia); try reflexivity.
    + exact pinv_ok.
    + exact psolve_ok.
    + intros l Hl. reflexivity.
    + left. reflexivity.
    + intros p t i f Ei. destruct (HI p t i f Ei) as (-> & _ & _ & A & _ & B). split; [exact B|]. split; [exact A|]. split; [cbn; lra|intros l Hl; reflexivity].
    + intros m st Hm Es. cbn [shipped_settings g_num_frames] in Hm. assert (m = 0%nat) by lia. subst m. cbn [seq run_frames] in Es. injection Es as <-. exact (beside_roomy 0).
    + cbn [shipped_settings g_num_frames g_save_pos] in PS. cbn in PS. rewrite P0 in PS.
      exists (snap 2 (pos 1%nat)), fs. split; [fold input; rewrite E, PS; reflexivity|].
      assert (X : forall j l, (j < 2)%nat -> n_pos (snap 2 (pos 1%nat)) j l = c_spos (pos 1%nat) j l).
      { intros j l Hj. cbn [snap n_pos]. unfold append_rows. destruct (Nat.ltb_spec j 2); [reflexivity|lia]. }
      destruct (PF 0%nat ltac:(cbn; lia)) as (E0 & k & LD & K). assert (k = 0%nat) by (destruct LD; lia). subst k.
      destruct (HI (pos 0%nat) (INR 0) _ _ E0) as (Ef & EF & ET & _). rewrite P0, Ef, EF, ET in K. cbv zeta in K.
      assert (C : forall j l, (j < 2)%nat -> (l < 3)%nat -> c_spos (pos 1%nat) j l = c_spos (beside 0) j l + dt * V 0%nat j l).
      { intros j l Hj Hl. pose proof (PM 0%nat j ltac:(cbn; lia) Hj l Hl) as Q. rewrite P0 in Q. exact Q. }
      clear PM PF PS E EI HI E0 Ef EF ET. pose proof PI_RGT_0 as HPI.
      assert (Z : forall l, nth l zeros3 0 = 0) by (intros [|[|[|[|l]]]]; reflexivity).
      assert (K1 := fun j l Hj Hl => proj1 (K j l Hj Hl)). clear K.
      repeat split; [intros l Hl| | |]; rewrite X by lia; rewrite C by lia; rewrite K1 by lia;
        cbn [shipped_settings g_fully_2d andb default_flow f_mu f_U f_O f_centre]; clear K1 C X;
        unfold linear_flow, pushed_velocity, pushed_strain, mvec, rsum; cbn [Nat.eqb]; unfold swept, strained, used_separation, heading, load; cbn [nth_error];
        rewrite ?(proj1 (beside_far 0)), ?(proj2 (beside_far 0)); cbn [beside c_ssizes c_spos INR]; rewrite ?Rmax_left by lra;
        unfold dot3, cross, delta, vsub; try idx3 Hl; cbn [Nat.eqb v3 nth]; rewrite ?Z; field; lra.
Qed.
