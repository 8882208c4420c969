(** C98: spheres and dumbbells with prescribed forces and torques and no
    stresslets (form fts). *)
From Coq Require Import Reals List Arith ZArith Bool Lia Lra.
From Verif Require Import Base Py Model_Pack Model_Mob Model_Layout Model_Minf Model_Grand Model_Close Model_R2B Model_GrandP Model_Step
  Model_Output Model_Frame Model_Inputs Model_Sim Spec_Pack Spec_Layout Spec_Minf Spec_Convert Spec_Output Spec_Step Spec_Frame Spec_Posdef Spec_Run
  Spec_Turn Spec_Two Spec_Push Spec_Tow
  Proof_Minf Proof_Minf4 Proof_MinfP8 Proof_Posdef Proof_Posdef2 Proof_Frame Proof_Run Proof_Run2 Spec_Runs Proof_Runs2 Proof_Runs3 Prop_Runs Prop_Run
  Proof_Turn2 Proof_Work3 Proof_Two4 Proof_Two6 Prop_Two Proof_Push1 Proof_Push2 Proof_Push3 Prop_Push Proof_Tow1 Proof_Tow2.
From Verif Require Proof_Step Prop_Minf.
Import ListNotations.
Local Open Scope R_scope.

(** The grand problem of form fts for any numbers of spheres and dumbbells of
    any radii, overlapping or not, far field only, with or without bead-bead
    interactions, no stresslets. *)
Theorem C98_solution :
  forall bb Ns Nd q mu i L o,
    let x := beads_of Ns Nd q in
    let a := radii_of Ns Nd q in
    let n := (Ns + 2 * Nd)%nat in
    0 < mu -> (forall b, (b < n)%nat -> 0 < a b) ->
    (forall b b', (b < n)%nat -> (b' < n)%nat -> b <> b' -> / 10 ^ 8 < norm (vsub (x b) (x b'))) ->
    is_inv (11 * Ns + 6 * Nd) (generate_Minfinity bb (posdata_of Ns Nd q) mu) L ->
    answers Ns Nd fts i L o -> no_stresslet (i_Sa i) ->
    let F := bead_force Ns Nd (load (i_Fa i)) (load (i_Fb i)) (load (i_DFb i)) in
    let T := bead_torque Ns (load (i_Ta i)) in
    let v := towed_velocity bb mu Ns n x a F T in
    (forall j, (j < Ns)%nat ->
      (forall l, (l < 3)%nat -> rowof (Model_Output.o_Ua o) j l = v j l) /\
      (forall l, (l < 3)%nat -> rowof (Model_Output.o_Oa o) j l = towed_spin bb mu Ns n x a F T j l) /\
      (forall k l, (k < 3)%nat -> (l < 3)%nat -> matof (Model_Output.o_Ea o) j k l = towed_strain bb mu Ns n x a F T j k l) /\
      (forall l, rowof (Model_Output.o_Fa o) j l = load (i_Fa i) j l) /\ (forall l, rowof (o_Ta o) j l = load (i_Ta i) j l) /\
      (forall k l, (k < 3)%nat -> (l < 3)%nat -> matof (Model_Output.o_Sa o) j k l = 0)) /\
    (forall j, (j < Nd)%nat ->
      (forall l, (l < 3)%nat -> rowof (Model_Output.o_Ub o) j l = (v (Ns + j)%nat l + v (Ns + Nd + j)%nat l) / 2) /\
      (forall l, (l < 3)%nat -> rowof (Model_Output.o_HalfDUb o) j l = (v (Ns + Nd + j)%nat l - v (Ns + j)%nat l) / 2) /\
      (forall l, rowof (Model_Output.o_Fb o) j l = load (i_Fb i) j l) /\ (forall l, rowof (Model_Output.o_DFb o) j l = load (i_DFb i) j l)).
Proof. intros bb Ns Nd q mu i L o x a n Hmu Hsz Hap HL HA HS. exact (towed_answers bb Ns Nd q mu i L L o Hmu Hsz Hap HL (fun _ _ _ _ => eq_refl) HA HS). Qed.
Print Assumptions C98_solution.

(** Every completed run of form fts without near field and stresslets, with at
    least one sphere, in which spheres and beads keep having room. *)
Theorem C98_run :
  forall inv inv3 solve sc table h stale Ns Nd bb cutoff_factor g input p0 s fs,
    let N := g_num_frames g in
    let frames := run_frames inv3 Ns Nd (far_inverse inv h stale Ns Nd bb g input)
      (solve_rest inv inv3 solve sc table h stale Ns Nd fts false bb true cutoff_factor g input) g (fresh p0) in
    inverts_posdef inv -> solves_posdef solve -> (0 < Ns)%nat -> g_explosion g = false \/ Nd = 0%nat ->
    g_use_drag g = false -> g_start g = 0%nat -> no_box_g g -> g_scheme g = euler \/ g_scheme g = ab2 ->
    (0 < g_save_pos g)%nat -> (0 < g_save_forces g)%nat ->
    (g_save_after g mod g_save_pos g = 0)%nat -> (g_save_after g mod g_save_forces g = 0)%nat ->
    (forall p t i f, input p t = Ok (i, f) -> well_posed Ns Nd fts i /\ no_stresslet (i_Sa i) /\ 0 < f_mu f /\ unbounded f) ->
    (forall m st, (m < N)%nat -> frames (seq 0 m) = Ok st ->
       roomy (Ns + 2 * Nd) (beads_of Ns Nd (s_pos st)) (radii_of Ns Nd (s_pos st))) ->
    full_simulation inv inv3 solve sc table h stale Ns Nd fts false bb true cutoff_factor g input p0 = Ok (Some (s, fs)) ->
    exists (pos : nat -> config) (inp : nat -> inputs) (fl : nat -> flow) (V C D : nat -> nat -> vec) (frc : nat -> fsnapshot),
      pos 0%nat = p0 /\
      (forall m, (m < N)%nat -> input (pos m) (INR m) = Ok (inp m, fl m) /\ towed_frame bb Ns Nd g pos inp fl m (V m) (C m) (D m)) /\
      (forall m l, (m < N)%nat -> (l < 3)%nat ->
         let first := match g_scheme g with euler => true | _ => Nat.eqb m 0 end in
         (forall j, (j < Ns)%nat -> c_spos (pos (S m)) j l = c_spos (pos m) j l
            + g_dt g * (if first then V m j l else 3 / 2 * V m j l - 1 / 2 * V (m - 1)%nat j l)) /\
         (forall j, (j < Nd)%nat -> c_dpos (pos (S m)) j l = c_dpos (pos m) j l + g_dt g * C m j l /\
            c_ddx (pos (S m)) j l = c_ddx (pos m) j l + g_dt g * D m j l)) /\
      (forall m, (m < N)%nat ->
         (forall j, (j < Ns)%nat -> (forall l, n_Fa (frc m) j l = load (i_Fa (inp m)) j l) /\ (forall k l, (k < 3)%nat -> (l < 3)%nat -> n_Sa (frc m) j k l = 0)) /\
         (forall j l, (j < Nd)%nat -> n_Fb (frc m) j l = load (i_Fb (inp m)) j l /\ n_DFb (frc m) j l = load (i_DFb (inp m)) j l)) /\
      s = map (fun m => snap Ns (pos m)) (due_frames (g_save_pos g) (g_save_after g) N)
          ++ (if save_due (g_save_pos g) (g_save_after g) (N - 1) then [snap Ns (pos N)] else []) /\
      fs = map frc (due_frames (g_save_forces g) (g_save_after g) N).
Proof.
  intros inv inv3 solve sc table h stale Ns Nd bb cf g input p0 s fs N frames Hi Hs HN Hex Hd H0 Hb Hsch S1 S2 S3 S4 HI HR E.
  apply (towed_run inv inv3 solve sc table h stale Ns Nd bb cf g input p0 Hi Hs HN Hex Hd H0 Hb S1 S2 S3 S4); try assumption.
  - intros p t i f EI. destruct (HI p t i f EI) as (A & _ & B & C). auto.
  - intros p t i f EI. apply (HI p t i f EI).
  - intros m p Hm (st & Es & <-). rewrite beads_same, radii_same. exact (HR m st Hm Es).
Qed.
Print Assumptions C98_run.

(** ** Gravity *)
Lemma gravity_fts_d Ns Nd dt : (0 < Ns)%nat -> forall p t i f, input_ftsuoe 1 fts Ns Nd p t dt = Ok (i, f) ->
  well_posed Ns Nd fts i /\ no_stresslet (i_Sa i) /\ 0 < f_mu f /\ unbounded f.
Proof.
  intros HN p t i f EI. rewrite (gravity_flow Ns Nd fts p t dt i f EI). split; [|split; [|split; [cbn; lra|intros l Hl; reflexivity]]].
  - destruct (given_inputs 1 fts Ns Nd p t dt ltac:(lia)) as (i' & f' & E' & C & _).
    + unfold workable. destruct (Nat.eqb_spec Ns 0); [lia|left; discriminate].
    + rewrite EI in E'. injection E' as <- <-. unfold complete in C. unfold well_posed. tauto.
  - rewrite (gravity_inputs Ns Nd fts p t dt i f EI). cbn [with_Fa i_Sa default_inputs]. intros j m a b Hm.
    apply nth_error_In, repeat_spec in Hm. injection Hm as ->. unfold zeros33, zeros3. destruct a as [|[|[|[|a]]]], b as [|[|[|[|b]]]]; reflexivity.
Qed.
Lemma fts_completes_d inv inv3 solve sc table h stale Ns Nd bb cf g dt p0 :
  solves_shape solve -> (0 < Ns)%nat -> usable g Nd ->
  exists s fs, full_simulation inv inv3 solve sc table h stale Ns Nd fts false bb true cf g (fun p t => input_ftsuoe 1 fts Ns Nd p t dt) p0 = Ok (Some (s, fs)).
Proof.
  intros Hsh HN HU.
  destruct (C62_complete inv inv3 solve sc table h stale Ns Nd fts false bb true cf g (fun p t => input_ftsuoe 1 fts Ns Nd p t dt) p0
    (map (c_ssizes p0) (seq 0 Ns) ++ map (c_dsizes p0) (seq 0 Nd)) Hsh) as (s & fs & E & _).
  - intros i Hi'. apply in_or_app. left. apply in_map, in_seq. lia.
  - intros i Hi'. apply in_or_app. right. apply in_map, in_seq. lia.
  - left. reflexivity.
  - reflexivity.
  - intros p t _ _. destruct (given_inputs 1 fts Ns Nd p t dt ltac:(lia)) as (i & f & E & C & _).
    + unfold workable. destruct (Nat.eqb_spec Ns 0); [lia|left; discriminate].
    + exists i, f. split; [exact E|]. split; [exact C|]. left. rewrite (gravity_flow Ns Nd fts p t dt i f E). exact free_default.
  - exact HU.
  - exists s, fs. exact E.
Qed.
Lemma towed_loads bb mu Ns n x a F F' T T' i : (forall j l, (j < n)%nat -> (l < 3)%nat -> F j l = F' j l /\ T j l = T' j l) -> (i < n)%nat ->
  (forall l, (l < 3)%nat -> towed_velocity bb mu Ns n x a F T i l = towed_velocity bb mu Ns n x a F' T' i l) /\
  (forall k l, (k < 3)%nat -> (l < 3)%nat -> towed_strain bb mu Ns n x a F T i k l = towed_strain bb mu Ns n x a F' T' i k l).
Proof.
  intros H Hi. split.
  - intros l Hl. unfold towed_velocity. rewrite (proj1 (H i l Hi Hl)). f_equal. apply rsum_ext. intros j Hj. destruct (felt bb Ns i j); [|reflexivity].
    unfold swept, dot3, cross. destruct (H j 0%nat Hj ltac:(lia)) as [-> ->], (H j 1%nat Hj ltac:(lia)) as [-> ->], (H j 2%nat Hj ltac:(lia)) as [-> ->]. destruct (H j l Hj Hl) as [-> _]. reflexivity.
  - intros k l Hk Hl. apply rsum_ext. intros j Hj. destruct (felt bb Ns i j); [|reflexivity].
    unfold strained, dot3, cross. destruct (H j 0%nat Hj ltac:(lia)) as [-> ->], (H j 1%nat Hj ltac:(lia)) as [-> ->], (H j 2%nat Hj ltac:(lia)) as [-> ->]. rewrite (proj1 (H j k Hj Hk)), (proj1 (H j l Hj Hl)). reflexivity.
Qed.

(** Spheres falling under gravity past force-free dumbbells (input 1, which
    leaves the dumbbells alone), form fts, Euler. *)
Theorem C98_gravity :
  forall inv inv3 solve sc table h stale Ns Nd bb cutoff_factor g dt p0,
    let N := g_num_frames g in
    let n := (Ns + 2 * Nd)%nat in
    let input := fun p t => input_ftsuoe 1 fts Ns Nd p t dt in
    let frames := run_frames inv3 Ns Nd (far_inverse inv h stale Ns Nd bb g input)
      (solve_rest inv inv3 solve sc table h stale Ns Nd fts false bb true cutoff_factor g input) g (fresh p0) in
    let weight := fun b => if Nat.ltb b Ns then v3 0 0 (-1) else v3 0 0 0 in
    let none := fun _ : nat => v3 0 0 0 in
    inverts_posdef inv -> solves_posdef solve -> solves_shape solve -> (0 < Ns)%nat -> g_explosion g = false \/ Nd = 0%nat ->
    usable g Nd -> g_scheme g = euler -> g_fully_2d g = false -> g_use_drag g = false -> no_box_g g ->
    (forall m st, (m < N)%nat -> frames (seq 0 m) = Ok st ->
       roomy n (beads_of Ns Nd (s_pos st)) (radii_of Ns Nd (s_pos st))) ->
    exists s fs, full_simulation inv inv3 solve sc table h stale Ns Nd fts false bb true cutoff_factor g input p0 = Ok (Some (s, fs)) /\
      exists pos : nat -> config,
        pos 0%nat = p0 /\
        (forall m, (m < N)%nat -> exists k, latest_due 0 (g_invert_every g) m k /\
           let x := beads_of Ns Nd (pos k) in
           let a := radii_of Ns Nd (pos k) in
           let v := towed_velocity bb 1 Ns n x a weight none in
           let E := towed_strain bb 1 Ns n x a weight none in
           (forall j l, (j < Ns)%nat -> (l < 3)%nat ->
             c_spos (pos (S m)) j l = c_spos (pos m) j l + g_dt g * (v j l + mvec 3 (E j) (c_spos (pos m) j) l)) /\
           (forall j l, (j < Nd)%nat -> (l < 3)%nat ->
             c_dpos (pos (S m)) j l = c_dpos (pos m) j l + g_dt g * ((v (Ns + j)%nat l + v (Ns + Nd + j)%nat l) / 2 + mvec 3 (E 0%nat) (c_dpos (pos m) j) l) /\
             c_ddx (pos (S m)) j l = c_ddx (pos m) j l + g_dt g * (v (Ns + Nd + j)%nat l - v (Ns + j)%nat l + mvec 3 (E 0%nat) (c_ddx (pos m) j) l))) /\
        s = map (fun m => snap Ns (pos m)) (due_frames (g_save_pos g) 0 N) ++ (if save_due (g_save_pos g) 0 (N - 1) then [snap Ns (pos N)] else []).
Proof.
  intros inv inv3 solve sc table h stale Ns Nd bb cf g dt p0 N n input frames weight none Hi Hs Hsh HN Hex HU Hsch H2 Hd Hb HR.
  destruct (fts_completes_d inv inv3 solve sc table h stale Ns Nd bb cf g dt p0 Hsh HN HU) as (s & fs & E). exists s, fs. split; [exact E|].
  pose proof HU as (SC & U1 & U2 & U3 & U4 & U5 & U6 & U7).
  assert (M0 : forall e, (0 < e)%nat -> (g_save_after g mod e = 0)%nat) by (intros e He; rewrite U7; apply Nat.mod_0_l; lia).
  destruct (C98_run inv inv3 solve sc table h stale Ns Nd bb cf g input p0 s fs Hi Hs HN Hex Hd U2 Hb (or_introl Hsch) U5 U6 (M0 _ U5) (M0 _ U6) (gravity_fts_d Ns Nd dt HN) HR E)
    as (pos & inp & fl & V & C & D & frc & P0 & PF & PM & _ & PS & _).
  exists pos. split; [exact P0|]. split; [|rewrite U7 in PS; exact PS].
  intros m Hm. destruct (PF m Hm) as (EI & k & LD & K). exists k. split; [exact LD|]. intros x a v S.
  assert (Hk : (k <= m)%nat) by apply LD. destruct (PF k ltac:(lia)) as (EK & _).
  rewrite (gravity_flow Ns Nd fts (pos k) (INR k) dt _ _ EK), (gravity_flow Ns Nd fts (pos m) (INR m) dt _ _ EI), (gravity_inputs Ns Nd fts (pos m) (INR m) dt _ _ EI) in K.
  cbn [with_Fa i_Fa i_Ta i_Fb i_DFb default_inputs f_mu default_flow f_U f_O f_centre] in K. cbv zeta in K. fold n x a in K.
  set (F0 := bead_force Ns Nd (load (repeat (Some [0; 0; - (1)]) Ns)) (load (repeat (Some zeros3) Nd)) (load (repeat (Some zeros3) Nd))) in K.
  set (T0 := bead_torque Ns (load (repeat (Some zeros3) Ns))) in K.
  assert (LL : forall j l, (j < n)%nat -> (l < 3)%nat -> F0 j l = weight j l /\ T0 j l = none j l).
  { intros b c Hb' Hc. unfold F0, T0, bead_force, bead_torque, weight, none. unfold n in Hb'.
    destruct (Nat.ltb_spec b Ns); [rewrite !load_repeat by assumption; unfold zeros3; split; idx3 Hc; cbn [nth v3]; ring|].
    destruct (Nat.ltb_spec b (Ns + Nd)); rewrite !load_repeat by lia; unfold zeros3; split; idx3 Hc; cbn [nth v3]; field. }
  assert (QV : forall j l, (j < n)%nat -> (l < 3)%nat -> towed_velocity bb 1 Ns n x a F0 T0 j l = v j l).
  { intros j l Hj Hl. apply (towed_loads bb 1 Ns n x a F0 weight T0 none j LL Hj); assumption. }
  assert (QE : forall j y l, (j < n)%nat -> (l < 3)%nat -> linear_flow (v3 0 0 0) (v3 0 0 0) (towed_strain bb 1 Ns n x a F0 T0 j) (v3 0 0 0) y l = mvec 3 (S j) y l).
  { intros j y l Hj Hl. unfold linear_flow.
    transitivity (mvec 3 (towed_strain bb 1 Ns n x a F0 T0 j) (vsub y (v3 0 0 0)) l).
    - unfold cross. idx3 Hl; cbn [v3]; ring.
    - unfold mvec. apply rsum_ext. intros b Hb'. unfold S. rewrite (proj2 (towed_loads bb 1 Ns n x a F0 weight T0 none j LL Hj) l b Hl Hb'). f_equal. unfold vsub. idx3 Hb'; cbn [v3]; ring. }
  assert (B1 : forall j, (j < Nd)%nat -> beads_of Ns Nd (pos m) (Ns + j) = bead_minus (c_dpos (pos m) j) (c_ddx (pos m) j)).
  { intros j Hj. unfold beads_of. destruct (Nat.ltb_spec (Ns + j) Ns); [lia|]. destruct (Nat.ltb_spec (Ns + j) (Ns + Nd)); [|lia]. replace (Ns + j - Ns)%nat with j by lia. reflexivity. }
  assert (B2 : forall j, (j < Nd)%nat -> beads_of Ns Nd (pos m) (Ns + Nd + j) = bead_plus (c_dpos (pos m) j) (c_ddx (pos m) j)).
  { intros j Hj. unfold beads_of. destruct (Nat.ltb_spec (Ns + Nd + j) Ns); [lia|]. destruct (Nat.ltb_spec (Ns + Nd + j) (Ns + Nd)); [lia|]. replace (Ns + Nd + j - Ns - Nd)%nat with j by lia. reflexivity. }
  destruct K as [KS KD]. split.
  - intros j l Hj Hl. rewrite (proj1 (PM m l Hm Hl) j Hj), Hsch, (KS j l Hj Hl), H2. cbn [andb].
    rewrite QV, QE by (unfold n; lia). reflexivity.
  - intros j l Hj Hl. destruct (proj2 (PM m l Hm Hl) j Hj) as [M1 M2]. destruct (KD j l Hj Hl) as [K1 K2].
    rewrite M1, M2, K1, K2, B1, B2, !QV, !QE by (unfold n; lia). unfold mvec, rsum, bead_minus, bead_plus. split; field.
Qed.
Print Assumptions C98_gravity.

(** Finding: dumbbells are moved with the rate of strain of sphere 0, however far
    away it is.  Two unit spheres at 0 and 6 on the x axis falling side by side,
    and a dumbbell of two unit beads, 6 apart along the x axis, with its centre
    at [X], no force on it.  The flow due to the falling spheres decays with
    distance, but the dumbbell falls at a speed growing with its distance. *)
Definition trailing (X : R) : config :=
  mkConfig (fun _ => 1) (fun j => v3 (6 * INR j) 0 0) (fun j k => v3 1 0 (INR j)) (fun _ => 1) (fun _ => v3 X 0 0) (fun _ => v3 6 0 0).
Definition place (X : R) (b : nat) : R := match b with O => 0 | S O => 6 | S (S O) => X - 3 | _ => X + 3 end.
Lemma trailing_at X b l : (b < 4)%nat -> (l < 3)%nat -> beads_of 2 1 (trailing X) b l = v3 (place X b) 0 0 l.
Proof.
  intros Hb Hl. destruct b as [|[|[|[|b]]]]; [| | | |lia]; unfold beads_of, trailing, bead_minus, bead_plus; cbn;
    unfold bead_minus, bead_plus; idx3 Hl; cbn; field.
Qed.
Lemma trailing_far X b b' : (b < 4)%nat -> (b' < 4)%nat ->
  norm (vsub (beads_of 2 1 (trailing X) b) (beads_of 2 1 (trailing X) b')) = Rabs (place X b - place X b').
Proof.
  intros Hb Hb'. unfold norm, vsub. rewrite !trailing_at by lia. cbn [v3].
  match goal with |- sqrt ?e = Rabs ?d => replace e with (Rsqr d) by (unfold Rsqr; ring) end. apply sqrt_Rsqr_abs.
Qed.
Lemma trailing_roomy X : 15 <= X -> roomy 4 (beads_of 2 1 (trailing X)) (radii_of 2 1 (trailing X)).
Proof.
  intros HX. apply (proj2 C92_room 4%nat _ _ 1); [lia| |].
  - intros b Hb. unfold radii_of, trailing. cbn [c_ssizes c_dsizes]. destruct (Nat.ltb b 2), (Nat.ltb b (2 + 1)); lra.
  - intros b b' Hb Hb' Ne. rewrite trailing_far by assumption.
    assert (6 <= Rabs (place X b - place X b')).
    { destruct b as [|[|[|[|b]]]], b' as [|[|[|[|b']]]]; try lia; cbn [place];
        first [rewrite Rabs_right by lra; lra | rewrite Rabs_left by lra; lra]. }
    split; [|cbn [INR]; lra]. apply Rlt_trans with 1; [|lra]. rewrite <- Rinv_1. apply Rinv_lt_contravar; cbn; lra.
Qed.
Definition wake (r : R) : R := 1 / (8 * PI * r) * (1 + 2 / (3 * r ^ 2)).
Lemma swept_none mu x1 x2 a1 a2 l : swept mu x1 x2 a1 a2 (v3 0 0 0) (v3 0 0 0) l = 0.
Proof. unfold swept, dot3, cross. destruct l as [|[|[|l]]]; cbn [v3]; unfold Rdiv; ring. Qed.
Lemma strained_none mu x1 x2 a1 a2 k l : strained mu x1 x2 a1 a2 (v3 0 0 0) (v3 0 0 0) k l = 0.
Proof. unfold strained, dot3, cross. destruct k as [|[|[|k]]], l as [|[|[|l]]]; cbn [v3]; unfold Rdiv; ring. Qed.
Lemma swept_down X b b' : (b < 4)%nat -> (b' < 4)%nat -> 6 <= Rabs (place X b - place X b') ->
  swept 1 (beads_of 2 1 (trailing X) b) (beads_of 2 1 (trailing X) b') (radii_of 2 1 (trailing X) b) (radii_of 2 1 (trailing X) b') (v3 0 0 (-1)) (v3 0 0 0) 2%nat
  = - wake (Rabs (place X b - place X b')).
Proof.
  intros Hb Hb' H. unfold swept, heading, used_separation. rewrite !trailing_far by assumption. unfold dot3. rewrite !trailing_at by lia.
  assert (A : forall c, radii_of 2 1 (trailing X) c = 1). { intros c. unfold radii_of, trailing. cbn [c_ssizes c_dsizes]. destruct (Nat.ltb c 2), (Nat.ltb c (2 + 1)); reflexivity. }
  rewrite !A, Rmax_left by lra. pose proof PI_RGT_0. unfold wake, cross. cbn [v3]. field. lra.
Qed.
Theorem C98_far_refuted :
  forall inv inv3 solve sc table h stale bb cutoff_factor dt X,
    inverts_posdef inv -> solves_posdef solve -> solves_shape solve -> 15 <= X ->
    let swept_by := (wake (X - 3) + wake (X - 9) + wake (X + 3) + wake (X - 3)) / 2 in
    exists y fs, full_simulation inv inv3 solve sc table h stale 2 1 fts false bb true cutoff_factor
        (shipped_settings dt 1 (v3 0 0 0) (v3 0 0 0)) (fun p t => input_ftsuoe 1 fts 2 1 p t dt) (trailing X) = Ok (Some ([snap 2 (trailing X); y], fs)) /\
      n_pos y 2%nat 2%nat = - (dt * (swept_by + X / (6480 * PI))) /\
      n_dx y 0%nat 2%nat = dt * (wake (X - 9) - wake (X + 3) - 1 / (1080 * PI)).
Proof.
  intros inv inv3 solve sc table h stale bb cf dt X Hi Hs Hsh HX sb.
  destruct (C98_gravity inv inv3 solve sc table h stale 2 1 bb cf (shipped_settings dt 1 (v3 0 0 0) (v3 0 0 0)) dt (trailing X)) as (s & fs & E & pos & P0 & PM & PS);
    try assumption; try reflexivity; try lia.
  - left. reflexivity.
  - repeat split; cbn; auto; lia.
  - intros l Hl. reflexivity.
  - intros m st Hm Es. cbn [shipped_settings g_num_frames] in Hm. assert (m = 0%nat) by lia. subst m. cbn [seq run_frames] in Es. injection Es as <-. exact (trailing_roomy X HX).
  - cbn [shipped_settings g_num_frames g_save_pos] in PS. cbn in PS. rewrite P0 in PS.
    exists (snap 2 (pos 1%nat)), fs. split; [rewrite E, PS; reflexivity|].
    change (n_pos (snap 2 (pos 1%nat)) 2%nat 2%nat) with (c_dpos (pos 1%nat) 0%nat 2%nat).
    change (n_dx (snap 2 (pos 1%nat)) 0%nat 2%nat) with (c_ddx (pos 1%nat) 0%nat 2%nat).
    destruct (PM 0%nat ltac:(cbn; lia)) as (k & LD & _ & K). assert (k = 0%nat) by (destruct LD; lia). subst k. rewrite P0 in K.
    destruct (K 0%nat 2%nat ltac:(lia) ltac:(lia)) as [-> ->]. clear K PM PS E. cbn [shipped_settings g_dt].
    pose proof PI_RGT_0 as HPI. cbn [Nat.add Nat.mul].
    assert (V2 : towed_velocity bb 1 2 4 (beads_of 2 1 (trailing X)) (radii_of 2 1 (trailing X)) (fun b => if Nat.ltb b 2 then v3 0 0 (-1) else v3 0 0 0) (fun _ => v3 0 0 0) 2%nat 2%nat
      = - (wake (X - 3) + wake (X - 9))).
    { unfold towed_velocity, rsum, felt. cbn [Nat.eqb Nat.ltb Nat.leb negb andb orb]. rewrite !swept_none.
      rewrite !swept_down by (try lia; cbn [place]; (rewrite Rabs_right by lra); lra). cbn [place]. rewrite !Rabs_right by lra.
      replace (X - 3 - 0) with (X - 3) by ring. replace (X - 3 - 6) with (X - 9) by ring. cbn [v3]. rewrite !orb_true_r. destruct (bb || false || false)%bool; field; cbn; lra. }
    assert (V3 : towed_velocity bb 1 2 4 (beads_of 2 1 (trailing X)) (radii_of 2 1 (trailing X)) (fun b => if Nat.ltb b 2 then v3 0 0 (-1) else v3 0 0 0) (fun _ => v3 0 0 0) 3%nat 2%nat
      = - (wake (X + 3) + wake (X - 3))).
    { unfold towed_velocity, rsum, felt. cbn [Nat.eqb Nat.ltb Nat.leb negb andb orb]. rewrite !swept_none.
      rewrite !swept_down by (try lia; cbn [place]; (rewrite Rabs_right by lra); lra). cbn [place]. rewrite !Rabs_right by lra.
      replace (X + 3 - 0) with (X + 3) by ring. replace (X + 3 - 6) with (X - 3) by ring. cbn [v3]. rewrite !orb_true_r. destruct (bb || false || false)%bool; field; cbn; lra. }
    assert (E0 : forall c, (c < 3)%nat -> towed_strain bb 1 2 4 (beads_of 2 1 (trailing X)) (radii_of 2 1 (trailing X)) (fun b => if Nat.ltb b 2 then v3 0 0 (-1) else v3 0 0 0) (fun _ => v3 0 0 0) 0%nat 2%nat c
      = match c with O => - (1 / (6480 * PI)) | _ => 0 end).
    { intros c Hc. unfold towed_strain, rsum, felt. cbn [Nat.eqb Nat.ltb Nat.leb negb andb orb]. rewrite !orb_true_r, !strained_none. cbn [andb orb].
      unfold strained, heading, used_separation. rewrite !trailing_far by lia. unfold dot3. rewrite !trailing_at by lia. cbn [place].
      rewrite (Rabs_left (0 - 6)) by lra. unfold radii_of, trailing. cbn [Nat.ltb Nat.leb c_ssizes]. rewrite Rmax_left by lra.
      unfold delta, cross. idx3 Hc; cbn [Nat.eqb v3]; field; lra. }
    rewrite V2, V3. unfold mvec, rsum. rewrite !E0 by lia. cbn [trailing c_dpos c_ddx v3]. unfold sb. split; field; lra.
Qed.
Print Assumptions C98_far_refuted.

(** ** Examples *)
(** With a matrix inverse and a solver that are right: centred at 1005 the
    dumbbell falls faster than at 15. *)
Example C98_far_example sc :
  exists y fs y' fs',
    full_simulation pinv Proof_Step.inv3 psolve sc [] 0 (fun _ _ => 0) 2 1 fts false true true 2
      (shipped_settings 1 1 (v3 0 0 0) (v3 0 0 0)) (fun p t => input_ftsuoe 1 fts 2 1 p t 1) (trailing 15) = Ok (Some ([snap 2 (trailing 15); y], fs)) /\
    full_simulation pinv Proof_Step.inv3 psolve sc [] 0 (fun _ _ => 0) 2 1 fts false true true 2
      (shipped_settings 1 1 (v3 0 0 0) (v3 0 0 0)) (fun p t => input_ftsuoe 1 fts 2 1 p t 1) (trailing 1005) = Ok (Some ([snap 2 (trailing 1005); y'], fs')) /\
    n_pos y' 2%nat 2%nat < n_pos y 2%nat 2%nat < 0.
Proof.
  assert (SH : solves_shape psolve) by (intros n A b _; unfold psolve; rewrite map_length, seq_length; reflexivity).
  destruct (C98_far_refuted pinv Proof_Step.inv3 psolve sc [] 0 (fun _ _ => 0) true 2 1 15 pinv_ok psolve_ok SH ltac:(lra)) as (y & fs & E & A & _).
  destruct (C98_far_refuted pinv Proof_Step.inv3 psolve sc [] 0 (fun _ _ => 0) true 2 1 1005 pinv_ok psolve_ok SH ltac:(lra)) as (y' & fs' & E' & A' & _).
  exists y, fs, y', fs'. split; [exact E|]. split; [exact E'|]. rewrite A, A'. pose proof (Rinv_0_lt_compat PI PI_RGT_0) as HP.
  assert (W : forall r, 0 < r -> wake r = / PI * (1 / (8 * r) * (1 + 2 / (3 * r ^ 2)))).
  { intros r Hr. unfold wake. pose proof PI_RGT_0. field. lra. }
  assert (Q : forall r, r / (6480 * PI) = / PI * (r / 6480)) by (intros r; pose proof PI_RGT_0; field; lra).
  rewrite !Q, !W by lra. set (p := / PI) in *.
  match goal with |- - (1 * ?u) < - (1 * ?v) < 0 =>
    assert (U : u = p * (10168706104405341903901 / 65460079529624853577728)) by field; assert (V : v = p * (15043 / 559872)) by field end.
  rewrite U, V. lra.
Qed.

(** A sphere and a dumbbell 10 away along the x axis, 4 long, the forces on its
    beads 1 apart from each other. *)
Definition pulled : config :=
  mkConfig (fun _ => 1) (fun j => v3 0 0 0) (fun j k => v3 1 0 (INR j)) (fun _ => 1) (fun _ => v3 10 0 0) (fun _ => v3 4 0 0).
Definition pull : inputs := with_DFb (default_inputs fts 1 1) [Some [2; 0; 0]].
Definition spot (b : nat) : R := match b with O => 0 | S O => 8 | _ => 12 end.
Lemma pulled_at b l : (b < 3)%nat -> (l < 3)%nat -> beads_of 1 1 pulled b l = v3 (spot b) 0 0 l.
Proof.
  intros Hb Hl. destruct b as [|[|[|b]]]; [| | |lia]; unfold beads_of, pulled; cbn; unfold bead_minus, bead_plus; idx3 Hl; cbn; field.
Qed.
Lemma pulled_far b b' : (b < 3)%nat -> (b' < 3)%nat -> norm (vsub (beads_of 1 1 pulled b) (beads_of 1 1 pulled b')) = Rabs (spot b - spot b').
Proof.
  intros Hb Hb'. unfold norm, vsub. rewrite !pulled_at by lia. cbn [v3].
  match goal with |- sqrt ?e = Rabs ?d => replace e with (Rsqr d) by (unfold Rsqr; ring) end. apply sqrt_Rsqr_abs.
Qed.
Lemma pulled_one b : radii_of 1 1 pulled b = 1.
Proof. unfold radii_of, pulled. cbn [c_ssizes c_dsizes]. destruct (Nat.ltb b 1), (Nat.ltb b (1 + 1)); reflexivity. Qed.
Example C98_spring_example sc dt :
  exists y fs, full_simulation pinv Proof_Step.inv3 psolve sc [] 0 (fun _ _ => 0) 1 1 fts false true true 2
      (shipped_settings dt 1 (v3 0 0 0) (v3 0 0 0)) (fun _ _ => Ok (pull, default_flow)) pulled = Ok (Some ([snap 1 pulled; y], fs)) /\
    n_dx y 0%nat 0%nat = 4 + dt * (8509 / (41472 * PI)).
Proof.
  assert (SH : solves_shape psolve) by (intros n A b _; unfold psolve; rewrite map_length, seq_length; reflexivity).
  set (input := fun (_ : config) (_ : R) => Ok (pull, default_flow) : res (inputs * flow)).
  assert (CW : complete fts 1 1 pull /\ well_posed 1 1 fts pull).
  { split.
    - unfold complete. cbv zeta. cbn. split; [reflexivity|]. split; [discriminate|].
      repeat split; first [reflexivity | exact (proj2 (zeros_given33 1)) | exact (proj2 (zeros_given 1)) | solve [intros o []] | intros o [<-|[]]; eexists; split; reflexivity].
    - unfold well_posed. cbn. repeat split; first [reflexivity | exact (proj2 (zeros_given33 1)) | exact (proj2 (zeros_given 1)) | solve [intros o []] | intros o [<-|[]]; eexists; split; reflexivity]. }
  assert (NS : no_stresslet (i_Sa pull)).
  { intros j m a b Hm. destruct j as [|j]; cbn in Hm; [|destruct j; discriminate Hm]. injection Hm as <-. destruct a as [|[|[|[|a]]]], b as [|[|[|[|b]]]]; reflexivity. }
  destruct (C62_complete pinv Proof_Step.inv3 psolve sc [] 0 (fun _ _ => 0) 1 1 fts false true true 2 (shipped_settings dt 1 (v3 0 0 0) (v3 0 0 0)) input pulled [1] SH) as (s & fs & E & _).
  - intros i Hi. left. reflexivity.
  - intros i Hi. left. reflexivity.
  - left. reflexivity.
  - reflexivity.
  - intros p t _ _. exists pull, default_flow. split; [reflexivity|]. split; [apply CW|]. left. exact free_default.
  - repeat split; cbn; auto; lia.
  - destruct (C98_run pinv Proof_Step.inv3 psolve sc [] 0 (fun _ _ => 0) 1 1 true 2 (shipped_settings dt 1 (v3 0 0 0) (v3 0 0 0)) input pulled s fs)
      as (pos & inp & fl & V & C & D & frc & P0 & PF & PM & _ & PS & _); try exact E; try (cbn; lia); try reflexivity.
    + exact pinv_ok.
    + exact psolve_ok.
    + intros l Hl. reflexivity.
    + left. reflexivity.
    + intros p t i f Ei. injection Ei as <- <-. split; [apply CW|]. split; [exact NS|]. split; [cbn; lra|intros l Hl; reflexivity].
    + intros m st Hm Es. cbn [shipped_settings g_num_frames] in Hm. assert (m = 0%nat) by lia. subst m. cbn [seq run_frames] in Es. injection Es as <-.
      apply (proj2 C92_room 3%nat _ _ 1); [lia|intros b Hb; cbn [s_pos fresh]; rewrite pulled_one; lra|]. intros b b' Hb Hb' Ne. cbn [s_pos fresh]. rewrite pulled_far by assumption.
      assert (4 <= Rabs (spot b - spot b')).
      { destruct b as [|[|[|b]]], b' as [|[|[|b']]]; try lia; cbn [spot]; first [rewrite Rabs_right by lra; lra | rewrite Rabs_left by lra; lra]. }
      split; [|cbn [INR]; lra]. apply Rlt_trans with 1; [|lra]. rewrite <- Rinv_1. apply Rinv_lt_contravar; cbn; lra.
    + cbn [shipped_settings g_num_frames g_save_pos] in PS. cbn in PS. rewrite P0 in PS.
      exists (snap 1 (pos 1%nat)), fs. split; [fold input; rewrite E, PS; reflexivity|].
      change (n_dx (snap 1 (pos 1%nat)) 0%nat 0%nat) with (c_ddx (pos 1%nat) 0%nat 0%nat).
      destruct (PF 0%nat ltac:(cbn; lia)) as (E0 & k & LD & _ & K). assert (k = 0%nat) by (destruct LD; lia). subst k.
      unfold input in E0. injection E0 as Ei Ef. rewrite P0, <- Ei, <- Ef in K.
      destruct (proj2 (PM 0%nat 0%nat ltac:(cbn; lia) ltac:(lia)) 0%nat ltac:(lia)) as [_ ->]. rewrite P0.
      rewrite (proj2 (K 0%nat 0%nat ltac:(lia) ltac:(lia))). clear K PM PS PF E. pose proof PI_RGT_0 as HPI.
      change (c_ddx pulled 0%nat 0%nat) with 4. cbn [shipped_settings g_dt default_flow f_mu f_U f_O f_centre]. do 2 f_equal.
      unfold linear_flow, towed_velocity, towed_strain, mvec, rsum, felt. cbn [Nat.add Nat.mul Nat.eqb Nat.ltb Nat.leb negb andb orb].
      assert (F1 : forall c, (c < 3)%nat -> bead_force 1 1 (load (i_Fa pull)) (load (i_Fb pull)) (load (i_DFb pull)) 1 c = v3 (-1) 0 0 c) by (intros c Hc; unfold bead_force, load; idx3 Hc; cbn; field).
      assert (F2 : forall c, (c < 3)%nat -> bead_force 1 1 (load (i_Fa pull)) (load (i_Fb pull)) (load (i_DFb pull)) 2 c = v3 1 0 0 c) by (intros c Hc; unfold bead_force, load; idx3 Hc; cbn; field).
      assert (F0 : forall c, (c < 3)%nat -> bead_force 1 1 (load (i_Fa pull)) (load (i_Fb pull)) (load (i_DFb pull)) 0 c = 0) by (intros c Hc; unfold bead_force, load; idx3 Hc; cbn; field).
      assert (T0 : forall b c, (c < 3)%nat -> bead_torque 1 (load (i_Ta pull)) b c = 0) by (intros b c Hc; unfold bead_torque, load; destruct b; idx3 Hc; reflexivity).
      unfold swept, strained, heading, used_separation. rewrite !pulled_far by lia. unfold dot3, cross. rewrite !F0, !F1, !F2, !T0 by lia.
      unfold vsub. rewrite !pulled_at by lia. cbn [spot].
      rewrite (Rabs_left (0 - 8)), (Rabs_left (0 - 12)), (Rabs_left (8 - 12)), (Rabs_right (8 - 0)), (Rabs_right (12 - 0)), (Rabs_right (12 - 8)) by lra.
      rewrite !pulled_one, !Rmax_left by lra. unfold delta. cbn [Nat.eqb v3]. field. lra.
Qed.
