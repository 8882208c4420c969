(** Runs: every frame solves its grand problem and moves the particles. *)
From Coq Require Import Reals List Arith Bool Lia Lra.
From Verif Require Import Base Py Model_Mob Model_Minf Model_Grand Model_Close Model_R2B Model_MinfP Model_GrandP Model_Step
  Model_Output Model_Frame Model_Inputs Model_Sim Spec_Convert Spec_Output Spec_Step Spec_Frame Spec_Posdef Spec_Run
  Proof_Step Proof_Step2 Proof_Step3 Proof_Frame Proof_Frame2 Proof_Frame4 Proof_Frame5 Proof_GrandP Proof_Posdef Proof_Run.
Import ListNotations.
Local Open Scope R_scope.

Lemma choose2 (A B : Type) (P : nat -> A -> B -> Prop) (a0 : A) (b0 : B) N :
  (forall m, (m < N)%nat -> exists a b, P m a b) -> exists a b, forall m, (m < N)%nat -> P m (a m) (b m).
Proof.
  induction N as [|N IH]; intros H.
  - exists (fun _ => a0), (fun _ => b0). intros m Hm. lia.
  - destruct IH as (a & b & K); [intros m Hm; apply H; lia|]. destruct (H N (Nat.lt_succ_diag_r N)) as (x & y & HP).
    exists (fun m => if Nat.eqb m N then x else a m), (fun m => if Nat.eqb m N then y else b m). intros m Hm.
    destruct (Nat.eqb_spec m N) as [->|]; [exact HP|apply K; lia].
Qed.

Lemma rod_ext w w' t v l : (forall a, (a < 3)%nat -> w a = w' a) -> (l < 3)%nat ->
  rodrigues w (norm w * t) v l = rodrigues w' (norm w' * t) v l.
Proof.
  intros E Hl. assert (N : norm w = norm w') by (unfold norm; rewrite !E by lia; reflexivity).
  unfold rodrigues. rewrite N. unfold cross, dot3, vscal, v3. rewrite !E by lia. idx3 Hl; reflexivity.
Qed.

Section Frames.
Variable inv : nat -> mat -> mat.
Variable inv3 : mat -> mat.
Variable solve : nat -> mat -> list R -> list R.
Variable sc : nat -> nat -> R -> nat -> R.
Variable table : list R.
Variable h : nat.
Variable stale : nat -> nat -> R.
Variables Ns Nd : nat.
Variable fm : form.
Variables extract bb minf_only : bool.
Variable cutoff_factor : R.
Variable g : settings.
Variable input : config -> R -> res (inputs * flow).
Variable p0 : config.
Notation n := (11 * Ns + 6 * Nd)%nat.
Notation farm := (far_mobility h stale Ns Nd bb).
Notation nearf := (near_field inv3 sc table Ns Nd bb minf_only cutoff_factor).
Notation ans := (answers Ns Nd fm).
Notation far := (far_inverse inv h stale Ns Nd bb g input).
Notation rest := (solve_rest inv inv3 solve sc table h stale Ns Nd fm extract bb minf_only cutoff_factor g input).
Notation frames := (run_frames inv3 Ns Nd far rest g (fresh p0)).
Notation N := (g_num_frames g).
Notation farres := (far_resistance h stale Ns Nd bb g input).
Notation solv := (solved inv3 sc table h stale Ns Nd fm bb minf_only cutoff_factor g input).

(** The state of the run before frame [m] has the configuration [p]. *)
Definition reached (m : nat) (p : config) : Prop := exists st, frames (seq 0 m) = Ok st /\ s_pos st = p.

Lemma rest_input p t vel L s : rest p t vel L = Ok s -> exists i f, input p t = Ok (i, f).
Proof. unfold solve_rest. intros E. binv E. destruct a as [i f]. exists i, f. exact E0. Qed.

Lemma drag_unbounded p t vel L s i f : (0 < Ns)%nat -> g_use_drag g = true -> (fm <> stokes_drag_dumbbells_only) ->
  rest p t vel L = Ok s -> input p t = Ok (i, f) -> unbounded f.
Proof.
  intros HN Hd Hf E Ei. unfold solve_rest in E. rewrite Ei in E. cbn [bind] in E.
  destruct (free_space f) eqn:Ef; [apply free_unbounded; exact Ef|]. exfalso. rewrite Hd in E.
  destruct (i_Ea i) as [|e0 l0].
  - destruct fm; try congruence; discriminate.
  - rewrite periodic_drag_raises in E by (cbn [num_spheres num_dumbbells posdata_of]; lia).
    destruct fm; try congruence; discriminate.
Qed.

Hypothesis Hinv : inverts_posdef inv.
Hypothesis Hsolve : solves_posdef solve.
Hypothesis HNs : (0 < Ns)%nat.
Hypothesis Hex : extract = false.
Hypothesis Hstart : g_start g = 0%nat.
Hypothesis Hscheme : g_scheme g = euler \/ g_scheme g = ab2.
Hypothesis Hquiet : forall m st, (m < N)%nat -> frames (seq 0 m) = Ok st -> s_error st = false.
Hypothesis Hposed : forall m p i f, (m < N)%nat -> reached m p -> input p (INR m) = Ok (i, f) -> well_posed Ns Nd fm i.
Hypothesis Hfar : forall m p i f M, (m < N)%nat -> g_use_drag g = false -> reached m p -> input p (INR m) = Ok (i, f) ->
  farm p f M -> pos_def n M.
Hypothesis Hgrand : forall m pos i f L N0, (m < N)%nat -> (forall k, (k <= m)%nat -> reached k (pos k)) ->
  input (pos m) (INR m) = Ok (i, f) -> farres pos m L -> nearf (pos m) f N0 -> pos_def n (fun a b => L a b + N0 a b).

Definition traj (m : nat) : config := match frames (seq 0 m) with Ok st => s_pos st | Raise _ => p0 end.

Lemma traj_reached m st : frames (seq 0 m) = Ok st -> reached m (traj m) /\ traj m = s_pos st.
Proof. intros E. unfold traj. rewrite E. split; [exists st; auto|reflexivity]. Qed.

(** What a frame does, unfolded. *)
Lemma frame_parts m st' : (m < N)%nat -> frames (seq 0 (S m)) = Ok st' ->
  exists st regen r, frames (seq 0 m) = Ok st /\ generate_frame inv3 Ns Nd far rest g st m = Ok st' /\ regenerate_now g m = Ok regen /\
    step_euler_ab2 inv3 Ns Nd far rest g m regen (s_pos st) false (if regen then no_matrix else s_minv st) (vel_at g st m) = Ok r /\
    s_pos st' = t_pos r /\ s_minv st' = t_minv r /\ s_vel st' = t_vel r /\ s_error st = false.
Proof.
  intros Hm E. apply frames_snoc in E. destruct E as (st & E & F). cbn [plus] in F.
  pose proof (Hquiet m st Hm E) as He.
  destruct (frame_inv _ _ _ _ _ _ _ _ _ He F) as (regen & r & R1 & R2 & R3 & R4 & R5 & R6 & _).
  exists st, regen, r. split; [exact E|]. split; [exact F|]. split; [exact R1|]. split; [|auto].
  unfold step in R2. destruct Hscheme as [S|S]; rewrite S in R2; exact R2.
Qed.

Lemma frame_input m st' : (m < N)%nat -> frames (seq 0 (S m)) = Ok st' -> exists i f, input (traj m) (INR m) = Ok (i, f).
Proof.
  intros Hm E. destruct (frame_parts m st' Hm E) as (st & regen & r & E0 & _ & _ & R2 & _).
  apply euler_inv in R2. destruct R2 as (s & U & W & B & D & _ & R2 & _). apply rest_input in R2.
  destruct (traj_reached m st E0) as [_ ->]. exact R2.
Qed.

Lemma frame_far m st' : (m < N)%nat -> frames (seq 0 (S m)) = Ok st' -> farres traj m (s_minv st') /\ msym n (s_minv st').
Proof.
  intros Hm E. pose proof (frame_parts m st' Hm E) as (st & regen & r & E0 & F & R1 & R2 & R3 & R4 & R5 & He).
  destruct (traj_reached m st E0) as [Hr Et].
  unfold far_resistance. destruct (g_use_drag g) eqn:Hd.
  - apply euler_inv in R2. destruct R2 as (s & U & W & B & D & Q1 & Q2 & _). rewrite Hd in Q1. cbn [orb] in Q1.
    destruct (rest_input _ _ _ _ _ Q2) as (i & f & Ei).
    assert (Hf : fm <> stokes_drag_dumbbells_only).
    { pose proof (Hposed m (s_pos st) i f Hm ltac:(rewrite <- Et; exact Hr) Ei) as [_ K]. intros C. rewrite C in K. exact K. }
    pose proof (drag_unbounded _ _ _ _ _ _ _ HNs Hd Hf Q2 Ei) as Hu.
    rewrite R4, Q1, (far_drag_ok inv h stale Ns Nd bb g input _ _ _ _ Ei Hd Hu). split; [|apply drag_sym].
    exists i, f. rewrite Et. auto.
  - assert (E0' : frames (seq (g_start g) m) = Ok st) by (rewrite Hstart; exact E0).
    destruct (far_schedule inv3 Ns Nd far rest g (fresh p0) m st st' Hd E0' He ltac:(rewrite Hstart; exact F))
      as (k & sth & K1 & K2 & K3 & K4 & _).
    rewrite Hstart in K1, K2. rewrite Nat.add_0_l, Nat.sub_0_r in *. pose proof K1 as (K5 & _).
    destruct (frames_prefix _ _ _ _ _ _ _ _ (S m) (S k) _ E ltac:(lia)) as (sk & Ek).
    destruct (frame_input k sk ltac:(lia) Ek) as (i & f & Ei).
    destruct (traj_reached k sth K2) as [Hrk Etk]. rewrite Etk in Ei, Hrk.
    destruct (far_ok inv h stale Ns Nd bb g input Hinv (s_pos sth) (INR k) i f Ei Hd
                (fun M => Hfar k (s_pos sth) i f M ltac:(lia) eq_refl Hrk Ei)) as (M & M1 & M2 & M3).
    rewrite K4. split; [|exact M3]. exists k, i, f, M. rewrite Etk. auto.
Qed.

Lemma nth_unrow2 l i a b : nth i (map unrow2 l) mzero a b = matof l i a b.
Proof.
  unfold matof. destruct (Nat.lt_ge_cases i (length l)) as [H|H].
  - rewrite nth_indep with (d' := unrow2 []) by (rewrite map_length; exact H). rewrite map_nth. reflexivity.
  - rewrite (nth_overflow (map unrow2 l)) by (rewrite map_length; exact H). rewrite (nth_overflow l) by exact H.
    destruct a, b; reflexivity.
Qed.

Lemma flow_ext U W A B c x l : (forall a b, A a b = B a b) -> linear_flow U W A c x l = linear_flow U W B c x l.
Proof. intros H. unfold linear_flow, mvec. cbn [rsum]. rewrite !H. reflexivity. Qed.

(** Frame [m] solves its grand problem; the speeds it leaves for the next one
    and the new positions follow from the solution. *)
Lemma frame_solved m st' : (m < N)%nat -> frames (seq 0 (S m)) = Ok st' ->
  exists f o, solv traj m f o /\
    (forall j l, (j < Ns)%nat -> v_U (s_vel st') j l = sphere_speed g f o (traj m) j l /\ v_O (s_vel st') j l = sphere_spin f o j l) /\
    (forall V W, (forall st, (0 < m)%nat -> frames (seq 0 m) = Ok st -> forall j l, (j < Ns)%nat -> (l < 3)%nat ->
         v_U (s_vel st) j l = V j l /\ v_O (s_vel st) j l = W j l) ->
       moved_on inv3 Ns Nd g m f o V W (traj m) (traj (S m))) /\
    (forall st regen r, frames (seq 0 m) = Ok st -> regenerate_now g m = Ok regen ->
       step inv3 Ns Nd far rest g m regen (s_pos st) false (if regen then no_matrix else s_minv st) (vel_at g st m) = Ok r ->
       t_forces r = forces_of o).
Proof.
  intros Hm E. pose proof (frame_far m st' Hm E) as [HL SL].
  pose proof (frame_parts m st' Hm E) as (st & regen & r & E0 & F & R1 & R2 & R3 & R4 & R5 & He).
  destruct (traj_reached m st E0) as [Hr Et]. destruct (traj_reached (S m) st' E) as [_ Et'].
  pose proof R2 as R2'. apply euler_inv in R2.
  destruct R2 as (s & U & W & B & D & Q1 & Q2 & Q3 & Q4 & Q5 & _ & _ & Q6 & Q7 & Q8). cbv zeta in Q8. destruct Q8 as [Q8 _].
  rewrite <- R4 in Q2.
  destruct (rest_answers inv inv3 solve sc table h stale Ns Nd fm extract bb minf_only cutoff_factor g input Hinv Hsolve HNs Hex
              (s_pos st) (INR m) (vel_at g st m) (s_minv st') s Q2) as (i & f & N0 & o & A1 & A2 & A3 & A4 & _).
  { intros i f. apply (Hposed m). exact Hm. rewrite <- Et. exact Hr. }
  { exact SL. }
  { intros i f N0 Ei HN0. rewrite <- Et in Ei, HN0. apply (Hgrand m traj i f); auto.
    intros k Hk. destruct (frames_prefix _ _ _ _ _ _ _ _ m k _ E0 Hk) as (sk & Ek). apply (traj_reached k sk Ek). }
  assert (US : forall j l, (j < Ns)%nat -> U j l = sphere_speed g f o (traj m) j l).
  { intros j l Hj. destruct (Q3 ltac:(lia)) as (U0 & G1 & ->). unfold flow_spheres in G1.
    destruct (Nat.ltb_spec (length (o_Ea s)) Ns); [discriminate|]. cbv zeta in G1. injection G1 as <- <-.
    assert (U1 : fst (add_background_flow_sphere (o_Ua s j) (o_Oa s j) (nth j (o_Ea s) mzero) (o_Uinf s) (o_Oinf s) (c_spos (s_pos st) j) (o_centre s)) l =
      rowof (Model_Output.o_Ua o) j l + linear_flow (f_U f) (f_O f) (matof (Model_Output.o_Ea o) j) (f_centre f) (c_spos (traj m) j) l).
    { rewrite (proj1 (flow_sphere_ok _ _ _ _ _ _ _ l)), A4, Et.
      cbn [solution_of o_Ua o_Oa o_Ea o_Uinf o_Oinf o_centre].
      rewrite (flow_ext (f_U f) (f_O f) _ _ (f_centre f) (c_spos (s_pos st) j) l (nth_unrow2 (Model_Output.o_Ea o) j)). reflexivity. }
    unfold sphere_speed. destruct (g_fully_2d g).
    - unfold flatten_y. cbn [andb]. destruct (Nat.eqb l 1); [reflexivity|exact U1].
    - exact U1. }
  assert (WS : forall j l, (j < Ns)%nat -> W j l = sphere_spin f o j l).
  { intros j l Hj. destruct (Q3 ltac:(lia)) as (U0 & G1 & _). unfold flow_spheres in G1.
    destruct (Nat.ltb_spec (length (o_Ea s)) Ns); [discriminate|]. cbv zeta in G1. injection G1 as _ <-.
    refine (eq_trans (proj2 (flow_sphere_ok (o_Ua s j) (o_Oa s j) (nth j (o_Ea s) mzero) (o_Uinf s) (o_Oinf s) (c_spos (s_pos st) j) (o_centre s) l)) _).
    rewrite A4. reflexivity. }
  exists f, o. split; [|split; [|split]].
  - exists i, (s_minv st'), N0. rewrite Et. auto.
  - intros j l Hj. rewrite R5, Q6. cbn [v_U v_O]. split; [apply US|apply WS]; exact Hj.
  - intros V W0 HV. rewrite Et, Et', R3, Q8. rewrite Et in US. unfold moved_on. cbn [c_ssizes c_dsizes c_spos c_dpos c_ddx].
    split; [reflexivity|]. split; [reflexivity|]. split.
    + intros j Hj. destruct (Nat.eqb_spec Ns 0) as [C|_]; [lia|]. rewrite Hstart.
      set (fst1 := match g_scheme g with euler => true | _ => Nat.eqb m 0 end).
      match goal with |- context [wrap inv3 g s ?X] => exists (X j); set (x := X) end. split; [|split].
      * intros l Hl. unfold wrap. rewrite A4. destruct (periodic g); reflexivity.
      * intros l Hl. subst x. destruct fst1 eqn:Ef; cbv beta.
        -- unfold eul, euler_timestep. rewrite US by exact Hj. reflexivity.
        -- unfold ab2_timestep. rewrite US by exact Hj.
           assert (Hm0 : (0 < m)%nat).
           { unfold fst1 in Ef. destruct m; [|lia]. destruct Hscheme as [S|S]; rewrite S in Ef; discriminate. }
           unfold vel_at. rewrite Hstart. destruct (Nat.eqb_spec m 0) as [C|_]; [lia|]. cbn [orb].
           rewrite (proj1 (HV st Hm0 E0 j l Hj Hl)). field.
      * intros k I3 (l0 & L0 & NZ) l Hl.
        assert (NE : exists l, (l < 3)%nat /\ c_srot (s_pos st) j k l <> c_spos (s_pos st) j l).
        { exists l0. split; [exact L0|]. unfold vsub in NZ. lra. }
        destruct fst1 eqn:Ef.
        -- refine (eq_trans (new_arm inv3 (c_spos (s_pos st)) _ (c_srot (s_pos st)) W (g_dt g) I3 j k l NE Hl) _).
           apply rod_ext; [|exact Hl]. intros a Ha. apply WS. exact Hj.
        -- refine (eq_trans (ab2_arm inv3 (c_spos (s_pos st)) (c_srot (s_pos st)) _ W (v_O (vel_at g st m)) (g_dt g) j k l I3 Hl NE) _). cbv zeta.
           apply rod_ext; [|exact Hl]. intros a Ha. rewrite WS by exact Hj.
           assert (Hm0 : (0 < m)%nat).
           { unfold fst1 in Ef. destruct m; [|lia]. destruct Hscheme as [S|S]; rewrite S in Ef; discriminate. }
           unfold vel_at. rewrite Hstart. destruct (Nat.eqb_spec m 0) as [C|_]; [lia|]. cbn [orb].
           rewrite (proj2 (HV st Hm0 E0 j a Hj Ha)). field.
    + intros j Hj. assert (HNd : Nd <> 0%nat) by lia. destruct (Nat.eqb_spec Nd 0) as [C|_]; [lia|].
      specialize (Q4 HNd). unfold flow_dumbbells in Q4. destruct (o_Ea s) as [|e0 l0] eqn:Ee; [discriminate|].
      cbv zeta in Q4. injection Q4 as <- <-.
      assert (H0 : forall a b, e0 a b = matof (Model_Output.o_Ea o) 0 a b).
      { intros a b. rewrite <- nth_unrow2. rewrite A4 in Ee. cbn [solution_of o_Ea] in Ee. rewrite Ee. reflexivity. }
      assert (K : forall l, (l < 3)%nat ->
        let q := add_background_flow_dumbbell (o_Ub s j) (o_HalfDUb s j) e0 (o_Uinf s) (o_Oinf s) (c_dpos (s_pos st) j) (c_ddx (s_pos st) j) (o_centre s) in
        fst q l = centre_speed f o (s_pos st) j l /\ 2 * snd q l = stretch_speed f o (s_pos st) j l).
      { intros l Hl. cbv zeta.
        destruct (flow_dumbbell_ok (o_Ub s j) (o_HalfDUb s j) e0 (o_Uinf s) (o_Oinf s) (c_dpos (s_pos st) j) (c_ddx (s_pos st) j) (o_centre s) l Hl) as [-> ->].
        rewrite A4. cbn [solution_of o_Ub o_HalfDUb o_Uinf o_Oinf o_centre]. unfold centre_speed, stretch_speed, bead_flow.
        rewrite !(flow_ext _ _ e0 _ _ _ l H0). split; [reflexivity|].
        change (unrow (Model_Output.o_HalfDUb o) j l) with (rowof (Model_Output.o_HalfDUb o) j l). field. }
      split.
      * match goal with |- context [wrap inv3 g s ?X] => exists (X j); set (x := X) end. split.
        -- intros l Hl. unfold wrap. rewrite A4. destruct (periodic g); reflexivity.
        -- intros l Hl. subst x. exact (f_equal (fun u => c_dpos (s_pos st) j l + g_dt g * u) (proj1 (K l Hl))).
      * intros l Hl. exact (f_equal (fun u => c_ddx (s_pos st) j l + g_dt g * u) (proj2 (K l Hl))).
  - intros st1 regen1 r1 E1 G1 S1. rewrite E0 in E1. injection E1 as <-. rewrite R1 in G1. injection G1 as <-.
    assert (S2 : step_euler_ab2 inv3 Ns Nd far rest g m regen (s_pos st) false (if regen then no_matrix else s_minv st) (vel_at g st m) = Ok r1)
      by (unfold step in S1; destruct Hscheme as [S|S]; rewrite S in S1; exact S1).
    rewrite R2' in S2. injection S2 as <-. rewrite Q7, A4. reflexivity.
Qed.

Lemma sizes_kept m st : (m <= N)%nat -> frames (seq 0 m) = Ok st ->
  c_ssizes (s_pos st) = c_ssizes p0 /\ c_dsizes (s_pos st) = c_dsizes p0.
Proof.
  revert st. induction m as [|m IH]; intros st Hm E.
  - injection E as <-. split; reflexivity.
  - destruct (frame_parts m st Hm E) as (st1 & regen & r & E0 & F & R1 & R2 & R3 & _). apply euler_inv in R2.
    destruct R2 as (s & U & W & B & D & _ & _ & _ & _ & _ & _ & _ & _ & _ & Q8). cbv zeta in Q8. destruct Q8 as [Q8 _].
    rewrite R3, Q8. cbn [c_ssizes c_dsizes]. apply IH; [lia|exact E0].
Qed.

Lemma whole_run s fs :
  (0 < g_save_pos g)%nat -> (0 < g_save_forces g)%nat ->
  (g_save_after g mod g_save_pos g = 0)%nat -> (g_save_after g mod g_save_forces g = 0)%nat ->
  full_simulation inv inv3 solve sc table h stale Ns Nd fm extract bb minf_only cutoff_factor g input p0 = Ok (Some (s, fs)) ->
  exists pos fl out, (pos 0%nat = p0 /\ forall m, (m <= N)%nat -> reached m (pos m)) /\
    (forall m, (m < N)%nat -> solv pos m (fl m) (out m) /\
       moved_on inv3 Ns Nd g m (fl m) (out m) (sphere_speed g (fl (m - 1)%nat) (out (m - 1)%nat) (pos (m - 1)%nat))
         (sphere_spin (fl (m - 1)%nat) (out (m - 1)%nat)) (pos m) (pos (S m))) /\
    s = map (fun m => snap Ns (pos m)) (due_frames (g_save_pos g) (g_save_after g) N)
        ++ (if save_due (g_save_pos g) (g_save_after g) (N - 1) then [snap Ns (pos N)] else []) /\
    fs = map (fun m => forces_of (out m)) (due_frames (g_save_forces g) (g_save_after g) N).
Proof.
  intros G1 G2 G3 G4 E.
  destruct (output_complete inv3 Ns Nd far rest g p0 s fs Hstart G1 G2 G3 G4 Hquiet E) as (pos & frc & P1 & P2 & P3 & P4).
  assert (EQ : forall m, (m <= N)%nat -> pos m = traj m).
  { intros m Hm. destruct (P1 m Hm) as (st & Es & <-). symmetry. apply (traj_reached m st Es). }
  set (P := fun m f o => solv traj m f o /\
    (forall st', frames (seq 0 (S m)) = Ok st' -> forall j l, (j < Ns)%nat ->
       v_U (s_vel st') j l = sphere_speed g f o (traj m) j l /\ v_O (s_vel st') j l = sphere_spin f o j l) /\
    (forall V W, (forall st, (0 < m)%nat -> frames (seq 0 m) = Ok st -> forall j l, (j < Ns)%nat -> (l < 3)%nat ->
         v_U (s_vel st) j l = V j l /\ v_O (s_vel st) j l = W j l) ->
       moved_on inv3 Ns Nd g m f o V W (traj m) (traj (S m))) /\ frc m = forces_of o).
  destruct (choose2 flow outputs P (mkFlow (fun _ => 0) (fun _ => 0) (fun _ => 0) (fun _ => 0) mzero (fun _ => 0) (fun _ => 0) 0)
              (mkOutputs [] [] [] [] [] [] [] [] [] []) N) as (fl & out & K).
  { intros m Hm. destruct (P1 (S m) Hm) as (st' & Es & _). destruct (frame_solved m st' Hm Es) as (f & o & F1 & F2 & F3 & F4).
    exists f, o. split; [exact F1|]. split; [|split; [exact F3|]].
    - intros st2 E2. rewrite Es in E2. injection E2 as <-. exact F2.
    - destruct (P4 m Hm) as (st & regen & r & H1 & H2 & H3 & ->). exact (F4 st regen r H1 H2 H3). }
  exists traj, fl, out. split; [split; [reflexivity|]|split; [|split]].
  - intros m Hm. destruct (P1 m Hm) as (st & Es & _). apply (traj_reached m st Es).
  - intros m Hm. destruct (K m Hm) as (K1 & K2 & K3 & K4). split; [exact K1|]. apply K3.
    intros st Hm0 Es j l Hj Hl. destruct (K (m - 1)%nat ltac:(lia)) as (_ & L2 & _).
    apply L2; [|exact Hj]. replace (S (m - 1)) with m by lia. exact Es.
  - rewrite P2. f_equal; [|rewrite (EQ N) by lia; reflexivity].
    apply map_ext_in. intros m Hm. unfold due_frames in Hm. apply filter_In in Hm. destruct Hm as [Hm _]. apply in_seq in Hm.
    rewrite EQ by lia. reflexivity.
  - rewrite P3. apply map_ext_in. intros m Hm. unfold due_frames in Hm. apply filter_In in Hm. destruct Hm as [Hm _]. apply in_seq in Hm.
    apply (K m). lia.
Qed.
End Frames.
