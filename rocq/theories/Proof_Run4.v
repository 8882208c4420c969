(** Runs with the Runge-Kutta scheme. *)
From Coq Require Import Reals List Arith Bool Lia Lra FunctionalExtensionality.
From Verif Require Import Base Py Model_Mob Model_Minf Model_Grand Model_Close Model_R2B Model_MinfP Model_GrandP Model_Step
  Model_Output Model_Frame Model_Inputs Model_Sim Spec_Convert Spec_Output Spec_Step Spec_Frame Spec_Posdef Spec_Run Spec_Run4
  Proof_Step Proof_Step2 Proof_Step3 Proof_Frame Proof_Frame2 Proof_Frame4 Proof_Frame5 Proof_GrandP Proof_Posdef Proof_Run Proof_Run2.
Import ListNotations.
Local Open Scope R_scope.

Lemma choose4 (A B C D : Type) (P : nat -> A -> B -> C -> D -> Prop) (a0 : A) (b0 : B) (c0 : C) (d0 : D) N :
  (forall m, (m < N)%nat -> exists a b c d, P m a b c d) -> exists a b c d, forall m, (m < N)%nat -> P m (a m) (b m) (c m) (d m).
Proof.
  intros H. destruct (choose2 (A * B) (C * D) (fun m x y => P m (fst x) (snd x) (fst y) (snd y)) (a0, b0) (c0, d0) N) as (x & y & K).
  - intros m Hm. destruct (H m Hm) as (a & b & c & d & K). exists (a, b), (c, d). exact K.
  - exists (fun m => fst (x m)), (fun m => snd (x m)), (fun m => fst (y m)), (fun m => snd (y m)). exact K.
Qed.

Section Frames.
Variable inv : nat -> mat -> mat.
Variable inv3 : mat -> mat.
Variable solve : nat -> mat -> list R -> list R.
Variable sc : nat -> nat -> R -> nat -> R.
Variable table : list R.
Variable h : nat.
Variable stale : nat -> nat -> R.
Variables Ns Nd : nat.
Variable fm : form.
Variables bb minf_only : bool.
Variable cutoff_factor : R.
Variable g : settings.
Variable input : config -> R -> res (inputs * flow).
Variable p0 : config.
Notation n := (11 * Ns + 6 * Nd)%nat.
Notation farm := (far_mobility h stale Ns Nd bb).
Notation nearf := (near_field inv3 sc table Ns Nd bb minf_only cutoff_factor).
Notation ans := (answers Ns Nd fm).
Notation far := (far_inverse inv h stale Ns Nd bb g input).
Notation rest := (solve_rest inv inv3 solve sc table h stale Ns Nd fm false bb minf_only cutoff_factor g input).
Notation frames := (run_frames inv3 Ns Nd far rest g (fresh p0)).
Notation N := (g_num_frames g).
Notation farres := (far_resistance h stale Ns Nd bb g input).
Notation sfar := (stage_far h stale Ns Nd bb g input).
Notation ssol := (stage_solved inv3 sc table Ns Nd fm bb minf_only cutoff_factor input).
Notation stg := (stages inv3 sc table h stale Ns Nd fm bb minf_only cutoff_factor g input).
Notation reach := (reached inv inv3 solve sc table h stale Ns Nd fm false bb minf_only cutoff_factor g input p0).
Notation trj := (traj inv inv3 solve sc table h stale Ns Nd fm false bb minf_only cutoff_factor g input p0).
Notation trj_reached := (traj_reached inv inv3 solve sc table h stale Ns Nd fm false bb minf_only cutoff_factor g input p0).

Hypothesis Hinv : inverts_posdef inv.
Hypothesis Hsolve : solves_posdef solve.
Hypothesis HNs : (0 < Ns)%nat.
Hypothesis Hstart : g_start g = 0%nat.
Hypothesis Hscheme : g_scheme g = rk4.
Hypothesis Hquiet : forall m st, (m < N)%nat -> frames (seq 0 m) = Ok st -> s_error st = false.
Hypothesis HP : posed_stages inv3 sc table h stale Ns Nd fm bb minf_only cutoff_factor g input reach.

Lemma frame_parts4 m st' : (m < N)%nat -> frames (seq 0 (S m)) = Ok st' ->
  exists st regen r, frames (seq 0 m) = Ok st /\ generate_frame inv3 Ns Nd far rest g st m = Ok st' /\ regenerate_now g m = Ok regen /\
    step_rk4 inv3 Ns Nd far rest g m regen (s_pos st) false (if regen then no_matrix else s_minv st) (vel_at g st m) = Ok r /\
    s_pos st' = t_pos r /\ s_minv st' = t_minv r /\ s_error st = false.
Proof.
  intros Hm E. apply frames_snoc in E. destruct E as (st & E & F). cbn [plus] in F.
  pose proof (Hquiet m st Hm E) as He.
  destruct (frame_inv _ _ _ _ _ _ _ _ _ He F) as (regen & r & R1 & R2 & R3 & R4 & R5 & R6 & _).
  exists st, regen, r. split; [exact E|]. split; [exact F|]. split; [exact R1|]. split; [|auto].
  unfold step in R2. rewrite Hscheme in R2. exact R2.
Qed.

Lemma frame_input4 m st' : (m < N)%nat -> frames (seq 0 (S m)) = Ok st' -> exists i f, input (trj m) (INR m) = Ok (i, f).
Proof.
  intros Hm E. destruct (frame_parts4 m st' Hm E) as (st & regen & r & E0 & _ & _ & R2 & _).
  apply rk4_inv in R2. destruct R2 as (s1 & R2).
  repeat match type of R2 with exists _, _ => destruct R2 as (? & R2) end. destruct R2 as (_ & R2 & _). apply rest_input in R2.
  destruct (trj_reached m st E0) as [_ ->]. exact R2.
Qed.
Lemma frames_reached m st : frames (seq 0 m) = Ok st -> forall k, (k <= m)%nat -> reach k (trj k).
Proof. intros E k Hk. destruct (frames_prefix _ _ _ _ _ _ _ _ m k _ E Hk) as (sk & Ek). apply (trj_reached k sk Ek). Qed.

(** The conditions at the start of a frame. *)
Lemma posed0 m st i f : (m < N)%nat -> frames (seq 0 m) = Ok st -> input (trj m) (INR m) = Ok (i, f) ->
  well_posed Ns Nd fm i /\ (g_use_drag g = false -> forall M, farm (trj m) f M -> pos_def n M) /\
  (forall L0 N0, farres trj m L0 -> nearf (trj m) f N0 -> pos_def n (fun a b => L0 a b + N0 a b)).
Proof.
  intros Hm E Ei.
  apply (HP m trj 0%nat (fun _ => trj m) (fun _ => mzero) (fun _ => f) (fun _ => mkOutputs [] [] [] [] [] [] [] [] [] []) Hm ltac:(lia) (frames_reached m st E)); [|exact Ei].
  split; [reflexivity|]. split; intros; lia.
Qed.

Lemma not_drag_form i f q t : input q t = Ok (i, f) -> well_posed Ns Nd fm i -> fm <> stokes_drag_dumbbells_only.
Proof. intros _ [_ K] C. rewrite C in K. exact K. Qed.

Lemma frame_far4 m st' : (m < N)%nat -> frames (seq 0 (S m)) = Ok st' -> farres trj m (s_minv st') /\ msym n (s_minv st').
Proof.
  intros Hm E. pose proof (frame_parts4 m st' Hm E) as (st & regen & r & E0 & F & R1 & R2 & R3 & R4 & He).
  destruct (trj_reached m st E0) as [Hr Et].
  unfold far_resistance. destruct (g_use_drag g) eqn:Hd.
  - apply rk4_inv in R2. destruct R2 as (s1 & R2).
    repeat match type of R2 with exists _, _ => destruct R2 as (? & R2) end. destruct R2 as (Q1 & Q2 & _). rewrite Hd in Q1. cbn [orb] in Q1.
    destruct (rest_input _ _ _ _ _ _ _ _ _ _ _ _ _ _ _ _ _ _ _ _ _ Q2) as (i & f & Ei).
    assert (Ei' : input (trj m) (INR m) = Ok (i, f)) by (rewrite Et; exact Ei).
    destruct (posed0 m st i f Hm E0 Ei') as [HW _].
    pose proof (drag_unbounded _ _ _ _ _ _ _ _ _ _ _ _ _ _ _ _ _ _ _ _ _ _ _ HNs Hd (not_drag_form _ _ _ _ Ei HW) Q2 Ei) as Hu.
    rewrite R4, Q1, (far_drag_ok inv h stale Ns Nd bb g input _ _ _ _ Ei Hd Hu). split; [|apply drag_sym].
    exists i, f. rewrite Et. auto.
  - assert (E0' : frames (seq (g_start g) m) = Ok st) by (rewrite Hstart; exact E0).
    destruct (far_schedule inv3 Ns Nd far rest g (fresh p0) m st st' Hd E0' He ltac:(rewrite Hstart; exact F))
      as (k & sth & K1 & K2 & K3 & K4 & _).
    rewrite Hstart in K1, K2. rewrite Nat.add_0_l, Nat.sub_0_r in *. pose proof K1 as (K5 & _).
    destruct (frames_prefix _ _ _ _ _ _ _ _ (S m) (S k) _ E ltac:(lia)) as (sk & Ek).
    destruct (frame_input4 k sk ltac:(lia) Ek) as (i & f & Ei).
    destruct (posed0 k sth i f ltac:(lia) K2 Ei) as (_ & HF & _).
    destruct (trj_reached k sth K2) as [Hrk Etk].
    destruct (far_ok inv h stale Ns Nd bb g input Hinv (trj k) (INR k) i f Ei Hd (HF Hd)) as (M & M1 & M2 & M3).
    rewrite K4. rewrite <- Etk. split; [|exact M3]. exists k, i, f, M. auto.
Qed.

(** Later stages. *)
Lemma regen_due m regen : regenerate_now g m = Ok regen -> (regen = true <-> inversion_due 0 (g_invert_every g) m).
Proof. intros E. apply regen_spec in E. rewrite Hstart in E. apply E. Qed.

Lemma stage_far4 m k q L0 regen i f s vel : regenerate_now g m = Ok regen -> (0 < k)%nat -> msym n L0 ->
  input q (stage_time m k) = Ok (i, f) -> well_posed Ns Nd fm i ->
  (g_use_drag g = false -> forall M, farm q f M -> pos_def n M) ->
  let L := stage_minv far g regen q (stage_time m k) L0 in
  rest q (stage_time m k) vel L = Ok s ->
  sfar trj m k q L0 L /\ msym n L.
Proof.
  intros Hg Hk SL Ei HW HF L Hrest. destruct k as [|k]; [lia|]. unfold stage_far.
  pose proof (regen_due m regen Hg) as HD.
  unfold L, stage_minv in *. destruct (g_use_drag g) eqn:Hd; cbn [orb] in *.
  - pose proof (drag_unbounded _ _ _ _ _ _ _ _ _ _ _ _ _ _ _ _ _ _ _ _ _ _ _ HNs Hd (not_drag_form _ _ _ _ Ei HW) Hrest Ei) as Hu.
    rewrite (far_drag_ok inv h stale Ns Nd bb g input _ _ _ _ Ei Hd Hu) in *. split; [|apply drag_sym].
    split; [|discriminate]. intros _. unfold far_of. rewrite Hd. exists i, f. auto.
  - assert (C : (if g_rk4_each g then regen else false) = true <-> g_rk4_each g = true /\ inversion_due 0 (g_invert_every g) m).
    { destruct (g_rk4_each g); [rewrite HD; tauto|]. split; [discriminate|intros [X _]; discriminate]. }
    destruct (if g_rk4_each g then regen else false).
    + destruct (far_ok inv h stale Ns Nd bb g input Hinv q (stage_time m (S k)) i f Ei Hd (HF eq_refl)) as (M & M1 & M2 & M3).
      split; [|exact M3]. destruct (proj1 C eq_refl) as [C1 C2]. split.
      * intros _. unfold far_of. rewrite Hd. exists i, f, M. auto.
      * intros _ [X|X]; [congruence|contradiction].
    + split; [|exact SL]. split; [|reflexivity]. intros [X|X]; [discriminate|]. apply C in X. discriminate.
Qed.

Lemma spheres_flow o f p U W : flow_spheres Ns (solution_of o f) (c_spos p) = Ok (U, W) ->
  forall j l, (j < Ns)%nat -> U j l = stage_speed f o p j l /\ W j l = sphere_spin f o j l.
Proof.
  intros G1 j l Hj. unfold flow_spheres in G1.
  destruct (Nat.ltb_spec (length (o_Ea (solution_of o f))) Ns); [discriminate|]. cbv zeta in G1. injection G1 as <- <-.
  split.
  - refine (eq_trans (proj1 (flow_sphere_ok (unrow (Model_Output.o_Ua o) j) (unrow (Model_Output.o_Oa o) j)
      (nth j (map unrow2 (Model_Output.o_Ea o)) mzero) (f_U f) (f_O f) (c_spos p j) (f_centre f) l)) _). unfold stage_speed. cbn [solution_of o_Ua o_Oa o_Ea o_Uinf o_Oinf o_centre].
    rewrite (flow_ext (f_U f) (f_O f) _ _ (f_centre f) (c_spos p j) l (nth_unrow2 (Model_Output.o_Ea o) j)). reflexivity.
  - refine (eq_trans (proj2 (flow_sphere_ok (unrow (Model_Output.o_Ua o) j) (unrow (Model_Output.o_Oa o) j)
      (nth j (map unrow2 (Model_Output.o_Ea o)) mzero) (f_U f) (f_O f) (c_spos p j) (f_centre f) l)) _). reflexivity.
Qed.
Lemma dumbbells_flow o f o' f' p B D : flow_dumbbells (solution_of o f) (o_Ea (solution_of o' f')) (c_dpos p) (c_ddx p) = Ok (B, D) ->
  forall j l, (l < 3)%nat -> B j l = stage_centre f o (matof (Model_Output.o_Ea o') 0) p j l /\
    2 * D j l = stage_stretch f o (matof (Model_Output.o_Ea o') 0) p j l.
Proof.
  intros G1 j l Hl. unfold flow_dumbbells in G1. destruct (o_Ea (solution_of o' f')) as [|e0 l0] eqn:Ee; [discriminate|].
  cbv zeta in G1. injection G1 as <- <-.
  assert (H0 : forall a b, e0 a b = matof (Model_Output.o_Ea o') 0 a b).
  { intros a b. rewrite <- nth_unrow2. cbn [solution_of o_Ea] in Ee. rewrite Ee. reflexivity. }
  cbn [solution_of o_Ub o_HalfDUb o_Uinf o_Oinf o_centre].
  destruct (flow_dumbbell_ok (unrow (Model_Output.o_Ub o) j) (unrow (Model_Output.o_HalfDUb o) j) e0 (f_U f) (f_O f) (c_dpos p j) (c_ddx p j) (f_centre f) l Hl) as [K1 K2].
  unfold stage_centre, stage_stretch, flow_with.
  rewrite <- !(flow_ext (f_U f) (f_O f) e0 _ (f_centre f) _ l H0). split; [exact K1|].
  refine (eq_trans (f_equal (fun x => 2 * x) K2) _). change (unrow (Model_Output.o_HalfDUb o) j l) with (rowof (Model_Output.o_HalfDUb o) j l). field.
Qed.

Lemma stage_moves o f o' f' p e t p1 U B D W e1 :
  rk4_stage inv3 Ns Nd g (solution_of o f) (o_Ea (solution_of o' f')) p e t = Ok (p1, U, B, D, W, e1) ->
  let A := matof (Model_Output.o_Ea o') 0 in
  moved_by inv3 Ns Nd g false t f (stage_speed f o p) (sphere_spin f o) (stage_centre f o A p) (stage_stretch f o A p) p p1.
Proof.
  intros E A. apply stage_inv in E. destruct E as (E1 & E2 & _ & _ & -> & _). specialize (E1 ltac:(lia)).
  pose proof (spheres_flow o f p U W E1) as US.
  unfold moved_by. cbn [c_ssizes c_dsizes c_spos c_srot c_dpos c_ddx]. split; [reflexivity|]. split; [reflexivity|]. split.
  - intros j Hj. destruct (Nat.eqb_spec Ns 0) as [C|_]; [lia|]. exists (eul (c_spos p) U t j). split; [|split].
    + intros l Hl. unfold wrap. destruct (periodic g); reflexivity.
    + intros l Hl. unfold eul, euler_timestep. rewrite (proj1 (US j l Hj)). reflexivity.
    + intros k I3 (l0 & L0 & NZ) l Hl.
      assert (NE : exists l, (l < 3)%nat /\ c_srot p j k l <> c_spos p j l).
      { exists l0. split; [exact L0|]. unfold vsub in NZ. lra. }
      refine (eq_trans (new_arm inv3 (c_spos p) _ (c_srot p) W t I3 j k l NE Hl) _).
      apply rod_ext; [|exact Hl]. intros a Ha. apply US. exact Hj.
  - intros j Hj. destruct (Nat.eqb_spec Nd 0) as [C|_]; [lia|]. specialize (E2 ltac:(lia)).
    pose proof (dumbbells_flow o f o' f' p B D E2) as DS. split.
    + exists (eul (c_dpos p) B t j). split; [intros l Hl; unfold wrap; destruct (periodic g); reflexivity|].
      intros l Hl. unfold eul, euler_timestep. rewrite (proj1 (DS j l Hl)). reflexivity.
    + intros l Hl. unfold eul, euler_timestep, twice. rewrite (proj2 (DS j l Hl)). reflexivity.
Qed.

Notation ra := (rest_answers inv inv3 solve sc table h stale Ns Nd fm false bb minf_only cutoff_factor g input Hinv Hsolve HNs eq_refl).

(** One stage after the stages before it. *)
Lemma stage_ok m k st regen vel q L fl o s : (m < N)%nat -> (0 < k < 4)%nat -> frames (seq 0 m) = Ok st -> regenerate_now g m = Ok regen ->
  stg trj m k q L fl o -> msym n (L 0%nat) ->
  rest (q k) (stage_time m k) vel (stage_minv far g regen (q k) (stage_time m k) (L 0%nat)) = Ok s ->
  exists f o1, s = solution_of o1 f /\ let L1 := stage_minv far g regen (q k) (stage_time m k) (L 0%nat) in
    sfar trj m k (q k) (L 0%nat) L1 /\ ssol (q k) (stage_time m k) L1 f o1.
Proof.
  intros Hm Hk E Hg HS SL HR.
  destruct (rest_input _ _ _ _ _ _ _ _ _ _ _ _ _ _ _ _ _ _ _ _ _ HR) as (i & f & Ei).
  destruct (HP m trj k q L fl o Hm ltac:(lia) (frames_reached m st E) HS i f Ei) as (W1 & W2 & W3).
  destruct (stage_far4 m k (q k) (L 0%nat) regen i f s vel Hg ltac:(lia) SL Ei W1 W2 HR) as [F1 F2].
  destruct (ra _ _ _ _ _ HR) as (i' & f' & N0 & o1 & A1 & A2 & A3 & A4 & _).
  { intros i' f' Ei'. rewrite Ei in Ei'. injection Ei' as <- <-. exact W1. }
  { exact F2. }
  { intros i' f' N0 Ei' HN. rewrite Ei in Ei'. injection Ei' as <- <-. exact (W3 _ N0 F1 HN). }
  exists f', o1. split; [exact A4|]. split; [exact F1|]. exists i', N0. auto.
Qed.

Ltac cases4 k := destruct k as [|[|[|[|k]]]]; try lia.

Lemma frame_solved4 m st' : (m < N)%nat -> frames (seq 0 (S m)) = Ok st' ->
  exists q L fl o, stg trj m 4 q L fl o /\ advanced inv3 Ns Nd g fl o (trj m) (trj (S m)) /\
    (forall st regen r, frames (seq 0 m) = Ok st -> regenerate_now g m = Ok regen ->
       step inv3 Ns Nd far rest g m regen (s_pos st) false (if regen then no_matrix else s_minv st) (vel_at g st m) = Ok r ->
       t_forces r = mean_forces o).
Proof.
  intros Hm E. pose proof (frame_far4 m st' Hm E) as [HL SL].
  pose proof (frame_parts4 m st' Hm E) as (st & regen & r & E0 & F & R1 & R2 & R3 & R4 & He).
  destruct (trj_reached m st E0) as [Hr Et]. destruct (trj_reached (S m) st' E) as [_ Et'].
  pose proof R2 as R2'. apply rk4_inv in R2.
  destruct R2 as (s1 & p1 & U1 & B1 & D1 & O1 & e1 & s2 & p2 & U2 & B2 & D2 & O2 & e2 & s3 & p3 & U3 & B3 & D3 & O3 & e3 & s4 & U4 & B4 & D4 & O4
     & A1 & A2 & A3 & A4 & A5 & A6 & A7 & A8 & A9 & A10 & A11 & A12 & A13 & A14).
  rewrite <- R4 in *. rewrite <- Et in *. clear A1 A11 A14.
  replace (INR m + 5 / 10) with (stage_time m 1) in A4 by (cbn; lra).
  replace (INR m + 5 / 10) with (stage_time m 2) in A6 by (cbn; lra).
  change (INR m + 1) with (stage_time m 3) in A8.
  set (L0 := s_minv st') in *.
  (* stage 0 *)
  destruct (ra _ _ _ _ _ A2) as (i & f1 & N0 & o1 & B1' & B2' & B3' & -> & _).
  { intros i f Ei. apply (posed0 m st i f Hm E0 Ei). }
  { exact SL. }
  { intros i f N0 Ei HN. apply (posed0 m st i f Hm E0 Ei); [exact HL|exact HN]. }
  assert (S0 : sfar trj m 0 (trj m) L0 L0 /\ ssol (trj m) (stage_time m 0) L0 f1 o1) by (split; [exact HL|exists i, N0; auto]).
  pose proof (stage_moves _ _ _ _ _ _ _ _ _ _ _ _ _ A3) as M1. cbv zeta in M1.
  set (P := fun k => match k with 0%nat => trj m | 1%nat => p1 | 2%nat => p2 | _ => p3 end).
  (* stage 1 *)
  destruct (stage_ok m 1 st regen (vel_at g st m) P (fun _ => L0) (fun _ => f1) (fun _ => o1) s2 Hm ltac:(lia) E0 R1) as (f2 & o2 & -> & S1); try assumption.
  { split; [reflexivity|]. split; intros k Hk; cases4 k; [exact S0|intros _; exact M1]. }
  cbv zeta in S1. cbn [P] in S1. set (L1 := stage_minv far g regen p1 (stage_time m 1) L0) in *.
  pose proof (stage_moves _ _ _ _ _ _ _ _ _ _ _ _ _ A5) as M2. cbv zeta in M2.
  (* stage 2 *)
  destruct (stage_ok m 2 st regen (vel_at g st m) P (fun k => match k with 0%nat => L0 | _ => L1 end) (fun k => match k with 0%nat => f1 | _ => f2 end)
              (fun k => match k with 0%nat => o1 | _ => o2 end) s3 Hm ltac:(lia) E0 R1) as (f3 & o3 & -> & S2); try assumption.
  { split; [reflexivity|]. split; intros k Hk; cases4 k; [exact S0|exact S1|intros _; exact M1|intros _; exact M2]. }
  cbv zeta in S2. cbn [P] in S2. set (L2 := stage_minv far g regen p2 (stage_time m 2) L0) in *.
  pose proof (stage_moves _ _ _ _ _ _ _ _ _ _ _ _ _ A7) as M3. cbv zeta in M3.
  (* stage 3 *)
  destruct (stage_ok m 3 st regen (vel_at g st m) P (fun k => match k with 0%nat => L0 | 1%nat => L1 | _ => L2 end)
              (fun k => match k with 0%nat => f1 | 1%nat => f2 | _ => f3 end)
              (fun k => match k with 0%nat => o1 | 1%nat => o2 | _ => o3 end) s4 Hm ltac:(lia) E0 R1) as (f4 & o4 & -> & S3); try assumption.
  { split; [reflexivity|]. split; intros k Hk; cases4 k; [exact S0|exact S1|exact S2|intros _; exact M1|intros _; exact M2|intros _; exact M3]. }
  cbv zeta in S3. cbn [P] in S3. set (L3 := stage_minv far g regen p3 (stage_time m 3) L0) in *.
  exists P, (fun k => match k with 0%nat => L0 | 1%nat => L1 | 2%nat => L2 | _ => L3 end),
    (fun k => match k with 0%nat => f1 | 1%nat => f2 | 2%nat => f3 | _ => f4 end),
    (fun k => match k with 0%nat => o1 | 1%nat => o2 | 2%nat => o3 | _ => o4 end).
  split; [|split].
  - split; [reflexivity|]. split; intros k Hk; cases4 k; [exact S0|exact S1|exact S2|exact S3|intros _; exact M1|intros _; exact M2|intros _; exact M3].
  - apply stage_inv in A3. apply stage_inv in A5. apply stage_inv in A7.
    destruct A3 as (V1 & X1 & _). destruct A5 as (V2 & X2 & _). destruct A7 as (V3 & X3 & _).
    pose proof (spheres_flow _ _ _ _ _ (V1 ltac:(lia))) as US1. pose proof (spheres_flow _ _ _ _ _ (V2 ltac:(lia))) as US2.
    pose proof (spheres_flow _ _ _ _ _ (V3 ltac:(lia))) as US3. pose proof (spheres_flow _ _ _ _ _ (A9 ltac:(lia))) as US4.
    rewrite Et', R3, A13. unfold advanced, moved_by. cbn [c_ssizes c_dsizes c_spos c_srot c_dpos c_ddx strain_stage].
    split; [reflexivity|]. split; [reflexivity|]. split.
    + intros j Hj. destruct (Nat.eqb_spec Ns 0) as [C|_]; [lia|].
      match goal with |- context [wrap inv3 g _ ?X] => exists (X j); set (x := X) end. split; [|split].
      * intros l Hl. unfold wrap. destruct (periodic g); reflexivity.
      * intros l Hl. subst x. unfold eul, euler_timestep. f_equal. f_equal. destruct (g_fully_2d g); unfold flatten_y; cbn [andb].
        -- destruct (Nat.eqb l 1); [reflexivity|]. unfold blend, mean4.
           rewrite (proj1 (US1 j l Hj)), (proj1 (US2 j l Hj)), (proj1 (US3 j l Hj)), (proj1 (US4 j l Hj)). reflexivity.
        -- unfold blend, mean4.
           rewrite (proj1 (US1 j l Hj)), (proj1 (US2 j l Hj)), (proj1 (US3 j l Hj)), (proj1 (US4 j l Hj)). reflexivity.
      * intros k I3 (l0 & L0' & NZ) l Hl.
        assert (NE : exists l, (l < 3)%nat /\ c_srot (trj m) j k l <> c_spos (trj m) j l).
        { exists l0. split; [exact L0'|]. unfold vsub in NZ. lra. }
        refine (eq_trans (new_arm inv3 (c_spos (trj m)) _ (c_srot (trj m)) (blend O1 O2 O3 O4) (g_dt g) I3 j k l NE Hl) _).
        apply rod_ext; [|exact Hl]. intros a Ha. unfold blend, mean4.
        rewrite (proj2 (US1 j a Hj)), (proj2 (US2 j a Hj)), (proj2 (US3 j a Hj)), (proj2 (US4 j a Hj)). reflexivity.
    + intros j Hj. destruct (Nat.eqb_spec Nd 0) as [C|_]; [lia|].
      pose proof (dumbbells_flow _ _ _ _ _ _ _ (X1 ltac:(lia))) as DS1. pose proof (dumbbells_flow _ _ _ _ _ _ _ (X2 ltac:(lia))) as DS2.
      pose proof (dumbbells_flow _ _ _ _ _ _ _ (X3 ltac:(lia))) as DS3. pose proof (dumbbells_flow _ _ _ _ _ _ _ (A10 ltac:(lia))) as DS4. split.
      * match goal with |- context [wrap inv3 g _ ?X] => exists (X j); set (x := X) end. split.
        -- intros l Hl. unfold wrap. destruct (periodic g); reflexivity.
        -- intros l Hl. subst x. unfold eul, euler_timestep, blend, mean4.
           rewrite (proj1 (DS1 j l Hl)), (proj1 (DS2 j l Hl)), (proj1 (DS3 j l Hl)), (proj1 (DS4 j l Hl)). reflexivity.
      * intros l Hl. unfold mean4.
        lazymatch goal with |- _ = _ + _ * (_ * (?a + 2 * ?b + 2 * ?c + ?d)) =>
          replace a with (2 * D1 j l) by exact (proj2 (DS1 j l Hl)); replace b with (2 * D2 j l) by exact (proj2 (DS2 j l Hl));
          replace c with (2 * D3 j l) by exact (proj2 (DS3 j l Hl)); replace d with (2 * D4 j l) by exact (proj2 (DS4 j l Hl)) end.
        unfold eul, euler_timestep. field.
  - intros st1 regen1 r1 E1 G1 S1'. rewrite E0 in E1. injection E1 as <-. rewrite R1 in G1. injection G1 as <-.
    unfold step in S1'. rewrite Hscheme in S1'. rewrite <- Et in S1'. rewrite R2' in S1'. injection S1' as <-. rewrite A12.
    unfold mean_forces. f_equal. extensionality l. unfold blend_v. cbn [solution_of o_wall]. ring.
Qed.

Lemma sizes_kept4 m st : (m <= N)%nat -> frames (seq 0 m) = Ok st ->
  c_ssizes (s_pos st) = c_ssizes p0 /\ c_dsizes (s_pos st) = c_dsizes p0.
Proof.
  clear HP. revert st. induction m as [|m IH]; intros st Hm E.
  - injection E as <-. split; reflexivity.
  - destruct (frame_parts4 m st Hm E) as (st1 & regen & r & E0 & F & R1 & R2 & R3 & _). apply rk4_inv in R2.
    destruct R2 as (s1 & R2). repeat match type of R2 with exists _, _ => destruct R2 as (? & R2) end.
    cbv zeta in R2. destruct R2 as (_ & _ & _ & _ & _ & _ & _ & _ & _ & _ & _ & _ & R2 & _).
    rewrite R3, R2. cbn [c_ssizes c_dsizes]. apply IH; [lia|exact E0].
Qed.

Lemma whole_run_reached s fs :
  (0 < g_save_pos g)%nat -> (0 < g_save_forces g)%nat ->
  (g_save_after g mod g_save_pos g = 0)%nat -> (g_save_after g mod g_save_forces g = 0)%nat ->
  full_simulation inv inv3 solve sc table h stale Ns Nd fm false bb minf_only cutoff_factor g input p0 = Ok (Some (s, fs)) ->
  exists pos q L fl out, (pos 0%nat = p0 /\ forall m, (m <= N)%nat -> reach m (pos m)) /\
    (forall m, (m < N)%nat -> stg pos m 4 (q m) (L m) (fl m) (out m) /\ advanced inv3 Ns Nd g (fl m) (out m) (pos m) (pos (S m))) /\
    s = map (fun m => snap Ns (pos m)) (due_frames (g_save_pos g) (g_save_after g) N)
        ++ (if save_due (g_save_pos g) (g_save_after g) (N - 1) then [snap Ns (pos N)] else []) /\
    fs = map (fun m => mean_forces (out m)) (due_frames (g_save_forces g) (g_save_after g) N).
Proof.
  intros G1 G2 G3 G4 E.
  destruct (output_complete inv3 Ns Nd far rest g p0 s fs Hstart G1 G2 G3 G4 Hquiet E) as (pos & frc & P1 & P2 & P3 & P4).
  assert (EQ : forall m, (m <= N)%nat -> pos m = trj m).
  { intros m Hm. destruct (P1 m Hm) as (st & Es & <-). symmetry. apply (trj_reached m st Es). }
  destruct (choose4 (nat -> config) (nat -> mat) (nat -> flow) (nat -> outputs)
    (fun m q L fl o => stg trj m 4 q L fl o /\ advanced inv3 Ns Nd g fl o (trj m) (trj (S m)) /\ frc m = mean_forces o)
    (fun _ => p0) (fun _ => mzero)
    (fun _ => mkFlow (fun _ => 0) (fun _ => 0) (fun _ => 0) (fun _ => 0) mzero (fun _ => 0) (fun _ => 0) 0)
    (fun _ => mkOutputs [] [] [] [] [] [] [] [] [] []) N) as (q & L & fl & out & K).
  { intros m Hm. destruct (P1 (S m) Hm) as (st' & Es & _). destruct (frame_solved4 m st' Hm Es) as (q & L & fl & o & F1 & F2 & F3).
    exists q, L, fl, o. split; [exact F1|]. split; [exact F2|].
    destruct (P4 m Hm) as (st & regen & r & H1 & H2 & H3 & ->). exact (F3 st regen r H1 H2 H3). }
  exists trj, q, L, fl, out. split; [split; [reflexivity|]|split; [|split]].
  - intros m Hm. destruct (P1 m Hm) as (st & Es & _). apply (trj_reached m st Es).
  - intros m Hm. destruct (K m Hm) as (K1 & K2 & _). auto.
  - rewrite P2. f_equal; [|rewrite (EQ N) by lia; reflexivity].
    apply map_ext_in. intros m Hm. unfold due_frames in Hm. apply filter_In in Hm. destruct Hm as [Hm _]. apply in_seq in Hm.
    rewrite EQ by lia. reflexivity.
  - rewrite P3. apply map_ext_in. intros m Hm. unfold due_frames in Hm. apply filter_In in Hm. destruct Hm as [Hm _]. apply in_seq in Hm.
    apply (K m). lia.
Qed.

Lemma whole_run4 s fs :
  (0 < g_save_pos g)%nat -> (0 < g_save_forces g)%nat ->
  (g_save_after g mod g_save_pos g = 0)%nat -> (g_save_after g mod g_save_forces g = 0)%nat ->
  full_simulation inv inv3 solve sc table h stale Ns Nd fm false bb minf_only cutoff_factor g input p0 = Ok (Some (s, fs)) ->
  correct_output4 inv3 sc table h stale Ns Nd fm bb minf_only cutoff_factor g input p0 s fs.
Proof.
  intros G1 G2 G3 G4 E. destruct (whole_run_reached s fs G1 G2 G3 G4 E) as (pos & q & L & fl & out & (K0 & _) & K).
  exists pos, q, L, fl, out. auto.
Qed.
End Frames.
