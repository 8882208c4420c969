(** C87: the forces of a run do positive work, and suspensions falling under
    gravity sink. *)
From Coq Require Import Reals List Arith ZArith Bool Lia Lra Sorted.
From Verif Require Import Base Py Model_Minf Model_Grand Model_Close Model_R2B Model_MinfP Model_GrandP Model_Step
  Model_Output Model_Frame Model_Inputs Model_Sim Spec_Minf Spec_Convert Spec_Output Spec_Step Spec_Frame Spec_Posdef Spec_Run Spec_Run4 Spec_Turn Spec_Turn4
  Spec_Renumber Spec_Work Proof_Frame Proof_Posdef Proof_Posdef2 Proof_Run Proof_Run2 Spec_Runs Proof_Runs2 Proof_Runs3 Prop_Runs Prop_Run Prop_Run4 Prop_Turn Prop_Turn4
  Proof_Turn5 Prop_Renumber Proof_Work Proof_Work2 Proof_Work3.
From Verif Require Proof_Step.
Import ListNotations.
Local Open Scope R_scope.

(** Euler runs without flow, torques and strain, whatever forces or velocities
    the inputs give: from each saved frame to the next the saved forces (those
    given and those solved for) do work on the particles, unless nothing moves
    and there are no forces. *)
Theorem C87_work :
  forall inv inv3 solve sc table h stale Ns Nd fm bb minf_only cutoff_factor g input p0 s fs,
    inverts_posdef inv -> solves_posdef solve -> (0 < Ns)%nat -> g_start g = 0%nat ->
    no_box_g g -> g_fully_2d g = false -> g_scheme g = euler -> fm <> fts -> 0 < g_dt g ->
    g_save_pos g = 1%nat -> g_save_forces g = 1%nat -> g_save_after g = 0%nat ->
    (forall p t i f, input p t = Ok (i, f) -> forced_only i f) ->
    posed_run inv inv3 solve sc table h stale Ns Nd fm bb minf_only cutoff_factor g input p0 ->
    full_simulation inv inv3 solve sc table h stale Ns Nd fm false bb minf_only cutoff_factor g input p0 = Ok (Some (s, fs)) ->
    forall m, (m < g_num_frames g)%nat ->
      exists f x x', nth_error fs m = Some f /\ nth_error s m = Some x /\ nth_error s (S m) = Some x' /\
        0 <= work Ns Nd f x x' /\ (work Ns Nd f x x' = 0 -> same_places Ns Nd x x' /\ no_forces Ns Nd f).
Proof.
  intros inv inv3 solve sc table h stale Ns Nd fm bb minf_only cf g input p0 s fs Hi Hs HN H0 Hb H2 Hsch Hfm Hdt G1 G2 G3 HI HP E.
  exact (work_done inv inv3 solve sc table h stale Ns Nd fm bb minf_only cf g input p0 Hi Hs HN H0
    ltac:(rewrite G1; lia) ltac:(rewrite G2; lia) ltac:(rewrite G1; reflexivity) ltac:(rewrite G2; reflexivity) s fs E Hb Hsch Hfm Hdt H2 G1 G2 G3 HI HP).
Qed.
Print Assumptions C87_work.

(** The shipped inputs with gravity, repulsion, and moving walls are of this
    kind. *)
Theorem C87_inputs n fm Ns Nd p t dt i f :
  In n [1; 4; 5; 6]%Z -> input_ftsuoe n fm Ns Nd p t dt = Ok (i, f) -> forced_only i f.
Proof.
  intros Hn E.
  assert (D : forall i', i_Ta i' = i_Ta (default_inputs fm Ns Nd) -> i_Ea i' = i_Ea (default_inputs fm Ns Nd) -> forced_only i' default_flow).
  { intros i' T1 T2. split; [|split].
    - intros r Hr. rewrite T1 in Hr. apply (default_rows Ns Nd fm r). tauto.
    - intros r Hr. rewrite T2 in Hr. apply (default_tensors Ns Nd fm r). tauto.
    - intros l Hl. cbn [default_flow f_U f_O]. idx3 Hl; split; reflexivity. }
  destruct Hn as [<-|[<-|[<-|[<-|[]]]]]; unfold input_ftsuoe in E; cbn [Z.ltb Z.compare] in E.
  - injection E as <- <-. apply D; reflexivity.
  - do 4 (match type of E with bind ?r _ = _ => destruct r as [?v|]; cbn [bind] in E; [|discriminate E] end).
    match type of E with (let (_, _) := ?w in _) = _ => destruct w as [[? ?] ?] end. injection E as <- <-. apply D; reflexivity.
  - injection E as <- <-. apply D; reflexivity.
  - injection E as <- <-. apply D; reflexivity.
Qed.
Print Assumptions C87_inputs.

(** Spheres (of any sizes, with any dumbbells between them) falling under
    gravity, input 1.  With the Euler and Runge-Kutta schemes the sum of the
    heights of the spheres is less in every later saved frame; with
    Adams-Bashforth it is less than at the start. *)
Theorem C87_sinks :
  forall inv inv3 solve sc table h stale Ns Nd fm bb minf_only cutoff_factor g dt p0 s fs,
    let input := fun p t => input_ftsuoe 1 fm Ns Nd p t dt in
    inverts_posdef inv -> solves_posdef solve -> (0 < Ns)%nat -> fm = fte \/ fm = ufte -> g_start g = 0%nat -> no_box_g g -> 0 < g_dt g ->
    (0 < g_save_pos g)%nat -> (0 < g_save_forces g)%nat ->
    (g_save_after g mod g_save_pos g = 0)%nat -> (g_save_after g mod g_save_forces g = 0)%nat ->
    full_simulation inv inv3 solve sc table h stale Ns Nd fm false bb minf_only cutoff_factor g input p0 = Ok (Some (s, fs)) ->
    (g_scheme g = euler -> posed_run inv inv3 solve sc table h stale Ns Nd fm bb minf_only cutoff_factor g input p0 ->
       StronglySorted (fun x y => heights Ns y < heights Ns x) s) /\
    (g_scheme g = rk4 -> posed_run4 inv inv3 solve sc table h stale Ns Nd fm bb minf_only cutoff_factor g input p0 ->
       StronglySorted (fun x y => heights Ns y < heights Ns x) s) /\
    (g_scheme g = ab2 -> posed_run inv inv3 solve sc table h stale Ns Nd fm bb minf_only cutoff_factor g input p0 ->
       forall x, In x s -> heights Ns x < heights Ns (snap Ns p0) \/ x = snap Ns p0).
Proof.
  intros inv inv3 solve sc table h stale Ns Nd fm bb minf_only cf g dt p0 s fs input Hi Hs HN Hfm H0 Hb Hdt S1 S2 S3 S4 E. split; [|split].
  - intros Hsch HP. exact (proj1 (sinks_euler inv inv3 solve sc table h stale Ns Nd fm bb minf_only cf g dt p0 Hi Hs HN Hfm H0 Hb Hdt S1 S2 S3 S4 s fs E (or_introl Hsch) HP) Hsch).
  - exact (sinks_rk4 inv inv3 solve sc table h stale Ns Nd fm bb minf_only cf g dt p0 Hi Hs HN Hfm H0 Hb Hdt S1 S2 S3 S4 s fs E).
  - intros Hsch HP. exact (proj2 (sinks_euler inv inv3 solve sc table h stale Ns Nd fm bb minf_only cf g dt p0 Hi Hs HN Hfm H0 Hb Hdt S1 S2 S3 S4 s fs E (or_intror Hsch) HP)).
Qed.
Print Assumptions C87_sinks.

(** Instances.  Spheres of any radii without hydrodynamic interaction, any
    number of frames, Euler and Runge-Kutta; and with full hydrodynamic
    interaction, a row of widely spaced spheres. *)
Example C87_example sc Ns p0 dt num_frames :
  (0 < Ns)%nat -> (0 < num_frames)%nat -> 0 < dt -> (forall i, (i < Ns)%nat -> 0 < c_ssizes p0 i) ->
  exists s fs s' fs',
    full_simulation pinv Proof_Step.inv3 psolve sc [] 0 (fun _ _ => 0) Ns 0 fte false true true 2 (drag_settings dt num_frames) (falling Ns dt) p0 = Ok (Some (s, fs)) /\
    full_simulation pinv Proof_Step.inv3 psolve sc [] 0 (fun _ _ => 0) Ns 0 fte false true true 2 (rk4_settings dt num_frames) (falling Ns dt) p0 = Ok (Some (s', fs')) /\
    length s = S num_frames /\ length s' = S num_frames /\
    StronglySorted (fun x y => heights Ns y < heights Ns x) s /\ StronglySorted (fun x y => heights Ns y < heights Ns x) s' /\
    forall m, (m < num_frames)%nat -> exists f x x', nth_error fs m = Some f /\ nth_error s m = Some x /\ nth_error s (S m) = Some x' /\
      0 <= work Ns 0 f x x'.
Proof.
  intros HN HF Hdt HP.
  destruct (falling_runs sc Ns p0 dt num_frames HN HF) as (s & fs & E & L1 & L2).
  destruct (falling_runs4 sc Ns p0 dt num_frames HN HF) as (s' & fs' & E' & L1' & _).
  assert (P : posed_run pinv Proof_Step.inv3 psolve sc [] 0 (fun _ _ => 0) Ns 0 fte true true 2 (drag_settings dt num_frames) (falling Ns dt) p0).
  { apply drag_posed; try reflexivity; try assumption; [left; reflexivity|intros i Hi; lia|intros p t i f; apply falling_posed; exact HN]. }
  assert (P' : posed_run4 pinv Proof_Step.inv3 psolve sc [] 0 (fun _ _ => 0) Ns 0 fte true true 2 (rk4_settings dt num_frames) (falling Ns dt) p0).
  { apply drag_posed4; try reflexivity; try assumption; [intros i Hi; lia|intros p t i f; apply falling_posed; exact HN]. }
  exists s, fs, s', fs'. split; [exact E|]. split; [exact E'|]. split; [exact L1|]. split; [exact L1'|]. split; [|split].
  - refine (proj1 (C87_sinks pinv Proof_Step.inv3 psolve sc [] 0 (fun _ _ => 0) Ns 0 fte true true 2 (drag_settings dt num_frames) dt p0 s fs
      pinv_ok psolve_ok HN (or_introl eq_refl) eq_refl _ Hdt ltac:(cbn; lia) ltac:(cbn; lia) eq_refl eq_refl E) eq_refl P). intros l Hl. reflexivity.
  - refine (proj1 (proj2 (C87_sinks pinv Proof_Step.inv3 psolve sc [] 0 (fun _ _ => 0) Ns 0 fte true true 2 (rk4_settings dt num_frames) dt p0 s' fs'
      pinv_ok psolve_ok HN (or_introl eq_refl) eq_refl _ Hdt ltac:(cbn; lia) ltac:(cbn; lia) eq_refl eq_refl E')) eq_refl P'). intros l Hl. reflexivity.
  - intros m Hm.
    destruct (C87_work pinv Proof_Step.inv3 psolve sc [] 0 (fun _ _ => 0) Ns 0 fte true true 2 (drag_settings dt num_frames) (falling Ns dt) p0 s fs
      pinv_ok psolve_ok HN eq_refl ltac:(intros l Hl; reflexivity) eq_refl eq_refl ltac:(discriminate) Hdt eq_refl eq_refl eq_refl
      ltac:(intros p t i f HI; exact (C87_inputs 1 fte Ns 0 p t dt i f ltac:(left; reflexivity) HI)) P E m Hm)
      as (f & x & x' & A1 & A2 & A3 & A4 & _).
    exists f, x, x'. auto.
Qed.
Example C87_wide_example sc Ns dt :
  (0 < Ns)%nat -> 0 < dt ->
  exists s fs,
    full_simulation pinv Proof_Step.inv3 psolve sc [1] 0 (fun _ _ => 0) Ns 0 fte false true false 2 (full_settings dt) (falling Ns dt) (wide_row Ns) = Ok (Some (s, fs)) /\
    StronglySorted (fun x y => heights Ns y < heights Ns x) s.
Proof.
  intros HN Hdt. destruct (wide_row_run sc Ns dt (wide_row Ns) HN ltac:(reflexivity)) as (s & fs & E). exists s, fs. split; [exact E|].
  destruct (wide_row_posed sc Ns (fun j => j) dt (id_permutes Ns) HN) as [P _]. change (relisted (fun j => j) (fun d => d) (wide_row Ns)) with (wide_row Ns) in P.
  refine (proj1 (C87_sinks pinv Proof_Step.inv3 psolve sc [1] 0 (fun _ _ => 0) Ns 0 fte true false 2 (full_settings dt) dt (wide_row Ns) s fs
      pinv_ok psolve_ok HN (or_introl eq_refl) eq_refl _ Hdt ltac:(cbn; lia) ltac:(cbn; lia) eq_refl eq_refl E) eq_refl P). intros l Hl. reflexivity.
Qed.
