(** C83: a completed Runge-Kutta run solved the equations of Stokesian dynamics
    in each of the four stages of every frame and moved the particles with the
    means of the solutions. *)
From Coq Require Import Reals List Arith ZArith Bool Lia Lra.
From Verif Require Import Base Py Model_Minf Model_Grand Model_Close Model_R2B Model_MinfP Model_GrandP Model_Step
  Model_Output Model_Frame Model_Inputs Model_Sim Spec_Convert Spec_Output Spec_Step Spec_Frame Spec_Posdef Spec_Run Spec_Run4 Spec_Sim
  Proof_Frame Proof_Posdef Proof_Posdef2 Proof_Run Proof_Run2 Proof_Run4 Proof_Sim2 Spec_Runs Proof_Runs2 Proof_Runs3 Prop_Runs Prop_Sim Prop_Posdef.
Import ListNotations.
Local Open Scope R_scope.

Theorem C83_run :
  forall inv inv3 solve sc table h stale Ns Nd fm bb minf_only cutoff_factor g input p0 s fs,
    let N := g_num_frames g in
    let far := far_inverse inv h stale Ns Nd bb g input in
    let rest := solve_rest inv inv3 solve sc table h stale Ns Nd fm false bb minf_only cutoff_factor g input in
    let frames := run_frames inv3 Ns Nd far rest g (fresh p0) in
    let reached := fun m p => exists st, frames (seq 0 m) = Ok st /\ s_pos st = p in
    inverts_posdef inv -> solves_posdef solve -> (0 < Ns)%nat ->
    g_start g = 0%nat -> g_scheme g = rk4 ->
    (0 < g_save_pos g)%nat -> (0 < g_save_forces g)%nat ->
    (g_save_after g mod g_save_pos g = 0)%nat -> (g_save_after g mod g_save_forces g = 0)%nat ->
    (* no dumbbell was reported broken before the last frame *)
    (forall m st, (m < N)%nat -> frames (seq 0 m) = Ok st -> s_error st = false) ->
    (* in the configurations of the stages, the inputs are what the form asks
       for, and mobilities and grand resistances are positive definite *)
    posed_stages inv3 sc table h stale Ns Nd fm bb minf_only cutoff_factor g input reached ->
    full_simulation inv inv3 solve sc table h stale Ns Nd fm false bb minf_only cutoff_factor g input p0 = Ok (Some (s, fs)) ->
    correct_output4 inv3 sc table h stale Ns Nd fm bb minf_only cutoff_factor g input p0 s fs.
Proof.
  intros inv inv3 solve sc table h stale Ns Nd fm bb minf_only cf g input p0 s fs N far rest frames reached
    Hi Hs HNs H0 Hsch S1 S2 S3 S4 Hq Hp E.
  exact (whole_run4 inv inv3 solve sc table h stale Ns Nd fm bb minf_only cf g input p0 Hi Hs HNs H0 Hsch Hq Hp s fs S1 S2 S3 S4 E).
Qed.
Print Assumptions C83_run.

(** Without hydrodynamic interaction (drag matrix, no near field) nothing has
    to be assumed of the matrices. *)
Lemma drag_posed_stages inv inv3 solve sc table h stale Ns Nd fm bb cf g input p0 :
  let frames := run_frames inv3 Ns Nd (far_inverse inv h stale Ns Nd bb g input)
    (solve_rest inv inv3 solve sc table h stale Ns Nd fm false bb true cf g input) g (fresh p0) in
  (0 < Ns)%nat -> g_use_drag g = true -> g_start g = 0%nat -> g_scheme g = rk4 ->
  (forall m st, (m < g_num_frames g)%nat -> frames (seq 0 m) = Ok st -> s_error st = false) ->
  (forall i, (i < Ns)%nat -> 0 < c_ssizes p0 i) -> (forall i, (i < Nd)%nat -> 0 < c_dsizes p0 i) ->
  (forall p t i f, input p t = Ok (i, f) -> well_posed Ns Nd fm i /\ 0 < f_mu f) ->
  posed_stages inv3 sc table h stale Ns Nd fm bb true cf g input (fun m p => exists st, frames (seq 0 m) = Ok st /\ s_pos st = p).
Proof.
  intros frames HNs Hd H0 Hsch Hq P1 P2 Hw.
  intros m pos K q L fl o Hm HK Hr HS i f Ei. split; [apply (Hw _ _ _ _ Ei)|]. split; [congruence|].
  intros LK N0 HL HN. unfold near_field in HN. subst N0.
  destruct (Hr m (le_n m)) as (st & Es & Ep).
  destruct (sizes_kept4 inv inv3 solve sc table h stale Ns Nd fm bb true cf g input p0 HNs H0 Hsch Hq m st ltac:(lia) Es) as [Z1 Z2].
  rewrite Ep in Z1, Z2.
  assert (Q : exists i' f' t', input (q K) t' = Ok (i', f') /\ LK = drag_Minfinity_inverse (posdata_of Ns Nd (q K)) (f_mu f') /\
    c_ssizes (q K) = c_ssizes p0 /\ c_dsizes (q K) = c_dsizes p0).
  { destruct HS as (HS0 & _ & HS2). destruct K as [|K].
    - unfold stage_far, far_resistance in HL. rewrite Hd in HL. destruct HL as (i' & f' & E' & _ & ->). exists i', f', (INR m). rewrite HS0. auto.
    - destruct HL as [HL _]. specialize (HL (or_introl Hd)). unfold far_of in HL. rewrite Hd in HL. destruct HL as (i' & f' & E' & _ & ->).
      destruct (HS2 K ltac:(lia) ltac:(lia)) as (K1 & K2 & _). exists i', f', (stage_time m (S K)). rewrite K1, K2. auto. }
  destruct Q as (i' & f' & t' & E' & -> & Q1 & Q2).
  refine (pos_def_ext _ (drag_Minfinity_inverse (posdata_of Ns Nd (q K)) (f_mu f')) _ _ (proj2 (C64_drag (posdata_of Ns Nd (q K)) (f_mu f') _ _ _))).
  + intros a b _ _. unfold mzero. ring.
  + apply (Hw _ _ _ _ E').
  + cbn [posdata_of num_spheres sphere_sizes]. rewrite Q1. exact P1.
  + cbn [posdata_of num_dumbbells dumbbell_sizes]. rewrite Q2. exact P2.
Qed.
Theorem C83_drag :
  forall inv inv3 solve sc table h stale Ns Nd fm bb cutoff_factor g input p0 s fs,
    let frames := run_frames inv3 Ns Nd (far_inverse inv h stale Ns Nd bb g input)
      (solve_rest inv inv3 solve sc table h stale Ns Nd fm false bb true cutoff_factor g input) g (fresh p0) in
    inverts_posdef inv -> solves_posdef solve -> (0 < Ns)%nat -> g_use_drag g = true ->
    g_start g = 0%nat -> g_scheme g = rk4 ->
    (0 < g_save_pos g)%nat -> (0 < g_save_forces g)%nat ->
    (g_save_after g mod g_save_pos g = 0)%nat -> (g_save_after g mod g_save_forces g = 0)%nat ->
    (forall m st, (m < g_num_frames g)%nat -> frames (seq 0 m) = Ok st -> s_error st = false) ->
    (forall i, (i < Ns)%nat -> 0 < c_ssizes p0 i) -> (forall i, (i < Nd)%nat -> 0 < c_dsizes p0 i) ->
    (forall p t i f, input p t = Ok (i, f) -> well_posed Ns Nd fm i /\ 0 < f_mu f) ->
    full_simulation inv inv3 solve sc table h stale Ns Nd fm false bb true cutoff_factor g input p0 = Ok (Some (s, fs)) ->
    correct_output4 inv3 sc table h stale Ns Nd fm bb true cutoff_factor g input p0 s fs.
Proof.
  intros inv inv3 solve sc table h stale Ns Nd fm bb cf g input p0 s fs frames Hi Hs HNs Hd H0 Hsch S1 S2 S3 S4 Hq P1 P2 Hw E.
  apply (C83_run inv inv3 solve sc table h stale Ns Nd fm bb true cf g input p0 s fs); try assumption.
  apply drag_posed_stages; assumption.
Qed.
Print Assumptions C83_drag.

(** Instance: any number of spheres of positive radii falling under gravity
    (input 1, form fte) with the drag matrix, for any number of frames and
    timestep; elimination as solver.  The run completes and is correct. *)
Definition rk4_settings (dt : R) (num_frames : nat) : settings :=
  mkSettings rk4 dt num_frames 0 1 true false false false (v3 0 0 0) (v3 0 0 0) 1 1 0 false 1.
Example C83_example sc Ns p0 dt num_frames :
  (0 < Ns)%nat -> (0 < num_frames)%nat -> (forall i, (i < Ns)%nat -> 0 < c_ssizes p0 i) ->
  let input := fun p t => input_ftsuoe 1 fte Ns 0 p t dt in
  let g := rk4_settings dt num_frames in
  exists s fs,
    full_simulation pinv (fun m => m) psolve sc [] 0 (fun _ _ => 0) Ns 0 fte false true true 2 g input p0 = Ok (Some (s, fs)) /\
    correct_output4 (fun m => m) sc [] 0 (fun _ _ => 0) Ns 0 fte true true 2 g input p0 s fs /\
    length s = S num_frames /\ length fs = num_frames.
Proof.
  intros HN HF HP input g.
  assert (W : forall p t, exists i, input p t = Ok (i, default_flow) /\ complete fte Ns 0 i).
  { intros p t. destruct (given_inputs 1 fte Ns 0 p t dt ltac:(lia)) as (i & f & E & C & _).
    - unfold workable. destruct (Nat.eqb_spec Ns 0); [lia|]. left. discriminate.
    - exists i. split; [|exact C]. unfold input. rewrite E. unfold input_ftsuoe in E. cbn [Z.ltb Z.compare] in E. injection E as _ <-. reflexivity. }
  assert (SH : solves_shape psolve) by (intros n A b _; unfold psolve; rewrite map_length, seq_length; reflexivity).
  assert (US : usable g 0) by (repeat split; cbn; auto; lia).
  destruct (C62_complete pinv (fun m => m) psolve sc [] 0 (fun _ _ => 0) Ns 0 fte false true true 2 g input p0
             (map (c_ssizes p0) (seq 0 Ns)) SH) as (s & fs & E & L).
  { intros i Hi. apply in_map, in_seq. lia. }
  { intros i Hi. lia. }
  { left. reflexivity. }
  { discriminate. }
  { intros p t _ _. destruct (W p t) as (i & Ei & C). exists i, default_flow. split; [exact Ei|]. split; [exact C|]. left. exact free_default. }
  { exact US. }
  exists s, fs. split; [exact E|]. split; [|apply L; auto].
  apply (C83_drag pinv (fun m => m) psolve sc [] 0 (fun _ _ => 0) Ns 0 fte true 2 g input p0 s fs pinv_ok psolve_ok HN);
    try reflexivity; try (cbn; lia); try exact HP; try exact E.
  - intros m st _ Hst. refine (no_flag _ _ _ _ _ g (fresh p0) _ eq_refl _ _ Hst). left. reflexivity.
  - intros p t i f Ei. destruct (W p t) as (i' & Ei' & C). rewrite Ei in Ei'. injection Ei' as -> ->. split; [|cbn; lra].
    unfold complete in C. unfold well_posed. tauto.
Qed.
