(** C81 and C82 for Runge-Kutta runs. *)
From Coq Require Import Reals List Arith ZArith Bool Lia Lra.
From Verif Require Import Base Py Model_Minf Model_Grand Model_Close Model_R2B Model_MinfP Model_GrandP Model_Step
  Model_Output Model_Frame Model_Inputs Model_Sim Spec_Convert Spec_Output Spec_Rotate Spec_Step Spec_Frame Spec_Posdef Spec_Run Spec_Run4 Spec_Sim Spec_Turn Spec_Turn4
  Proof_Frame Proof_Posdef Proof_Posdef2 Proof_Run Proof_Run2 Proof_Run4 Proof_Sim2 Spec_Runs Proof_Runs2 Proof_Runs3 Prop_Runs Prop_Sim Prop_Posdef Prop_Run Prop_Run4
  Proof_Turn3 Proof_Turn4 Proof_Turn5 Proof_Turn6 Prop_Turn.
From Verif Require Proof_Step.
Import ListNotations.
Local Open Scope R_scope.

(** Two completed Runge-Kutta runs without periodic box, the second started from
    the configuration of the first turned by [Q] (any rotation or reflection)
    and given turned inputs, save turned positions, orientations and forces. *)
Theorem C81_rk4 :
  forall Q inv inv3 solve sc table h stale Ns Nd fm bb minf_only cutoff_factor g input input' p0 p0' s fs s' fs',
    let run i p := full_simulation inv inv3 solve sc table h stale Ns Nd fm false bb minf_only cutoff_factor g i p in
    let posed i p := posed_run4 inv inv3 solve sc table h stale Ns Nd fm bb minf_only cutoff_factor g i p in
    orthogonal Q -> 0 < cutoff_factor -> inverts_posdef inv -> solves_posdef solve -> inverts inv3 -> (0 < Ns)%nat ->
    no_box_g g -> g_fully_2d g = false -> g_start g = 0%nat -> g_scheme g = rk4 ->
    (0 < g_save_pos g)%nat -> (0 < g_save_forces g)%nat ->
    (g_save_after g mod g_save_pos g = 0)%nat -> (g_save_after g mod g_save_forces g = 0)%nat ->
    input_turned Q Ns Nd input input' -> config_turned Q Ns Nd p0 p0' -> oriented Ns p0 ->
    posed input p0 -> posed input' p0' ->
    run input p0 = Ok (Some (s, fs)) -> run input' p0' = Ok (Some (s', fs')) ->
    Forall2 (snapshot_turned Q Ns Nd) s s' /\ Forall2 (forces_turned Q Ns Nd) fs fs'.
Proof.
  intros Q inv inv3 solve sc table h stale Ns Nd fm bb minf_only cf g input input' p0 p0' s fs s' fs' run posed
    HQ Hcf Hi Hs H3 HN Hb H2 H0 Hsch S1 S2 S3 S4 HI HC HO HP HP' E E'.
  exact (runs_turned4 Q HQ Ns Nd inv3 H3 g Hb H2 HN inv solve sc table h stale fm bb minf_only cf input input' p0 p0'
    Hcf Hi Hs H0 Hsch HI HC HO HP HP' s fs s' fs' S1 S2 S3 S4 E E').
Qed.
Print Assumptions C81_rk4.

Lemma drag_posed4 inv inv3 solve sc table h stale Ns Nd fm bb cf g input p0 :
  (0 < Ns)%nat -> g_use_drag g = true -> g_start g = 0%nat -> g_scheme g = rk4 -> g_explosion g = false ->
  (forall i, (i < Ns)%nat -> 0 < c_ssizes p0 i) -> (forall i, (i < Nd)%nat -> 0 < c_dsizes p0 i) ->
  (forall p t i f, input p t = Ok (i, f) -> well_posed Ns Nd fm i /\ 0 < f_mu f) ->
  posed_run4 inv inv3 solve sc table h stale Ns Nd fm bb true cf g input p0.
Proof.
  intros HNs Hd H0 Hsch HX P1 P2 Hw.
  assert (Hq : forall m st, (m < g_num_frames g)%nat -> run_frames inv3 Ns Nd (far_inverse inv h stale Ns Nd bb g input)
    (solve_rest inv inv3 solve sc table h stale Ns Nd fm false bb true cf g input) g (fresh p0) (seq 0 m) = Ok st -> s_error st = false).
  { intros m st _ Hst. refine (no_flag _ _ _ _ _ g (fresh p0) _ eq_refl _ _ Hst). left. exact HX. }
  split; [exact Hq|]. split; [|intros [C|C]; congruence].
  exact (drag_posed_stages inv inv3 solve sc table h stale Ns Nd fm bb cf g input p0 HNs Hd H0 Hsch Hq P1 P2 Hw).
Qed.

(** Without hydrodynamic interaction nothing has to be assumed of the matrices. *)
Theorem C81_rk4_drag :
  forall Q inv inv3 solve sc table h stale Ns Nd fm bb cutoff_factor g input input' p0 p0' s fs s' fs',
    let run i p := full_simulation inv inv3 solve sc table h stale Ns Nd fm false bb true cutoff_factor g i p in
    orthogonal Q -> 0 < cutoff_factor -> inverts_posdef inv -> solves_posdef solve -> inverts inv3 -> (0 < Ns)%nat ->
    g_use_drag g = true -> g_explosion g = false ->
    no_box_g g -> g_fully_2d g = false -> g_start g = 0%nat -> g_scheme g = rk4 ->
    (0 < g_save_pos g)%nat -> (0 < g_save_forces g)%nat ->
    (g_save_after g mod g_save_pos g = 0)%nat -> (g_save_after g mod g_save_forces g = 0)%nat ->
    (forall i, (i < Ns)%nat -> 0 < c_ssizes p0 i) -> (forall i, (i < Nd)%nat -> 0 < c_dsizes p0 i) ->
    (forall p t i f, input p t = Ok (i, f) -> well_posed Ns Nd fm i /\ 0 < f_mu f) ->
    (forall p t i f, input' p t = Ok (i, f) -> well_posed Ns Nd fm i /\ 0 < f_mu f) ->
    input_turned Q Ns Nd input input' -> config_turned Q Ns Nd p0 p0' -> oriented Ns p0 ->
    run input p0 = Ok (Some (s, fs)) -> run input' p0' = Ok (Some (s', fs')) ->
    Forall2 (snapshot_turned Q Ns Nd) s s' /\ Forall2 (forces_turned Q Ns Nd) fs fs'.
Proof.
  intros Q inv inv3 solve sc table h stale Ns Nd fm bb cf g input input' p0 p0' s fs s' fs' run
    HQ Hcf Hi Hs H3 HN Hd HX Hb H2 H0 Hsch S1 S2 S3 S4 P1 P2 Hw Hw' HI HC HO E E'.
  refine (C81_rk4 Q inv inv3 solve sc table h stale Ns Nd fm bb true cf g input input' p0 p0' s fs s' fs'
    HQ Hcf Hi Hs H3 HN Hb H2 H0 Hsch S1 S2 S3 S4 HI HC HO _ _ E E').
  - apply drag_posed4; assumption.
  - destruct HC as (C1 & C2 & _). apply drag_posed4; try assumption; [rewrite C1; exact P1|rewrite C2; exact P2].
Qed.
Print Assumptions C81_rk4_drag.

(** Flat arrangements stay flat. *)
Theorem C82_rk4 :
  forall inv inv3 solve sc table h stale Ns Nd fm bb minf_only cutoff_factor g input p0 s fs,
    inverts_posdef inv -> solves_posdef solve -> inverts inv3 -> (0 < Ns)%nat -> 0 < cutoff_factor ->
    no_box_g g -> g_fully_2d g = false -> g_start g = 0%nat -> g_scheme g = rk4 ->
    (0 < g_save_pos g)%nat -> (0 < g_save_forces g)%nat ->
    (g_save_after g mod g_save_pos g = 0)%nat -> (g_save_after g mod g_save_forces g = 0)%nat ->
    input_turned mirror_y Ns Nd input input -> flat_config Ns Nd p0 -> oriented Ns p0 ->
    posed_run4 inv inv3 solve sc table h stale Ns Nd fm bb minf_only cutoff_factor g input p0 ->
    full_simulation inv inv3 solve sc table h stale Ns Nd fm false bb minf_only cutoff_factor g input p0 = Ok (Some (s, fs)) ->
    Forall (flat_snapshot Ns Nd) s /\ Forall (flat_forces Ns Nd) fs.
Proof.
  intros inv inv3 solve sc table h stale Ns Nd fm bb minf_only cf g input p0 s fs
    Hi Hs H3 HN Hcf Hb H2 H0 Hsch S1 S2 S3 S4 HI HF HO HP E.
  destruct (C81_rk4 mirror_y inv inv3 solve sc table h stale Ns Nd fm bb minf_only cf g input input p0 p0 s fs s fs
    my_orthogonal Hcf Hi Hs H3 HN Hb H2 H0 Hsch S1 S2 S3 S4 HI (proj1 (config_flat Ns Nd p0) HF) HO HP HP E E) as [A B].
  assert (D : forall (T : Type) (r : T -> T -> Prop) (q : T -> Prop) l, (forall x, r x x -> q x) -> Forall2 r l l -> Forall q l).
  { intros T r q l H. induction l as [|x l IH]; intros F; constructor; inversion F; auto. }
  split; [exact (D _ _ _ _ (snapshot_flat Ns Nd) A)|exact (D _ _ _ _ (forces_flat Ns Nd) B)].
Qed.
Print Assumptions C82_rk4.

(** Instances as for C81 and C82: falling spheres of any radii. *)
Lemma falling_runs4 sc Ns p0 dt num_frames :
  (0 < Ns)%nat -> (0 < num_frames)%nat ->
  exists s fs, full_simulation pinv Proof_Step.inv3 psolve sc [] 0 (fun _ _ => 0) Ns 0 fte false true true 2
    (rk4_settings dt num_frames) (falling Ns dt) p0 = Ok (Some (s, fs)) /\ length s = S num_frames /\ length fs = num_frames.
Proof.
  intros HN HF.
  assert (SH : solves_shape psolve) by (intros n A b _; unfold psolve; rewrite map_length, seq_length; reflexivity).
  assert (US : usable (rk4_settings dt num_frames) 0) by (repeat split; cbn; auto; lia).
  destruct (C62_complete pinv Proof_Step.inv3 psolve sc [] 0 (fun _ _ => 0) Ns 0 fte false true true 2 (rk4_settings dt num_frames) (falling Ns dt) p0
             (map (c_ssizes p0) (seq 0 Ns)) SH) as (s & fs & E & L).
  { intros i Hi. apply in_map, in_seq. lia. }
  { intros i Hi. lia. }
  { left. reflexivity. }
  { discriminate. }
  { intros p t _ _. destruct (given_inputs 1 fte Ns 0 p t dt ltac:(lia)) as (i & f & E & C & _).
    - unfold workable. destruct (Nat.eqb_spec Ns 0); [lia|]. left. discriminate.
    - exists i, f. split; [exact E|]. split; [exact C|]. left. unfold input_ftsuoe in E. cbn [Z.ltb Z.compare] in E. injection E as _ <-. exact free_default. }
  { exact US. }
  exists s, fs. split; [exact E|apply L; auto].
Qed.

Example C81_rk4_example sc Ns p0 dt num_frames :
  (0 < Ns)%nat -> (0 < num_frames)%nat -> (forall i, (i < Ns)%nat -> 0 < c_ssizes p0 i) -> oriented Ns p0 ->
  let run p := full_simulation pinv Proof_Step.inv3 psolve sc [] 0 (fun _ _ => 0) Ns 0 fte false true true 2
                 (rk4_settings dt num_frames) (falling Ns dt) p in
  exists s fs s' fs', run p0 = Ok (Some (s, fs)) /\ run (turned_config quarter_turn p0) = Ok (Some (s', fs')) /\
    length s = S num_frames /\ length fs = num_frames /\
    Forall2 (snapshot_turned quarter_turn Ns 0) s s' /\ Forall2 (forces_turned quarter_turn Ns 0) fs fs'.
Proof.
  intros HN HF HP HO run.
  destruct (falling_runs4 sc Ns p0 dt num_frames HN HF) as (s & fs & E & L1 & L2).
  destruct (falling_runs4 sc Ns (turned_config quarter_turn p0) dt num_frames HN HF) as (s' & fs' & E' & _).
  exists s, fs, s', fs'. split; [exact E|]. split; [exact E'|]. split; [exact L1|]. split; [exact L2|].
  assert (HQ : orthogonal quarter_turn).
  { intros i j Hi Hj. split; unfold mmul, mtr, quarter_turn, delta, rsum; idx3 Hi; idx3 Hj; cbn [Nat.eqb]; ring. }
  refine (C81_rk4_drag quarter_turn pinv Proof_Step.inv3 psolve sc [] 0 (fun _ _ => 0) Ns 0 fte true 2 (rk4_settings dt num_frames)
    (falling Ns dt) (falling Ns dt) p0 (turned_config quarter_turn p0) s fs s' fs'
    HQ ltac:(lra) pinv_ok psolve_ok Proof_Step.inv3_inverts HN eq_refl eq_refl _ eq_refl eq_refl eq_refl
    ltac:(cbn; lia) ltac:(cbn; lia) eq_refl eq_refl HP _ _ _ _ _ HO E E').
  - intros l Hl. reflexivity.
  - intros i Hi. lia.
  - intros p t i f. apply falling_posed. exact HN.
  - intros p t i f. apply falling_posed. exact HN.
  - apply (C81_inputs quarter_turn Ns 0 fte dt HQ). unfold keeps_z, quarter_turn. auto.
  - repeat split; intros; reflexivity.
Qed.

Example C82_rk4_example sc Ns dt num_frames :
  (0 < Ns)%nat -> (0 < num_frames)%nat ->
  let p0 := mkConfig (fun _ => 1) (fun j => v3 (3 * INR j) 0 0)
              (fun j k => if Nat.eqb k 0 then v3 (3 * INR j + 1) 0 0 else v3 (3 * INR j) 0 1)
              (fun _ => 1) (fun _ => v3 0 0 0) (fun _ => v3 0 0 0) in
  exists s fs, full_simulation pinv Proof_Step.inv3 psolve sc [] 0 (fun _ _ => 0) Ns 0 fte false true true 2
                 (rk4_settings dt num_frames) (falling Ns dt) p0 = Ok (Some (s, fs)) /\
    length s = S num_frames /\ length fs = num_frames /\
    Forall (flat_snapshot Ns 0) s /\ Forall (flat_forces Ns 0) fs.
Proof.
  intros HN HF p0.
  destruct (falling_runs4 sc Ns p0 dt num_frames HN HF) as (s & fs & E & L1 & L2).
  exists s, fs. split; [exact E|]. split; [exact L1|]. split; [exact L2|].
  refine (C82_rk4 pinv Proof_Step.inv3 psolve sc [] 0 (fun _ _ => 0) Ns 0 fte true true 2 (rk4_settings dt num_frames) (falling Ns dt) p0 s fs
    pinv_ok psolve_ok Proof_Step.inv3_inverts HN ltac:(lra) _ eq_refl eq_refl eq_refl
    ltac:(cbn; lia) ltac:(cbn; lia) eq_refl eq_refl _ _ _ _ E).
  - intros l Hl. reflexivity.
  - apply shipped_flat. left. reflexivity.
  - split; [|intros d Hd; lia]. intros j Hj. split; [reflexivity|]. intros k Hk. cbn [c_srot p0]. destruct (Nat.eqb k 0); reflexivity.
  - intros j k Hj Hk. cbn [c_srot c_spos p0]. destruct (Nat.eqb_spec k 0).
    + exists 0%nat. split; [lia|]. unfold v3. lra.
    + exists 2%nat. split; [lia|]. unfold v3. lra.
  - apply drag_posed4; try reflexivity; try exact HN.
    + intros i Hi. cbn. lra.
    + intros i Hi. lia.
    + intros p t i f. apply falling_posed. exact HN.
Qed.
