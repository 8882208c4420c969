(** C100: Runge-Kutta with one far field per frame is Euler's scheme. *)
From Coq Require Import Reals List Arith ZArith Bool Lia Lra.
From Verif Require Import Base Py Model_Mob Model_Layout Model_Minf Model_Grand Model_Step
  Model_Shear Model_Output Model_Frame Model_Inputs Model_Sim Spec_Output Spec_Step Spec_Frame Spec_Posdef Spec_Run Spec_Run4
  Spec_Turn Spec_Turn4 Spec_Alone Spec_Once
  Proof_Posdef Proof_Posdef2 Proof_Frame Proof_Run Proof_Run2 Proof_Turn1 Proof_Turn2 Spec_Runs Proof_Runs2 Proof_Runs3 Prop_Runs Prop_Run Prop_Run4 Prop_Turn Prop_Alone Prop_Alone2 Proof_Once.
From Verif Require Proof_Step.
Import ListNotations.
Local Open Scope R_scope.

(** Every completed Runge-Kutta run without near field and without a periodic
    box, the forces and the flow steady: in every frame whose stages do not
    compute far fields of their own, the solution of the first stage is one of
    Euler's frame, the particles move and turn as Euler's formula moves them
    with it, and the saved forces are those of the first stage. *)
Theorem C100_frames :
  forall inv inv3 solve sc table h stale Ns Nd fm bb cutoff_factor g input p0 s fs,
    let N := g_num_frames g in
    inverts_posdef inv -> solves_posdef solve -> (0 < Ns)%nat -> g_start g = 0%nat -> g_scheme g = rk4 -> no_box_g g ->
    (0 < g_save_pos g)%nat -> (0 < g_save_forces g)%nat ->
    (g_save_after g mod g_save_pos g = 0)%nat -> (g_save_after g mod g_save_forces g = 0)%nat ->
    steady input -> (forall p t i f, input p t = Ok (i, f) -> given_st (i_Sa i) /\ given_st (i_Ea i)) ->
    posed_run4 inv inv3 solve sc table h stale Ns Nd fm bb true cutoff_factor g input p0 ->
    full_simulation inv inv3 solve sc table h stale Ns Nd fm false bb true cutoff_factor g input p0 = Ok (Some (s, fs)) ->
    exists (pos : nat -> config) (fl : nat -> flow) (out : nat -> outputs) (frc : nat -> fsnapshot),
      pos 0%nat = p0 /\
      (forall m, (m < N)%nat -> one_far_field g m ->
         solved inv3 sc table h stale Ns Nd fm bb true cutoff_factor (as_euler g) input pos m (fl m) (out m) /\
         (forall V W, moved_on inv3 Ns Nd (as_euler g) m (fl m) (out m) V W (pos m) (pos (S m))) /\
         forces_same Ns Nd (forces_of (out m)) (frc m)) /\
      s = map (fun m => snap Ns (pos m)) (due_frames (g_save_pos g) (g_save_after g) N)
          ++ (if save_due (g_save_pos g) (g_save_after g) (N - 1) then [snap Ns (pos N)] else []) /\
      fs = map frc (due_frames (g_save_forces g) (g_save_after g) N).
Proof.
  intros inv inv3 solve sc table h stale Ns Nd fm bb cf g input p0 s fs N Hi Hs HN H0 Hsch Hb S1 S2 S3 S4 Hst Hg HP E.
  destruct (once_run inv inv3 solve sc table h stale Ns Nd fm bb cf g input p0 Hi Hs HN H0 Hsch Hb S1 S2 S3 S4 Hst Hg HP s fs E)
    as (pos & q & L & fl & out & P0 & _ & M & E1 & E2).
  exists pos, (fun m => fl m 0%nat), (fun m => out m 0%nat), (fun m => mean_forces (out m)).
  split; [exact P0|]. split; [|split; assumption]. intros m Hm OF. destruct (M m Hm OF) as (A & B & C & _). auto.
Qed.
Print Assumptions C100_frames.

(** If no frame computes far fields for its stages, the run saves the same
    positions, orientations, lengths, forces and stresslets as Euler's. *)
Theorem C100_euler :
  forall inv inv3 solve sc table h stale Ns Nd fm bb cutoff_factor g input p0 s fs s' fs',
    inverts_posdef inv -> solves_posdef solve -> inverts inv3 -> (0 < Ns)%nat -> g_start g = 0%nat -> g_scheme g = rk4 -> no_box_g g ->
    g_fully_2d g = false ->
    (0 < g_save_pos g)%nat -> (0 < g_save_forces g)%nat ->
    (g_save_after g mod g_save_pos g = 0)%nat -> (g_save_after g mod g_save_forces g = 0)%nat ->
    steady input -> (forall p t i f, input p t = Ok (i, f) -> given_st (i_Sa i) /\ given_st (i_Ea i) /\ unbounded f) ->
    (forall m, (m < g_num_frames g)%nat -> one_far_field g m) -> oriented Ns p0 ->
    posed_run inv inv3 solve sc table h stale Ns Nd fm bb true cutoff_factor (as_euler g) input p0 ->
    posed_run4 inv inv3 solve sc table h stale Ns Nd fm bb true cutoff_factor g input p0 ->
    full_simulation inv inv3 solve sc table h stale Ns Nd fm false bb true cutoff_factor (as_euler g) input p0 = Ok (Some (s, fs)) ->
    full_simulation inv inv3 solve sc table h stale Ns Nd fm false bb true cutoff_factor g input p0 = Ok (Some (s', fs')) ->
    Forall2 (snapshot_same Ns Nd) s s' /\ Forall2 (forces_same Ns Nd) fs fs'.
Proof.
  intros inv inv3 solve sc table h stale Ns Nd fm bb cf g input p0 s fs s' fs' Hi Hs H3 HN H0 Hsch Hb H2 S1 S2 S3 S4 Hst Hg HO HOr HPe HP E E'.
  refine (once_euler inv inv3 solve sc table h stale Ns Nd fm bb cf g input p0 Hi Hs HN H0 Hsch Hb S1 S2 S3 S4 Hst _ HP H3 HOr H2 _ HO HPe s fs s' fs' E E').
  - intros p t i f Ei. destruct (Hg p t i f Ei) as (A & B & _). auto.
  - intros p t i f Ei. apply (Hg p t i f Ei).
Qed.
Print Assumptions C100_euler.

(** With the drag matrix this holds of every run: nothing has to be assumed of
    the matrices. *)
Theorem C100_drag :
  forall inv inv3 solve sc table h stale Ns Nd fm bb cutoff_factor g input p0 s fs s' fs',
    inverts_posdef inv -> solves_posdef solve -> inverts inv3 -> (0 < Ns)%nat -> g_start g = 0%nat -> g_scheme g = rk4 -> no_box_g g ->
    g_fully_2d g = false -> g_use_drag g = true -> g_explosion g = false ->
    (0 < g_save_pos g)%nat -> (0 < g_save_forces g)%nat ->
    (g_save_after g mod g_save_pos g = 0)%nat -> (g_save_after g mod g_save_forces g = 0)%nat ->
    steady input ->
    (forall p t i f, input p t = Ok (i, f) -> given_st (i_Sa i) /\ given_st (i_Ea i) /\ unbounded f /\ well_posed Ns Nd fm i /\ 0 < f_mu f) ->
    (forall i, (i < Ns)%nat -> 0 < c_ssizes p0 i) -> (forall i, (i < Nd)%nat -> 0 < c_dsizes p0 i) -> oriented Ns p0 ->
    full_simulation inv inv3 solve sc table h stale Ns Nd fm false bb true cutoff_factor (as_euler g) input p0 = Ok (Some (s, fs)) ->
    full_simulation inv inv3 solve sc table h stale Ns Nd fm false bb true cutoff_factor g input p0 = Ok (Some (s', fs')) ->
    Forall2 (snapshot_same Ns Nd) s s' /\ Forall2 (forces_same Ns Nd) fs fs'.
Proof.
  intros inv inv3 solve sc table h stale Ns Nd fm bb cf g input p0 s fs s' fs' Hi Hs H3 HN H0 Hsch Hb H2 Hd HX S1 S2 S3 S4 Hst Hg P1 P2 HOr E E'.
  assert (Hw : forall p t i f, input p t = Ok (i, f) -> well_posed Ns Nd fm i /\ 0 < f_mu f)
    by (intros p t i f Ei; destruct (Hg p t i f Ei) as (_ & _ & _ & A); exact A).
  refine (C100_euler inv inv3 solve sc table h stale Ns Nd fm bb cf g input p0 s fs s' fs' Hi Hs H3 HN H0 Hsch Hb H2 S1 S2 S3 S4 Hst _ _ HOr _ _ E E').
  - intros p t i f Ei. destruct (Hg p t i f Ei) as (A & B & C & _). auto.
  - intros m _. left. exact Hd.
  - apply drag_posed; try assumption. left. reflexivity.
  - assert (Q : forall m st, (m < g_num_frames g)%nat -> run_frames inv3 Ns Nd (far_inverse inv h stale Ns Nd bb g input)
      (solve_rest inv inv3 solve sc table h stale Ns Nd fm false bb true cf g input) g (fresh p0) (seq 0 m) = Ok st -> s_error st = false).
    { intros m st _ Hst'. refine (no_flag _ _ _ _ _ g (fresh p0) _ eq_refl _ _ Hst'). left. exact HX. }
    split; [exact Q|]. split; [apply drag_posed_stages; assumption|]. intros [C|C]; congruence.
Qed.
Print Assumptions C100_drag.

(** ** Finding *)
(** The note in settings.py says that without near field the timestep is then
    equivalent to Euler's.  In the oscillating shear (input 3) it is not, at any
    timestep below the period: the stages ask for the flow at their own times.
    One sphere of any size anywhere but at the height where the shear vanishes:
    after the first step the two schemes have it in different places. *)
Definition once_settings (dt : R) (num_frames : nat) : settings :=
  mkSettings rk4 dt num_frames 0 1 false false false false (v3 0 0 0) (v3 0 0 0) 1 1 0 false 1.
Theorem C100_oscillating_refuted :
  forall inv inv3 solve sc table h stale bb cutoff_factor dt num_frames p0,
    0 < cutoff_factor -> inverts_posdef inv -> solves_posdef solve -> solves_shape solve ->
    0 < dt < 10 -> (0 < num_frames)%nat -> 0 < c_ssizes p0 0%nat -> c_spos p0 0%nat 2%nat <> 9 / 4 ->
    let g := once_settings dt num_frames in
    let run := fun g => full_simulation inv inv3 solve sc table h stale 1 0 fte false bb true cutoff_factor g
      (fun p t => input_ftsuoe 3 fte 1 0 p t dt) p0 in
    (forall m, one_far_field g m) /\
    exists s fs s' fs' x x', run (as_euler g) = Ok (Some (s, fs)) /\ run g = Ok (Some (s', fs')) /\
      nth_error s 1 = Some x /\ nth_error s' 1 = Some x' /\ n_pos x' 0%nat 0%nat <> n_pos x 0%nat 0%nat.
Proof.
  intros inv inv3 solve sc table h stale bb cf dt nf p0 Hcf Hi Hs Hsh Hdt Hnf Ha Hz g run.
  split; [intros m; right; left; reflexivity|].
  assert (Hb : no_box_g g) by (intros l Hl; reflexivity).
  destruct (C97_shear inv inv3 solve sc table h stale bb true cf (as_euler g) true p0) as (s & fs & E & pos & frc & A & _ & B & _);
    try assumption; try reflexivity; [repeat split; cbn; auto; lia|discriminate|left; reflexivity|].
  destruct (C97_shear_rk4 inv inv3 solve sc table h stale bb true cf g true p0) as (s' & fs' & E' & pos' & frc' & A' & _ & B' & _);
    try assumption; try reflexivity; [repeat split; cbn; auto; lia|left; reflexivity|].
  cbn [as_euler g once_settings g_save_pos g_num_frames g_dt] in *.
  assert (S' : forall s pos, s = map (fun m => snap 1 (pos m)) (due_frames 1 0 nf) ++ (if save_due 1 0 (nf - 1) then [snap 1 (pos nf)] else []) ->
    nth_error s 1 = Some (snap 1 (pos 1%nat))).
  { intros u w ->. rewrite due_every. unfold save_due. rewrite Nat.mod_1_r. cbn [Nat.eqb Nat.leb andb].
    replace (map (fun m => snap 1 (w m)) (seq 0 nf) ++ [snap 1 (w nf)]) with (map (fun m => snap 1 (w m)) (seq 0 (S nf))) by (rewrite seq_S, map_app; reflexivity).
    rewrite nth_error_map, (nth_error_nth' _ 0%nat) by (rewrite seq_length; lia). rewrite seq_nth by lia. reflexivity. }
  exists s, fs, s', fs', (snap 1 (pos 1%nat)), (snap 1 (pos' 1%nat)).
  split; [exact E|]. split; [exact E'|]. split; [exact (S' _ _ B)|]. split; [exact (S' _ _ B')|].
  destruct (A 1%nat ltac:(lia)) as [AX _]. destruct (A' 1%nat ltac:(lia)) as [AX' _].
  specialize (AX 0%nat ltac:(lia)). specialize (AX' 0%nat ltac:(lia)). cbn [v3] in AX, AX'.
  change (c_spos (pos' 1%nat) 0%nat 0%nat <> c_spos (pos 1%nat) 0%nat 0%nat). rewrite AX, AX'. clear AX AX' A A' B B'.
  intros Q. unfold still_height in Q.
  pose proof (proj1 (proj2 C97_simpson) dt 1%nat) as G. cbv zeta in G.
  assert (T : strain_summed (as_euler g) (shear_rate true) 1 = 2 / 3 * (PI * dt / 10)).
  { unfold strain_summed. cbn [as_euler g once_settings g_scheme g_dt rsum INR]. unfold shear_rate.
    replace (2 * PI * (0 * dt) / 10) with 0 by field. rewrite cos_0. field. }
  rewrite T in Q.
  assert (QQ : strain_simpson dt (shear_rate true) 1 = 2 / 3 * (PI * dt / 10)).
  { assert ((strain_simpson dt (shear_rate true) 1 - 2 / 3 * (PI * dt / 10)) * (c_spos p0 0%nat 2%nat - 9 / 4) = 0) as M by lra.
    apply Rmult_integral in M. destruct M; lra. }
  rewrite QQ in G. cbn [INR] in G. set (t := PI * dt / 10) in *. replace (2 * PI * (1 * dt) / 10) with (2 * t) in G by (unfold t; field).
  rewrite sin_2a in G. pose proof PI_RGT_0 as PP.
  assert (0 < t < PI) by (unfold t; split; nra).
  assert (0 < sin t) by (apply sin_gt_0; lra).
  assert (C1 : cos t < 1) by (rewrite <- cos_0; apply cos_decreasing_1; lra).
  pose proof (COS_bound t) as [C2 _].
  assert (0 < sin t * t * 2 / 9) by nra.
  assert (sin t * t * 2 / 9 * (3 - (2 + cos t) * cos t) = 0) as M by lra.
  apply Rmult_integral in M. destruct M; nra.
Qed.
Print Assumptions C100_oscillating_refuted.

(** ** Examples *)
(** Spheres of any radii and orientations falling under gravity with the drag
    matrix, any number of frames and timestep: both runs complete and save the
    same data. *)
Example C100_example sc Ns p0 dt num_frames :
  (0 < Ns)%nat -> (0 < num_frames)%nat -> (forall i, (i < Ns)%nat -> 0 < c_ssizes p0 i) -> oriented Ns p0 ->
  let run g := full_simulation pinv Proof_Step.inv3 psolve sc [] 0 (fun _ _ => 0) Ns 0 fte false true true 2 g (falling Ns dt) p0 in
  exists s fs s' fs', run (as_euler (Prop_Run4.rk4_settings dt num_frames)) = Ok (Some (s, fs)) /\ run (Prop_Run4.rk4_settings dt num_frames) = Ok (Some (s', fs')) /\
    length s = S num_frames /\ length fs = num_frames /\
    Forall2 (snapshot_same Ns 0) s s' /\ Forall2 (forces_same Ns 0) fs fs'.
Proof.
  intros HN HF HP HO run.
  assert (SH : solves_shape psolve) by (intros n A b _; unfold psolve; rewrite map_length, seq_length; reflexivity).
  assert (RUN : forall g, usable g 0 -> g_num_frames g = num_frames -> g_save_pos g = 1%nat -> g_save_forces g = 1%nat ->
    exists s fs, run g = Ok (Some (s, fs)) /\ length s = S num_frames /\ length fs = num_frames).
  { intros g US G1 G2 G3. destruct (C62_complete pinv Proof_Step.inv3 psolve sc [] 0 (fun _ _ => 0) Ns 0 fte false true true 2 g (falling Ns dt) p0
             (map (c_ssizes p0) (seq 0 Ns)) SH) as (s & fs & E & L).
    { intros i Hi. apply in_map, in_seq. lia. }
    { intros i Hi. lia. }
    { left. reflexivity. }
    { discriminate. }
    { intros p t _ _. destruct (given_inputs 1 fte Ns 0 p t dt ltac:(lia)) as (i & f & E & C & _).
      - unfold workable. destruct (Nat.eqb_spec Ns 0); [lia|]. left. discriminate.
      - exists i, f. split; [exact E|]. split; [exact C|]. left. unfold input_ftsuoe in E. cbn [Z.ltb Z.compare] in E. injection E as _ <-. exact free_default. }
    { exact US. }
    exists s, fs. split; [exact E|]. rewrite <- G1. apply L; auto. }
  destruct (RUN (as_euler (Prop_Run4.rk4_settings dt num_frames))) as (s & fs & E & L1 & L2); try reflexivity; [repeat split; cbn; auto; lia|].
  destruct (RUN (Prop_Run4.rk4_settings dt num_frames)) as (s' & fs' & E' & _); try reflexivity; [repeat split; cbn; auto; lia|].
  exists s, fs, s', fs'. split; [exact E|]. split; [exact E'|]. split; [exact L1|]. split; [exact L2|].
  refine (C100_drag pinv Proof_Step.inv3 psolve sc [] 0 (fun _ _ => 0) Ns 0 fte true 2 (Prop_Run4.rk4_settings dt num_frames) (falling Ns dt) p0 s fs s' fs'
    pinv_ok psolve_ok Proof_Step.inv3_inverts HN eq_refl eq_refl _ eq_refl eq_refl eq_refl ltac:(cbn; lia) ltac:(cbn; lia) eq_refl eq_refl _ _ HP _ HO E E').
  - intros l Hl. reflexivity.
  - intros p p' t t'. reflexivity.
  - intros p t i f Ei. pose proof (falling_posed Ns dt p t i f HN Ei) as [W1 W2]. pose proof (proj1 (C81_inputs one Ns 0 fte dt one_orthogonal)) as T.
    specialize (T ltac:(unfold keeps_z, one, delta; auto) p p t i f i f (config_self Ns 0 p) Ei Ei). destruct T as [(_ & _ & _ & _ & _ & _ & _ & _ & _ & T1 & _ & T2 & _) _].
    split; [exact T1|]. split; [exact T2|]. split; [|split; assumption].
    unfold input_ftsuoe in Ei. cbn [Z.ltb Z.compare] in Ei. injection Ei as _ <-. intros l Hl. reflexivity.
  - intros i Hi. lia.
Qed.
