(** C89: runs in other units of length, time and viscosity, and about another
    origin. *)
From Coq Require Import Reals List Arith ZArith Bool Lia Lra FunctionalExtensionality.
From Verif Require Import Base Py Model_Mob Model_Minf Model_Grand Model_Close Model_R2B Model_MinfP Model_GrandP Model_Step
  Model_Output Model_Frame Model_Inputs Model_Sim Spec_Convert Spec_Output Spec_Rotate Spec_Step Spec_Frame Spec_Posdef Spec_Run Spec_Run4 Spec_Sim Spec_Rescale Spec_Turn Spec_Turn4 Spec_Wide Spec_Renumber Spec_Units
  Proof_Frame Proof_Posdef Proof_Posdef2 Proof_Run Proof_Run2 Proof_Run4 Proof_Sim2 Spec_Runs Proof_Runs2 Proof_Runs3 Prop_Runs Prop_Sim Prop_Posdef Prop_Run Prop_Run4
  Proof_Turn3 Proof_Turn4 Proof_Turn5 Proof_Turn6 Proof_Renumber5 Prop_Turn Prop_Turn4 Prop_Renumber Proof_Units2 Proof_Units3.
From Verif Require Proof_Step.
Import ListNotations.
Local Open Scope R_scope.

Lemma imp2 (A B : Type) (r q : A -> B -> Prop) l l' : (forall x y, r x y -> q x y) -> Forall2 r l l' -> Forall2 q l l'.
Proof. intros H F. induction F; constructor; auto. Qed.

(** Two completed runs without periodic box.  In the second all lengths (radii,
    positions) are [lam] times, given velocities [ups] times and the viscosity
    [kap] times those of the first, given forces, torques and stresslets are
    scaled as viscosity, velocity and length demand, the origin is moved to
    [org] and the timestep is lam/ups times the first.  Then the saved
    positions are lam x + org and the saved forces and stresslets are scaled in
    the same way.  The centre of the flow has to be moved along, unless there
    is neither rotation nor strain ([calm]). *)
Theorem C89_units :
  forall lam ups kap org calm inv inv3 solve sc table h stale Ns Nd fm bb minf_only cutoff_factor g dt' input input' p0 p0' s fs s' fs',
    let run g i p := full_simulation inv inv3 solve sc table h stale Ns Nd fm false bb minf_only cutoff_factor g i p in
    let posed g i p := posed_run inv inv3 solve sc table h stale Ns Nd fm bb minf_only cutoff_factor g i p in
    0 < lam -> 0 < ups -> 0 < kap -> dt' * ups = lam * g_dt g ->
    0 < cutoff_factor -> inverts_posdef inv -> solves_posdef solve -> inverts inv3 -> (0 < Ns)%nat ->
    no_box_g g -> g_start g = 0%nat -> g_scheme g = euler \/ g_scheme g = ab2 ->
    (0 < g_save_pos g)%nat -> (0 < g_save_forces g)%nat ->
    (g_save_after g mod g_save_pos g = 0)%nat -> (g_save_after g mod g_save_forces g = 0)%nat ->
    input_scaled lam ups kap org Ns Nd calm fm input input' -> config_scaled lam org Ns Nd p0 p0' -> oriented Ns p0 ->
    posed g input p0 -> posed (retimed dt' g) input' p0' ->
    spread_run lam inv inv3 solve sc table h stale Ns Nd fm bb minf_only cutoff_factor g input p0 ->
    run g input p0 = Ok (Some (s, fs)) -> run (retimed dt' g) input' p0' = Ok (Some (s', fs')) ->
    Forall2 (snapshot_scaled lam org Ns Nd) s s' /\ Forall2 (forces_scaled lam ups kap Ns Nd) fs fs'.
Proof.
  intros lam ups kap org calm inv inv3 solve sc table h stale Ns Nd fm bb minf_only cf g dt' input input' p0 p0' s fs s' fs' run posed
    Hl Hu Hk Hdt Hcf Hi Hs H3 HN Hb H0 Hsch S1 S2 S3 S4 HI HC HO HP HP' HS E E'.
  exact (runs_scaled lam ups kap org Hl Hu Hk Ns Nd calm inv3 H3 g dt' Hdt Hb HN inv solve sc table h stale fm bb minf_only cf input input' p0 p0'
    Hcf Hi Hs H0 HI HC HO Hsch HP HP' HS s fs s' fs' S1 S2 S3 S4 E E').
Qed.
Print Assumptions C89_units.

(** The same for the Runge-Kutta scheme. *)
Theorem C89_units_rk4 :
  forall lam ups kap org calm inv inv3 solve sc table h stale Ns Nd fm bb minf_only cutoff_factor g dt' input input' p0 p0' s fs s' fs',
    let run g i p := full_simulation inv inv3 solve sc table h stale Ns Nd fm false bb minf_only cutoff_factor g i p in
    let posed g i p := posed_run4 inv inv3 solve sc table h stale Ns Nd fm bb minf_only cutoff_factor g i p in
    0 < lam -> 0 < ups -> 0 < kap -> dt' * ups = lam * g_dt g ->
    0 < cutoff_factor -> inverts_posdef inv -> solves_posdef solve -> inverts inv3 -> (0 < Ns)%nat ->
    no_box_g g -> g_start g = 0%nat -> g_scheme g = rk4 ->
    (0 < g_save_pos g)%nat -> (0 < g_save_forces g)%nat ->
    (g_save_after g mod g_save_pos g = 0)%nat -> (g_save_after g mod g_save_forces g = 0)%nat ->
    input_scaled lam ups kap org Ns Nd calm fm input input' -> config_scaled lam org Ns Nd p0 p0' -> oriented Ns p0 ->
    posed g input p0 -> posed (retimed dt' g) input' p0' ->
    spread_run4 lam inv inv3 solve sc table h stale Ns Nd fm bb minf_only cutoff_factor g input p0 ->
    run g input p0 = Ok (Some (s, fs)) -> run (retimed dt' g) input' p0' = Ok (Some (s', fs')) ->
    Forall2 (snapshot_scaled lam org Ns Nd) s s' /\ Forall2 (forces_scaled lam ups kap Ns Nd) fs fs'.
Proof.
  intros lam ups kap org calm inv inv3 solve sc table h stale Ns Nd fm bb minf_only cf g dt' input input' p0 p0' s fs s' fs' run posed
    Hl Hu Hk Hdt Hcf Hi Hs H3 HN Hb H0 Hsch S1 S2 S3 S4 HI HC HO HP HP' HS E E'.
  exact (runs_scaled4 lam ups kap org Hl Hu Hk Ns Nd calm inv3 H3 g dt' Hdt Hb HN inv solve sc table h stale fm bb minf_only cf input input' p0 p0'
    Hcf Hi Hs H0 HI HC HO Hsch HP HP' HS s fs s' fs' S1 S2 S3 S4 E E').
Qed.
Print Assumptions C89_units_rk4.

(** The shipped inputs.  Gravity (1): the forces stay, so velocities go down as
    lengths go up.  Repulsion (4) and given velocities (5): velocities stay;
    repulsion grows with the radii.  Given forces and velocities (6): only the
    origin is free.  In all these the origin may be moved, except in the form
    fts (see C60); the steady shear flow (7) is about the origin and keeps its
    rate. *)
Theorem C89_inputs :
  forall lam org Ns Nd fm dt dt', 0 < lam -> fm <> fts ->
    let shipped n dt := fun p t => input_ftsuoe n fm Ns Nd p t dt in
    input_scaled lam (/ lam) 1 org Ns Nd true fm (shipped 1%Z dt) (shipped 1%Z dt') /\
    input_scaled lam 1 1 org Ns Nd true fm (shipped 4%Z dt) (shipped 4%Z dt') /\
    input_scaled lam 1 1 org Ns Nd true fm (shipped 5%Z dt) (shipped 5%Z dt') /\
    input_scaled 1 1 1 org Ns Nd true fm (shipped 6%Z dt) (shipped 6%Z dt').
Proof.
  intros lam org Ns Nd fm dt dt' Hl Hf shipped.
  split; [apply input1_scaled; auto|]. split; [apply input4_scaled; auto|]. split; [apply input5_scaled; auto|]. apply input6_scaled; auto; lra.
Qed.
Print Assumptions C89_inputs.

(** About the same origin, also in the form fts. *)
Theorem C89_inputs_fixed :
  forall lam Ns Nd fm dt dt', 0 < lam ->
    let shipped n dt := fun p t => input_ftsuoe n fm Ns Nd p t dt in
    let origin := v3 0 0 0 in
    input_scaled lam (/ lam) 1 origin Ns Nd false fm (shipped 1%Z dt) (shipped 1%Z dt') /\
    input_scaled lam 1 1 origin Ns Nd false fm (shipped 4%Z dt) (shipped 4%Z dt') /\
    input_scaled lam 1 1 origin Ns Nd false fm (shipped 5%Z dt) (shipped 5%Z dt') /\
    input_scaled lam lam 1 origin Ns Nd false fm (shipped 7%Z dt) (shipped 7%Z dt).
Proof.
  intros lam Ns Nd fm dt dt' Hl shipped origin.
  assert (Z : forall l, (l < 3)%nat -> origin l = 0) by (intros l L; unfold origin, v3; idx3 L; reflexivity).
  split; [apply input1_scaled; auto|]. split; [apply input4_scaled; auto|]. split; [apply input5_scaled; auto|]. apply input7_scaled; auto.
Qed.
Print Assumptions C89_inputs_fixed.

(** With the drag matrix and no near field nothing has to be assumed of the
    matrices or distances, in all three schemes. *)
Theorem C89_drag :
  forall lam ups kap org calm inv inv3 solve sc table h stale Ns Nd fm bb cutoff_factor g dt' input input' p0 p0' s fs s' fs',
    let run g i p := full_simulation inv inv3 solve sc table h stale Ns Nd fm false bb true cutoff_factor g i p in
    0 < lam -> 0 < ups -> 0 < kap -> dt' * ups = lam * g_dt g ->
    0 < cutoff_factor -> inverts_posdef inv -> solves_posdef solve -> inverts inv3 -> (0 < Ns)%nat ->
    g_use_drag g = true -> g_explosion g = false ->
    no_box_g g -> g_start g = 0%nat -> g_scheme g = euler \/ g_scheme g = ab2 \/ g_scheme g = rk4 ->
    (0 < g_save_pos g)%nat -> (0 < g_save_forces g)%nat ->
    (g_save_after g mod g_save_pos g = 0)%nat -> (g_save_after g mod g_save_forces g = 0)%nat ->
    (forall i, (i < Ns)%nat -> 0 < c_ssizes p0 i) -> (forall i, (i < Nd)%nat -> 0 < c_dsizes p0 i) ->
    (forall p t i f, input p t = Ok (i, f) -> well_posed Ns Nd fm i /\ 0 < f_mu f) ->
    (forall p t i f, input' p t = Ok (i, f) -> well_posed Ns Nd fm i /\ 0 < f_mu f) ->
    input_scaled lam ups kap org Ns Nd calm fm input input' -> config_scaled lam org Ns Nd p0 p0' -> oriented Ns p0 ->
    run g input p0 = Ok (Some (s, fs)) -> run (retimed dt' g) input' p0' = Ok (Some (s', fs')) ->
    Forall2 (snapshot_scaled lam org Ns Nd) s s' /\ Forall2 (forces_scaled lam ups kap Ns Nd) fs fs'.
Proof.
  intros lam ups kap org calm inv inv3 solve sc table h stale Ns Nd fm bb cf g dt' input input' p0 p0' s fs s' fs' run
    Hl Hu Hk Hdt Hcf Hi Hs H3 HN Hd HX Hb H0 Hsch S1 S2 S3 S4 P1 P2 Hw Hw' HI HC HO E E'.
  assert (P1' : forall i, (i < Ns)%nat -> 0 < c_ssizes p0' i).
  { destruct HC as (C1 & _). intros i Hi'. rewrite C1. apply Rmult_lt_0_compat; [exact Hl|apply P1, Hi']. }
  assert (P2' : forall i, (i < Nd)%nat -> 0 < c_dsizes p0' i).
  { destruct HC as (_ & C2 & _). intros i Hi'. rewrite C2. apply Rmult_lt_0_compat; [exact Hl|apply P2, Hi']. }
  assert (SC : (g_scheme g = euler \/ g_scheme g = ab2) \/ g_scheme g = rk4) by tauto. destruct SC as [SC|SC].
  - refine (C89_units lam ups kap org calm inv inv3 solve sc table h stale Ns Nd fm bb true cf g dt' input input' p0 p0' s fs s' fs'
      Hl Hu Hk Hdt Hcf Hi Hs H3 HN Hb H0 SC S1 S2 S3 S4 HI HC HO _ _ _ E E').
    + apply drag_posed; assumption.
    + apply drag_posed; assumption.
    + intros [C|C]; congruence.
  - refine (C89_units_rk4 lam ups kap org calm inv inv3 solve sc table h stale Ns Nd fm bb true cf g dt' input input' p0 p0' s fs s' fs'
      Hl Hu Hk Hdt Hcf Hi Hs H3 HN Hb H0 SC S1 S2 S3 S4 HI HC HO _ _ _ E E').
    + apply drag_posed4; assumption.
    + apply drag_posed4; assumption.
    + intros [C|C]; congruence.
Qed.
Print Assumptions C89_drag.

(** Falling: in a suspension [lam] times as large the same forces do in
    lam^2 times the time what they do in the small one: saved positions are
    lam x + org, forces are the same, stresslets [lam] times as large. *)
Theorem C89_gravity :
  forall lam org inv inv3 solve sc table h stale Ns Nd fm bb minf_only cutoff_factor g p0 p0' s fs s' fs',
    let dt' := lam * lam * g_dt g in
    let input dt := fun p t => input_ftsuoe 1 fm Ns Nd p t dt in
    let run g p := full_simulation inv inv3 solve sc table h stale Ns Nd fm false bb minf_only cutoff_factor g (input (g_dt g)) p in
    let posed g p := posed_run inv inv3 solve sc table h stale Ns Nd fm bb minf_only cutoff_factor g (input (g_dt g)) p in
    0 < lam -> fm <> fts -> 0 < cutoff_factor -> inverts_posdef inv -> solves_posdef solve -> inverts inv3 -> (0 < Ns)%nat ->
    no_box_g g -> g_start g = 0%nat -> g_scheme g = euler \/ g_scheme g = ab2 ->
    (0 < g_save_pos g)%nat -> (0 < g_save_forces g)%nat ->
    (g_save_after g mod g_save_pos g = 0)%nat -> (g_save_after g mod g_save_forces g = 0)%nat ->
    config_scaled lam org Ns Nd p0 p0' -> oriented Ns p0 ->
    posed g p0 -> posed (retimed dt' g) p0' ->
    spread_run lam inv inv3 solve sc table h stale Ns Nd fm bb minf_only cutoff_factor g (input (g_dt g)) p0 ->
    run g p0 = Ok (Some (s, fs)) -> run (retimed dt' g) p0' = Ok (Some (s', fs')) ->
    Forall2 (snapshot_scaled lam org Ns Nd) s s' /\
    Forall2 (fun f f' => (forall j l, (j < Ns)%nat -> (l < 3)%nat -> n_Fa f' j l = n_Fa f j l) /\
      (forall j a b, (j < Ns)%nat -> (a < 3)%nat -> (b < 3)%nat -> n_Sa f' j a b = lam * n_Sa f j a b) /\
      (forall d l, (d < Nd)%nat -> (l < 3)%nat -> n_Fb f' d l = n_Fb f d l /\ n_DFb f' d l = n_DFb f d l)) fs fs'.
Proof.
  intros lam org inv inv3 solve sc table h stale Ns Nd fm bb minf_only cf g p0 p0' s fs s' fs' dt' input run posed
    Hl Hf Hcf Hi Hs H3 HN Hb H0 Hsch S1 S2 S3 S4 HC HO HP HP' HS E E'.
  assert (HU : 0 < / lam) by (apply Rinv_0_lt_compat; exact Hl).
  assert (Hdt : dt' * / lam = lam * g_dt g) by (unfold dt'; field; lra).
  destruct (C89_units lam (/ lam) 1 org true inv inv3 solve sc table h stale Ns Nd fm bb minf_only cf g dt' (input (g_dt g)) (input dt') p0 p0' s fs s' fs'
    Hl HU Rlt_0_1 Hdt Hcf Hi Hs H3 HN Hb H0 Hsch S1 S2 S3 S4 (proj1 (C89_inputs lam org Ns Nd fm (g_dt g) dt' Hl Hf)) HC HO HP HP' HS E E') as [A B].
  split; [exact A|]. refine (imp2 _ _ _ _ _ _ _ B). intros f f' [F1 F2]. unfold vec_times, mat_times, force_unit, torque_unit in F1, F2. split; [|split].
  - intros j l Hj L. rewrite (proj1 (F1 j Hj) l L). field. lra.
  - intros j a b Hj La Lb. rewrite (proj2 (F1 j Hj) a b La Lb). unfold force_unit. field. lra.
  - intros d l Hd L. destruct (F2 d Hd) as [G1 G2]. rewrite (G1 l L), (G2 l L). split; field; lra.
Qed.
Print Assumptions C89_gravity.

(** In a steady shear flow about the origin the size does not matter: with the
    same shear rate and timestep everything is [lam] times as large, forces
    lam^2 times, stresslets lam^3 times. *)
Theorem C89_shear :
  forall lam inv inv3 solve sc table h stale Ns Nd fm bb minf_only cutoff_factor g p0 p0' s fs s' fs',
    let input := fun p t => input_ftsuoe 7 fm Ns Nd p t (g_dt g) in
    let run p := full_simulation inv inv3 solve sc table h stale Ns Nd fm false bb minf_only cutoff_factor g input p in
    let posed p := posed_run inv inv3 solve sc table h stale Ns Nd fm bb minf_only cutoff_factor g input p in
    0 < lam -> 0 < cutoff_factor -> inverts_posdef inv -> solves_posdef solve -> inverts inv3 -> (0 < Ns)%nat ->
    no_box_g g -> g_start g = 0%nat -> g_scheme g = euler \/ g_scheme g = ab2 ->
    (0 < g_save_pos g)%nat -> (0 < g_save_forces g)%nat ->
    (g_save_after g mod g_save_pos g = 0)%nat -> (g_save_after g mod g_save_forces g = 0)%nat ->
    config_scaled lam (v3 0 0 0) Ns Nd p0 p0' -> oriented Ns p0 ->
    posed p0 -> posed p0' ->
    spread_run lam inv inv3 solve sc table h stale Ns Nd fm bb minf_only cutoff_factor g input p0 ->
    run p0 = Ok (Some (s, fs)) -> run p0' = Ok (Some (s', fs')) ->
    Forall2 (snapshot_scaled lam (v3 0 0 0) Ns Nd) s s' /\
    Forall2 (fun f f' => (forall j l, (j < Ns)%nat -> (l < 3)%nat -> n_Fa f' j l = lam ^ 2 * n_Fa f j l) /\
      (forall j a b, (j < Ns)%nat -> (a < 3)%nat -> (b < 3)%nat -> n_Sa f' j a b = lam ^ 3 * n_Sa f j a b) /\
      (forall d l, (d < Nd)%nat -> (l < 3)%nat -> n_Fb f' d l = lam ^ 2 * n_Fb f d l /\ n_DFb f' d l = lam ^ 2 * n_DFb f d l)) fs fs'.
Proof.
  intros lam inv inv3 solve sc table h stale Ns Nd fm bb minf_only cf g p0 p0' s fs s' fs' input run posed
    Hl Hcf Hi Hs H3 HN Hb H0 Hsch S1 S2 S3 S4 HC HO HP HP' HS E E'.
  destruct (C89_units lam lam 1 (v3 0 0 0) false inv inv3 solve sc table h stale Ns Nd fm bb minf_only cf g (g_dt g) input input p0 p0' s fs s' fs'
    Hl Hl Rlt_0_1 (Rmult_comm _ _) Hcf Hi Hs H3 HN Hb H0 Hsch S1 S2 S3 S4) as [A B]; try assumption.
  - apply (C89_inputs_fixed lam Ns Nd fm (g_dt g) (g_dt g) Hl).
  - split; [exact A|]. refine (imp2 _ _ _ _ _ _ _ B). intros f f' [F1 F2]. unfold vec_times, mat_times, force_unit, torque_unit in F1, F2. split; [|split].
    + intros j l Hj L. rewrite (proj1 (F1 j Hj) l L). ring.
    + intros j a b Hj La Lb. rewrite (proj2 (F1 j Hj) a b La Lb). unfold force_unit. ring.
    + intros d l Hd L. destruct (F2 d Hd) as [G1 G2]. rewrite (G1 l L), (G2 l L). split; ring.
Qed.
Print Assumptions C89_shear.

(** Nothing depends on where the origin is: particles moved by [org], in a fluid
    at rest, save positions moved by [org] and the same forces. *)
Theorem C89_moved :
  forall org inv inv3 solve sc table h stale Ns Nd fm bb minf_only cutoff_factor g input input' p0 p0' s fs s' fs',
    let run i p := full_simulation inv inv3 solve sc table h stale Ns Nd fm false bb minf_only cutoff_factor g i p in
    let posed i p := posed_run inv inv3 solve sc table h stale Ns Nd fm bb minf_only cutoff_factor g i p in
    0 < cutoff_factor -> inverts_posdef inv -> solves_posdef solve -> inverts inv3 -> (0 < Ns)%nat ->
    no_box_g g -> g_start g = 0%nat -> g_scheme g = euler \/ g_scheme g = ab2 ->
    (0 < g_save_pos g)%nat -> (0 < g_save_forces g)%nat ->
    (g_save_after g mod g_save_pos g = 0)%nat -> (g_save_after g mod g_save_forces g = 0)%nat ->
    input_scaled 1 1 1 org Ns Nd true fm input input' -> config_scaled 1 org Ns Nd p0 p0' -> oriented Ns p0 ->
    posed input p0 -> posed input' p0' ->
    spread_run 1 inv inv3 solve sc table h stale Ns Nd fm bb minf_only cutoff_factor g input p0 ->
    run input p0 = Ok (Some (s, fs)) -> run input' p0' = Ok (Some (s', fs')) ->
    Forall2 (fun x x' => (forall j l, (j < Ns + Nd)%nat -> (l < 3)%nat -> n_pos x' j l = n_pos x j l + org l) /\
      (forall j k l, (j < Ns)%nat -> (k < 2)%nat -> (l < 3)%nat -> n_rot x' j k l = n_rot x j k l + org l) /\
      (forall d l, (d < Nd)%nat -> (l < 3)%nat -> n_dx x' d l = n_dx x d l)) s s' /\
    Forall2 (fun f f' => (forall j l, (j < Ns)%nat -> (l < 3)%nat -> n_Fa f' j l = n_Fa f j l) /\
      (forall j a b, (j < Ns)%nat -> (a < 3)%nat -> (b < 3)%nat -> n_Sa f' j a b = n_Sa f j a b) /\
      (forall d l, (d < Nd)%nat -> (l < 3)%nat -> n_Fb f' d l = n_Fb f d l /\ n_DFb f' d l = n_DFb f d l)) fs fs'.
Proof.
  intros org inv inv3 solve sc table h stale Ns Nd fm bb minf_only cf g input input' p0 p0' s fs s' fs' run posed
    Hcf Hi Hs H3 HN Hb H0 Hsch S1 S2 S3 S4 HI HC HO HP HP' HS E E'.
  destruct (C89_units 1 1 1 org true inv inv3 solve sc table h stale Ns Nd fm bb minf_only cf g (g_dt g) input input' p0 p0' s fs s' fs'
    Rlt_0_1 Rlt_0_1 Rlt_0_1 (Rmult_comm _ _) Hcf Hi Hs H3 HN Hb H0 Hsch S1 S2 S3 S4) as [A B]; try assumption.
  - split.
    + refine (imp2 _ _ _ _ _ _ _ A). intros x x' (X1 & X2 & X3). unfold point_moved, vec_times in *. split; [|split].
      * intros j l Hj L. rewrite (X1 j Hj l L). ring.
      * intros j k l Hj Hk L. rewrite (X2 j k Hj Hk l L). ring.
      * intros d l Hd L. rewrite (X3 d Hd l L). ring.
    + refine (imp2 _ _ _ _ _ _ _ B). intros f f' [F1 F2]. unfold vec_times, mat_times, force_unit, torque_unit in F1, F2. split; [|split].
      * intros j l Hj L. rewrite (proj1 (F1 j Hj) l L). ring.
      * intros j a b Hj La Lb. rewrite (proj2 (F1 j Hj) a b La Lb). unfold force_unit. ring.
      * intros d l Hd L. destruct (F2 d Hd) as [G1 G2]. rewrite (G1 l L), (G2 l L). split; ring.
Qed.
Print Assumptions C89_moved.

(** From the same positions, with a viscosity [kap] times as large, given
    velocities [ups] times and given forces kap ups times as large, in a
    timestep 1/ups as long: the same path.  In particular a viscosity and
    forces twice as large change nothing, and with forces twice as large the
    same path takes half the time. *)
Theorem C89_paths :
  forall ups kap inv inv3 solve sc table h stale Ns Nd fm bb minf_only cutoff_factor g dt' input input' p0 s fs s' fs',
    let run g i := full_simulation inv inv3 solve sc table h stale Ns Nd fm false bb minf_only cutoff_factor g i p0 in
    let posed g i := posed_run inv inv3 solve sc table h stale Ns Nd fm bb minf_only cutoff_factor g i p0 in
    0 < ups -> 0 < kap -> dt' * ups = g_dt g ->
    0 < cutoff_factor -> inverts_posdef inv -> solves_posdef solve -> inverts inv3 -> (0 < Ns)%nat ->
    no_box_g g -> g_start g = 0%nat -> g_scheme g = euler \/ g_scheme g = ab2 ->
    (0 < g_save_pos g)%nat -> (0 < g_save_forces g)%nat ->
    (g_save_after g mod g_save_pos g = 0)%nat -> (g_save_after g mod g_save_forces g = 0)%nat ->
    input_scaled 1 ups kap (v3 0 0 0) Ns Nd false fm input input' -> oriented Ns p0 ->
    posed g input -> posed (retimed dt' g) input' ->
    spread_run 1 inv inv3 solve sc table h stale Ns Nd fm bb minf_only cutoff_factor g input p0 ->
    run g input = Ok (Some (s, fs)) -> run (retimed dt' g) input' = Ok (Some (s', fs')) ->
    Forall2 (fun x x' => (forall j l, (j < Ns + Nd)%nat -> (l < 3)%nat -> n_pos x' j l = n_pos x j l) /\
      (forall j k l, (j < Ns)%nat -> (k < 2)%nat -> (l < 3)%nat -> n_rot x' j k l = n_rot x j k l) /\
      (forall d l, (d < Nd)%nat -> (l < 3)%nat -> n_dx x' d l = n_dx x d l)) s s' /\
    Forall2 (fun f f' => (forall j l, (j < Ns)%nat -> (l < 3)%nat -> n_Fa f' j l = kap * ups * n_Fa f j l) /\
      (forall j a b, (j < Ns)%nat -> (a < 3)%nat -> (b < 3)%nat -> n_Sa f' j a b = kap * ups * n_Sa f j a b) /\
      (forall d l, (d < Nd)%nat -> (l < 3)%nat -> n_Fb f' d l = kap * ups * n_Fb f d l /\ n_DFb f' d l = kap * ups * n_DFb f d l)) fs fs'.
Proof.
  intros ups kap inv inv3 solve sc table h stale Ns Nd fm bb minf_only cf g dt' input input' p0 s fs s' fs' run posed
    Hu Hk Hdt Hcf Hi Hs H3 HN Hb H0 Hsch S1 S2 S3 S4 HI HO HP HP' HS E E'.
  assert (Z : forall l, (l < 3)%nat -> v3 0 0 0 l = 0) by (intros l L; unfold v3; idx3 L; reflexivity).
  assert (Hdt' : dt' * ups = 1 * g_dt g) by lra.
  assert (HC : config_scaled 1 (v3 0 0 0) Ns Nd p0 p0).
  { unfold config_scaled, point_moved, vec_times.
    split; [apply functional_extensionality; intros j; ring|]. split; [apply functional_extensionality; intros j; ring|].
    split; [intros j _ l L; rewrite Z by exact L; ring|]. split; [intros j k _ _ l L; rewrite Z by exact L; ring|].
    intros d _. split; intros l L; [rewrite Z by exact L|]; ring. }
  destruct (C89_units 1 ups kap (v3 0 0 0) false inv inv3 solve sc table h stale Ns Nd fm bb minf_only cf g dt' input input' p0 p0 s fs s' fs'
    Rlt_0_1 Hu Hk Hdt' Hcf Hi Hs H3 HN Hb H0 Hsch S1 S2 S3 S4 HI HC HO HP HP' HS E E') as [A B]. split.
  + refine (imp2 _ _ _ _ _ _ _ A). intros x x' (X1 & X2 & X3). unfold point_moved, vec_times in *. split; [|split].
    * intros j l Hj L. rewrite (X1 j Hj l L), Z by exact L. ring.
    * intros j k l Hj Hk' L. rewrite (X2 j k Hj Hk' l L), Z by exact L. ring.
    * intros d l Hd L. rewrite (X3 d Hd l L). ring.
  + refine (imp2 _ _ _ _ _ _ _ B). intros f f' [F1 F2]. unfold vec_times, mat_times, force_unit, torque_unit in F1, F2. split; [|split].
    * intros j l Hj L. rewrite (proj1 (F1 j Hj) l L). ring.
    * intros j a b Hj La Lb. rewrite (proj2 (F1 j Hj) a b La Lb). unfold force_unit. ring.
    * intros d l Hd L. destruct (F2 d Hd) as [G1 G2]. rewrite (G1 l L), (G2 l L). split; ring.
Qed.
Print Assumptions C89_paths.

(** Instances.  Falling spheres of any radii, enlarged and moved in any way, with
    the drag matrix, for any number of frames (Euler and Runge-Kutta). *)
Definition scaled_config (lam : R) (org : vec) (p : config) : config :=
  let move v := fun l => lam * v l + org l in
  mkConfig (fun j => lam * c_ssizes p j) (fun j => move (c_spos p j)) (fun j k => move (c_srot p j k)) (fun j => lam * c_dsizes p j)
    (fun j => move (c_dpos p j)) (fun j => vscal lam (c_ddx p j)).
Lemma scaled_is lam org Ns Nd p : config_scaled lam org Ns Nd p (scaled_config lam org p).
Proof.
  unfold config_scaled, point_moved, vec_times, scaled_config. cbn [c_ssizes c_spos c_srot c_dsizes c_dpos c_ddx].
  split; [reflexivity|]. split; [reflexivity|]. split; [reflexivity|]. split; [reflexivity|]. intros d _. split; reflexivity.
Qed.
Example C89_example sc Ns lam org p0 dt num_frames :
  0 < lam -> (0 < Ns)%nat -> (0 < num_frames)%nat -> (forall i, (i < Ns)%nat -> 0 < c_ssizes p0 i) -> oriented Ns p0 ->
  let run g dt p := full_simulation pinv Proof_Step.inv3 psolve sc [] 0 (fun _ _ => 0) Ns 0 fte false true true 2 g (falling Ns dt) p in
  let dt' := lam * lam * dt in
  (exists s fs s' fs', run (drag_settings dt num_frames) dt p0 = Ok (Some (s, fs)) /\
    run (drag_settings dt' num_frames) dt' (scaled_config lam org p0) = Ok (Some (s', fs')) /\ length s = S num_frames /\ length fs = num_frames /\
    Forall2 (snapshot_scaled lam org Ns 0) s s' /\ Forall2 (forces_scaled lam (/ lam) 1 Ns 0) fs fs') /\
  (exists s fs s' fs', run (rk4_settings dt num_frames) dt p0 = Ok (Some (s, fs)) /\
    run (rk4_settings dt' num_frames) dt' (scaled_config lam org p0) = Ok (Some (s', fs')) /\ length s = S num_frames /\ length fs = num_frames /\
    Forall2 (snapshot_scaled lam org Ns 0) s s' /\ Forall2 (forces_scaled lam (/ lam) 1 Ns 0) fs fs').
Proof.
  intros Hl HN HF HP HO run dt'.
  assert (HU : 0 < / lam) by (apply Rinv_0_lt_compat; exact Hl).
  assert (Hdt : dt' * / lam = lam * dt) by (unfold dt'; field; lra).
  assert (HI : input_scaled lam (/ lam) 1 org Ns 0 true fte (falling Ns dt) (falling Ns dt')) by (apply (C89_inputs lam org Ns 0 fte dt dt' Hl); discriminate).
  assert (NB : no_box_g (drag_settings dt num_frames)) by (intros l L; reflexivity).
  assert (NB4 : no_box_g (rk4_settings dt num_frames)) by (intros l L; reflexivity).
  assert (W : forall d p t i f, falling Ns d p t = Ok (i, f) -> well_posed Ns 0 fte i /\ 0 < f_mu f) by (intros d p t i f; apply falling_posed; exact HN).
  assert (N0 : forall i, (i < 0)%nat -> 0 < c_dsizes p0 i) by (intros i Hi; lia).
  split.
  - destruct (falling_runs sc Ns p0 dt num_frames HN HF) as (s & fs & E & L1 & L2).
    destruct (falling_runs sc Ns (scaled_config lam org p0) dt' num_frames HN HF) as (s' & fs' & E' & _).
    exists s, fs, s', fs'. split; [exact E|]. split; [exact E'|]. split; [exact L1|]. split; [exact L2|].
    exact (C89_drag lam (/ lam) 1 org true pinv Proof_Step.inv3 psolve sc [] 0 (fun _ _ => 0) Ns 0 fte true 2 (drag_settings dt num_frames) dt'
      (falling Ns dt) (falling Ns dt') p0 (scaled_config lam org p0) s fs s' fs' Hl HU Rlt_0_1 Hdt ltac:(lra) pinv_ok psolve_ok Proof_Step.inv3_inverts HN
      eq_refl eq_refl NB eq_refl (or_introl eq_refl) ltac:(cbn; lia) ltac:(cbn; lia) eq_refl eq_refl HP N0 (W dt) (W dt') HI (scaled_is lam org Ns 0 p0) HO E E').
  - destruct (falling_runs4 sc Ns p0 dt num_frames HN HF) as (s & fs & E & L1 & L2).
    destruct (falling_runs4 sc Ns (scaled_config lam org p0) dt' num_frames HN HF) as (s' & fs' & E' & _).
    exists s, fs, s', fs'. split; [exact E|]. split; [exact E'|]. split; [exact L1|]. split; [exact L2|].
    exact (C89_drag lam (/ lam) 1 org true pinv Proof_Step.inv3 psolve sc [] 0 (fun _ _ => 0) Ns 0 fte true 2 (rk4_settings dt num_frames) dt'
      (falling Ns dt) (falling Ns dt') p0 (scaled_config lam org p0) s fs s' fs' Hl HU Rlt_0_1 Hdt ltac:(lra) pinv_ok psolve_ok Proof_Step.inv3_inverts HN
      eq_refl eq_refl NB4 eq_refl (or_intror (or_intror eq_refl)) ltac:(cbn; lia) ltac:(cbn; lia) eq_refl eq_refl HP N0 (W dt) (W dt') HI (scaled_is lam org Ns 0 p0) HO E E').
Qed.

(** A wide row of unit spheres with the mobility matrix and the near field, for
    one frame, and the same row enlarged and moved. *)
Lemma scaled_row_run sc Ns lam org dt : 0 < lam -> (0 < Ns)%nat ->
  exists a fs, full_simulation pinv Proof_Step.inv3 psolve sc [1] 0 (fun _ _ => 0) Ns 0 fte false true false 2 (full_settings dt) (falling Ns dt)
    (scaled_config lam org (wide_row Ns)) = Ok (Some (a, fs)).
Proof.
  intros Hl HN.
  assert (SH : solves_shape psolve) by (intros n A b _; unfold psolve; rewrite map_length, seq_length; reflexivity).
  destruct (C62_complete pinv Proof_Step.inv3 psolve sc [1] 0 (fun _ _ => 0) Ns 0 fte false true false 2 (full_settings dt) (falling Ns dt)
    (scaled_config lam org (wide_row Ns)) [lam] SH) as (s & fs & E & _).
  { intros i Hi. left. cbn. ring. }
  { intros i Hi. lia. }
  { right. intros x y Hx Hy. destruct Hx as [Hx|[]]. destruct Hy as [Hy|[]]. subst x y. exists 1. split; [left; reflexivity|].
    replace (lam / lam) with 1 by (field; lra). rewrite Rminus_eq_0, Rabs_R0, Rabs_R1. lra. }
  { discriminate. }
  { intros q t _ _. destruct (given_inputs 1 fte Ns 0 q t dt ltac:(lia)) as (i & f & E & C & _).
    - unfold workable. destruct (Nat.eqb_spec Ns 0); [lia|]. left. discriminate.
    - exists i, f. split; [exact E|]. split; [exact C|]. left. unfold input_ftsuoe in E. cbn [Z.ltb Z.compare] in E. injection E as _ <-. exact free_default. }
  { repeat split; cbn; auto; lia. }
  exists s, fs. exact E.
Qed.
Lemma scaled_row_spaced Ns lam org L : 0 < lam -> L < lam * (6000 * INR Ns) ->
  spaced (Ns + 2 * 0) (Model_Minf.bead_positions (posdata_of Ns 0 (scaled_config lam org (wide_row Ns)))) L.
Proof.
  intros Hl HL p q Hp Hq Ne.
  assert (HL' : L / lam < 6000 * INR Ns).
  { apply Rmult_lt_reg_l with lam; [exact Hl|]. replace (lam * (L / lam)) with L by (field; lra). exact HL. }
  pose proof (wide_row_spaced Ns (fun j => j) (L / lam) (id_permutes Ns) HL' p q Hp Hq Ne) as S.
  change (relisted (fun j => j) (fun d => d) (wide_row Ns)) with (wide_row Ns) in S.
  rewrite (norm_times lam (vsub (Model_Minf.bead_positions (posdata_of Ns 0 (wide_row Ns)) p) (Model_Minf.bead_positions (posdata_of Ns 0 (wide_row Ns)) q)) _ Hl).
  - apply (Rmult_lt_compat_l lam) in S; [|exact Hl]. replace (lam * (L / lam)) with L in S by (field; lra). exact S.
  - rewrite Nat.add_0_r in Hp, Hq. intros l Ll. unfold Model_Minf.bead_positions, posdata_of, vsub. cbn [num_spheres num_dumbbells sphere_positions].
    destruct (Nat.ltb_spec p Ns); [|lia]. destruct (Nat.ltb_spec q Ns); [|lia]. cbn [scaled_config c_spos]. ring.
Qed.
Lemma scaled_row_posed sc Ns lam org dt : 0 < lam -> / 10 ^ 10 < lam -> (0 < Ns)%nat ->
  posed_run pinv Proof_Step.inv3 psolve sc [1] 0 (fun _ _ => 0) Ns 0 fte true false 2 (full_settings dt) (falling Ns dt) (scaled_config lam org (wide_row Ns)).
Proof.
  intros Hl Ht HN. assert (N1 : 1 <= INR Ns) by (apply (le_INR 1); lia).
  assert (LN : lam <= lam * INR Ns) by (rewrite <- (Rmult_1_r lam) at 1; apply Rmult_le_compat_l; lra).
  destruct (wide_posed pinv Proof_Step.inv3 psolve sc [1] 0 (fun _ _ => 0) Ns 0 fte true false 2 (full_settings dt) (falling Ns dt) (scaled_config lam org (wide_row Ns)) lam 1) as [A _];
    try reflexivity; try lra.
  - intros b Hb. unfold Model_Minf.bead_sizes, posdata_of. cbn [num_spheres num_dumbbells sphere_sizes]. destruct (Nat.ltb_spec b Ns); [cbn; lra|lia].
  - apply scaled_row_spaced; [exact Hl|]. rewrite plus_INR, !mult_INR. cbn [INR]. lra.
  - apply scaled_row_spaced; [exact Hl|]. lra.
  - apply scaled_row_spaced; [exact Hl|]. lra.
  - intros q t i f E. destruct (falling_posed Ns dt q t i f HN E) as [W M]. split; [exact W|]. split; [exact M|].
    unfold input_ftsuoe in E. cbn [Z.ltb Z.compare] in E. injection E as _ <-. intros l Ll. reflexivity.
  - exact A.
Qed.
Example C89_wide_example sc Ns lam org dt :
  0 < lam -> / 10 ^ 8 < lam -> (0 < Ns)%nat ->
  let run dt p := full_simulation pinv Proof_Step.inv3 psolve sc [1] 0 (fun _ _ => 0) Ns 0 fte false true false 2 (full_settings dt) (falling Ns dt) p in
  exists s fs s' fs', run dt (wide_row Ns) = Ok (Some (s, fs)) /\
    run (lam * lam * dt) (scaled_config lam org (wide_row Ns)) = Ok (Some (s', fs')) /\
    Forall2 (snapshot_scaled lam org Ns 0) s s'.
Proof.
  intros Hl Ht HN run.
  destruct (wide_row_run sc Ns dt (wide_row Ns) HN ltac:(reflexivity)) as (a & fs & E).
  destruct (scaled_row_run sc Ns lam org (lam * lam * dt) Hl HN) as (a' & fs' & E').
  exists a, fs, a', fs'. split; [exact E|]. split; [exact E'|].
  destruct (wide_row_posed sc Ns (fun j => j) dt (id_permutes Ns) HN) as [P _]. change (relisted (fun j => j) (fun d => d) (wide_row Ns)) with (wide_row Ns) in P.
  assert (T8 : / 10 ^ 10 < / 10 ^ 8) by (apply Rinv_lt_contravar; [apply Rmult_lt_0_compat|]; lra).
  pose proof (scaled_row_posed sc Ns lam org (lam * lam * dt) Hl ltac:(lra) HN) as P'.
  assert (N1 : 1 <= INR Ns) by (apply (le_INR 1); lia).
  assert (LN : lam <= lam * INR Ns) by (rewrite <- (Rmult_1_r lam) at 1; apply Rmult_le_compat_l; lra).
  refine (proj1 (C89_gravity lam org pinv Proof_Step.inv3 psolve sc [1] 0 (fun _ _ => 0) Ns 0 fte true false 2 (full_settings dt) (wide_row Ns)
    (scaled_config lam org (wide_row Ns)) a fs a' fs' Hl ltac:(discriminate) ltac:(lra) pinv_ok psolve_ok Proof_Step.inv3_inverts HN _ eq_refl (or_introl eq_refl)
    ltac:(cbn; lia) ltac:(cbn; lia) eq_refl eq_refl (scaled_is lam org Ns 0 _) _ P P' _ E E')).
  - intros l L. reflexivity.
  - intros j k Hj Hk. exists 0%nat. split; [lia|]. cbn [c_srot c_spos wide_row]. unfold v3. lra.
  - intros _ m p Hm (st & Es & <-). cbn in Hm. assert (m = 0%nat) by lia. subst m. cbn in Es. injection Es as <-. cbn [s_pos fresh]. split; [|split].
    + intros b Hb. unfold Model_Minf.bead_sizes, posdata_of. cbn [num_spheres num_dumbbells sphere_sizes]. destruct (Nat.ltb_spec b Ns); [cbn; lra|lia].
    + pose proof (wide_row_spaced Ns (fun j => j) (/ 10 ^ 8) (id_permutes Ns) ltac:(lra)) as S. exact S.
    + intros p q Hp Hq Ne. pose proof (scaled_row_spaced Ns lam (fun _ => 0) (/ 10 ^ 8) Hl ltac:(lra) p q Hp Hq Ne) as S.
      rewrite Nat.add_0_r in Hp, Hq.
      replace (norm _) with (norm (vsub (Model_Minf.bead_positions (posdata_of Ns 0 (scaled_config lam (fun _ => 0) (wide_row Ns))) p)
        (Model_Minf.bead_positions (posdata_of Ns 0 (scaled_config lam (fun _ => 0) (wide_row Ns))) q))); [exact S|].
      f_equal. apply functional_extensionality. intros l. unfold Model_Minf.bead_positions, posdata_of, vsub, vscal. cbn [num_spheres num_dumbbells sphere_positions].
      destruct (Nat.ltb_spec p Ns); [|lia]. destruct (Nat.ltb_spec q Ns); [|lia]. cbn [scaled_config c_spos]. ring.
Qed.

(** Two spheres and two dumbbells in a steady shear flow, and the same [lam] times
    as large, with the drag matrix, for any number of frames. *)
Example C89_shear_example sc lam dt num_frames :
  0 < lam -> (0 < num_frames)%nat ->
  let run p := full_simulation pinv Proof_Step.inv3 psolve sc [] 0 (fun _ _ => 0) 2 2 fte false true true 2
                 (drag_settings dt num_frames) (fun p t => input_ftsuoe 7 fte 2 2 p t dt) p in
  exists s fs s' fs', run opposite_pair = Ok (Some (s, fs)) /\ run (scaled_config lam (v3 0 0 0) opposite_pair) = Ok (Some (s', fs')) /\
    length s = S num_frames /\ length fs = num_frames /\
    Forall2 (snapshot_scaled lam (v3 0 0 0) 2 2) s s' /\ Forall2 (forces_scaled lam lam 1 2 2) fs fs'.
Proof.
  intros Hl HF run. set (input := fun p t => input_ftsuoe 7 fte 2 2 p t dt) in run. set (g := drag_settings dt num_frames) in run.
  assert (SH : solves_shape psolve) by (intros n A b _; unfold psolve; rewrite map_length, seq_length; reflexivity).
  assert (W : forall p t, exists i f, input p t = Ok (i, f) /\ complete fte 2 2 i /\ free_space f = true /\ f_mu f = 1).
  { intros p t. destruct (given_inputs 7 fte 2 2 p t dt ltac:(lia)) as (i & f & E & C & _); [left; discriminate|].
    exists i, f. split; [exact E|]. split; [exact C|]. unfold input_ftsuoe in E. cbn [Z.ltb Z.compare] in E. injection E as _ <-. split; [exact free_default|reflexivity]. }
  assert (R : forall p, (forall i, c_ssizes p i = c_ssizes p 0%nat) -> (forall i, c_dsizes p i = c_dsizes p 0%nat) ->
    exists s fs, run p = Ok (Some (s, fs)) /\ length s = S num_frames /\ length fs = num_frames).
  { intros p HA HB. destruct (C62_complete pinv Proof_Step.inv3 psolve sc [] 0 (fun _ _ => 0) 2 2 fte false true true 2 g input p [c_ssizes p 0%nat; c_dsizes p 0%nat] SH) as (a & fs & E & L).
    { intros i Hi. left. symmetry. apply HA. }
    { intros i Hi. right. left. symmetry. apply HB. }
    { left. reflexivity. }
    { discriminate. }
    { intros q t _ _. destruct (W q t) as (i & f & Ei & C & Fr & _). exists i, f. auto. }
    { repeat split; cbn; auto; lia. }
    exists a, fs. split; [exact E|]. exact (L eq_refl eq_refl (or_introl eq_refl)). }
  destruct (R opposite_pair ltac:(reflexivity) ltac:(reflexivity)) as (s & fs & E & L1 & L2).
  destruct (R (scaled_config lam (v3 0 0 0) opposite_pair) ltac:(reflexivity) ltac:(reflexivity)) as (s' & fs' & E' & _).
  exists s, fs, s', fs'. split; [exact E|]. split; [exact E'|]. split; [exact L1|]. split; [exact L2|].
  assert (WP : forall p t i f, input p t = Ok (i, f) -> well_posed 2 2 fte i /\ 0 < f_mu f).
  { intros p t i f Ei. destruct (W p t) as (i' & f' & Ei' & C & _ & M). rewrite Ei in Ei'. injection Ei' as <- <-. split; [|rewrite M; lra].
    unfold complete in C. unfold well_posed. tauto. }
  refine (C89_drag lam lam 1 (v3 0 0 0) false pinv Proof_Step.inv3 psolve sc [] 0 (fun _ _ => 0) 2 2 fte true 2 g dt input input opposite_pair
    (scaled_config lam (v3 0 0 0) opposite_pair) s fs s' fs' Hl Hl Rlt_0_1 (Rmult_comm _ _) ltac:(lra) pinv_ok psolve_ok Proof_Step.inv3_inverts ltac:(lia)
    eq_refl eq_refl _ eq_refl (or_introl eq_refl) ltac:(cbn; lia) ltac:(cbn; lia) eq_refl eq_refl _ _ WP WP _ (scaled_is _ _ _ _ _) _ E E').
  - intros l L. reflexivity.
  - intros i Hi. cbn. lra.
  - intros i Hi. cbn. lra.
  - apply (C89_inputs_fixed lam 2 2 fte dt dt Hl).
  - intros j k Hj Hk. cbn [c_srot c_spos opposite_pair]. unfold both. destruct (Nat.eqb j 0), (Nat.eqb k 0);
      (exists 0%nat; split; [lia|]; unfold v3; lra) || (exists 2%nat; split; [lia|]; unfold v3; lra).
Qed.

(** Unit spheres, each pulled by the force [F], in a fluid of viscosity [mu], in
    timesteps of length dt; and pulled by kap ups F in a fluid of viscosity
    kap mu in timesteps dt/ups. *)
Definition pulled (mu : R) (F : vec) (Ns : nat) : config -> R -> res (inputs * flow) := fun _ _ =>
  Ok (with_Fa (default_inputs fte Ns 0) (repeat (Some (row F)) Ns), mkFlow (v3 0 0 0) (v3 0 0 0) (v3 0 0 0) (v3 0 0 0) mzero (v3 0 0 0) (v3 0 0 0) mu).
Lemma pulled_complete mu F Ns p t i f : (0 < Ns)%nat -> pulled mu F Ns p t = Ok (i, f) -> complete fte Ns 0 i.
Proof.
  intros HN E. injection E as <- <-. unfold complete. cbv zeta. unfold with_Fa, default_inputs. cbn [i_Fa i_Ta i_Ea i_Fb i_DFb].
  split; [lia|]. split.
  { split; [apply repeat_length|]. intros o Ho. apply repeat_spec in Ho. subst o. eexists. split; reflexivity. }
  destruct (given_inputs 1 fte Ns 0 p t 0 ltac:(lia)) as (i & f & E & C & _).
  - unfold workable. destruct (Nat.eqb_spec Ns 0); [lia|]. left. discriminate.
  - unfold input_ftsuoe in E. cbn [Z.ltb Z.compare] in E. injection E as <- _. unfold complete in C. cbv zeta in C. unfold with_Fa, default_inputs in C. cbn [i_Fa i_Ta i_Ea i_Fb i_DFb] in C. tauto.
Qed.
Lemma pulled_runs sc mu F Ns dt num_frames p0 : (0 < Ns)%nat -> (0 < num_frames)%nat ->
  exists s fs, full_simulation pinv Proof_Step.inv3 psolve sc [] 0 (fun _ _ => 0) Ns 0 fte false true true 2
    (drag_settings dt num_frames) (pulled mu F Ns) p0 = Ok (Some (s, fs)) /\ length s = S num_frames.
Proof.
  intros HN HF.
  assert (SH : solves_shape psolve) by (intros n A b _; unfold psolve; rewrite map_length, seq_length; reflexivity).
  destruct (C62_complete pinv Proof_Step.inv3 psolve sc [] 0 (fun _ _ => 0) Ns 0 fte false true true 2 (drag_settings dt num_frames) (pulled mu F Ns) p0
             (map (c_ssizes p0) (seq 0 Ns)) SH) as (s & fs & E & L).
  { intros i Hi. apply in_map, in_seq. lia. }
  { intros i Hi. lia. }
  { left. reflexivity. }
  { discriminate. }
  { intros p t _ _. do 2 eexists. split; [reflexivity|]. split; [eapply (pulled_complete mu F Ns p t); [exact HN|reflexivity]|]. left. exact free_default. }
  { repeat split; cbn; auto; lia. }
  exists s, fs. split; [exact E|]. apply L; auto.
Qed.
Example C89_paths_example sc ups kap mu F Ns p0 dt num_frames :
  0 < ups -> 0 < kap -> 0 < mu -> (0 < Ns)%nat -> (0 < num_frames)%nat -> (forall i, (i < Ns)%nat -> 0 < c_ssizes p0 i) -> oriented Ns p0 ->
  let run mu F dt := full_simulation pinv Proof_Step.inv3 psolve sc [] 0 (fun _ _ => 0) Ns 0 fte false true true 2
                    (drag_settings dt num_frames) (pulled mu F Ns) p0 in
  exists s fs s' fs', run mu F dt = Ok (Some (s, fs)) /\ run (kap * mu) (vscal (kap * ups) F) (dt / ups) = Ok (Some (s', fs')) /\
    length s = S num_frames /\
    Forall2 (fun x x' => forall j l, (j < Ns)%nat -> (l < 3)%nat -> n_pos x' j l = n_pos x j l) s s'.
Proof.
  intros Hu Hk Hm HN HF HP HO run.
  destruct (pulled_runs sc mu F Ns dt num_frames p0 HN HF) as (s & fs & E & L).
  destruct (pulled_runs sc (kap * mu) (vscal (kap * ups) F) Ns (dt / ups) num_frames p0 HN HF) as (s' & fs' & E' & _).
  exists s, fs, s', fs'. split; [exact E|]. split; [exact E'|]. split; [exact L|].
  assert (W : forall mu F, 0 < mu -> forall p t i f, pulled mu F Ns p t = Ok (i, f) -> well_posed Ns 0 fte i /\ 0 < f_mu f).
  { intros m G Hm' p t i f Ei. split; [|injection Ei as _ <-; exact Hm']. apply pulled_complete in Ei; [|exact HN]. unfold complete in Ei. unfold well_posed. tauto. }
  assert (PD : forall m G d, 0 < m -> posed_run pinv Proof_Step.inv3 psolve sc [] 0 (fun _ _ => 0) Ns 0 fte true true 2 (drag_settings d num_frames) (pulled m G Ns) p0).
  { intros m G d Hm'. apply drag_posed; try reflexivity; try assumption; [left; reflexivity|intros i Hi; lia|apply W; exact Hm']. }
  refine (imp2 _ _ _ _ _ _ _ (proj1 (C89_paths ups kap pinv Proof_Step.inv3 psolve sc [] 0 (fun _ _ => 0) Ns 0 fte true true 2 (drag_settings dt num_frames) (dt / ups)
    (pulled mu F Ns) (pulled (kap * mu) (vscal (kap * ups) F) Ns) p0 s fs s' fs' Hu Hk _ ltac:(lra) pinv_ok psolve_ok Proof_Step.inv3_inverts HN
    _ eq_refl (or_introl eq_refl) ltac:(cbn; lia) ltac:(cbn; lia) eq_refl eq_refl _ HO (PD _ _ _ Hm) (PD _ _ _ (Rmult_lt_0_compat _ _ Hk Hm)) _ E E'))).
  - intros x x' (X & _) j l Hj Ll. apply X; [lia|exact Ll].
  - cbn [g_dt drag_settings]. field. lra.
  - intros l Ll. reflexivity.
  - intros p p' t i f i' f' _ Ei Ei'. injection Ei as <- <-. injection Ei' as <- <-.
    destruct (default_scaled 1 ups kap Ns 0 fte) as (D1 & D2 & D3 & D4 & D5 & D6 & D7 & D8 & D9 & D10).
    assert (Z : forall l, (l < 3)%nat -> v3 0 0 0 l = 0) by (intros l Ll; unfold v3; idx3 Ll; reflexivity).
    split; [|split; [|discriminate]].
    + unfold inputs_scaled, with_Fa. cbn [i_Fa i_Ta i_Sa i_Fb i_DFb i_Ua i_Ea i_Ub i_HalfDUb]. split; [|tauto].
      split; [rewrite !repeat_length; reflexivity|]. intros j. destruct (Nat.lt_ge_cases j Ns) as [Hj|Hj].
      2: { rewrite !(proj2 (nth_error_None _ _)) by (rewrite repeat_length; exact Hj). exact I. }
      rewrite !nth_error_repeat by exact Hj. intros l Ll. unfold force_unit, row_vec, row, vscal. idx3 Ll; cbn [nth]; ring.
    + unfold flow_scaled, unbounded. cbn [f_U f_O f_centre f_mu f_bl f_tr].
      split; [intros l Ll; rewrite Z by exact Ll; ring|]. split; [intros l Ll; rewrite Z by exact Ll; ring|]. split; [reflexivity|]. split; [exact Hm|].
      split; [reflexivity|]. split; [reflexivity|]. intros l Ll. rewrite Z by exact Ll. ring.
  - intros [C|C]; discriminate.
Qed.
