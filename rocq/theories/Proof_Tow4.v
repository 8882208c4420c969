(** Runge-Kutta runs in form fts in which forces and torques are prescribed. *)
From Coq Require Import Reals List Arith ZArith Bool Lia Lra FunctionalExtensionality.
From Verif Require Import Base Py Model_Pack Model_Mob Model_Layout Model_Minf Model_Grand Model_Close Model_R2B Model_GrandP Model_Step
  Model_Output Model_Frame Model_Inputs Model_Sim
  Spec_Pack Spec_Convert Spec_Output Spec_Layout Spec_Minf Spec_Rotate Spec_Step Spec_Frame Spec_Posdef Spec_Run Spec_Run4
  Spec_Turn Spec_Turn4 Spec_Renumber Spec_Work Spec_Two Spec_Push Spec_Tow Spec_Tow4
  Proof_Minf3 Proof_Posdef Proof_Rotate3 Proof_Frame Proof_Run Proof_Run2 Proof_Run4 Proof_Output3 Proof_Runs2 Proof_Turn2 Proof_Turn3 Proof_Turn5 Proof_Work Proof_Work2 Proof_Work3 Proof_Two4 Proof_Two6
  Proof_Push1 Proof_Push2 Proof_Push3 Proof_Tow1 Proof_Tow2.
Import ListNotations.
Local Open Scope R_scope.

Lemma first_bead Ns Nd q j : (j < Nd)%nat -> beads_of Ns Nd q (Ns + j) = bead_minus (c_dpos q j) (c_ddx q j).
Proof. intros Hj. unfold beads_of. destruct (Nat.ltb_spec (Ns + j) Ns); [lia|]. destruct (Nat.ltb_spec (Ns + j) (Ns + Nd)); [|lia]. replace (Ns + j - Ns)%nat with j by lia. reflexivity. Qed.
Lemma second_bead Ns Nd q j : (j < Nd)%nat -> beads_of Ns Nd q (Ns + Nd + j) = bead_plus (c_dpos q j) (c_ddx q j).
Proof. intros Hj. unfold beads_of. destruct (Nat.ltb_spec (Ns + Nd + j) Ns); [lia|]. destruct (Nat.ltb_spec (Ns + Nd + j) (Ns + Nd)); [lia|]. replace (Ns + Nd + j - Ns - Nd)%nat with j by lia. reflexivity. Qed.
Lemma flow_strain U O A A' c x l : (forall b, (b < 3)%nat -> A l b = A' l b) -> linear_flow U O A c x l = linear_flow U O A' c x l.
Proof. intros H. unfold linear_flow, mvec, vadd. f_equal. apply rsum_ext. intros b Hb. rewrite (H b Hb). reflexivity. Qed.

Section Runs.
Variable inv : nat -> mat -> mat.
Variable inv3 : mat -> mat.
Variable solve : nat -> mat -> list R -> list R.
Variable sc : nat -> nat -> R -> nat -> R.
Variable table : list R.
Variable h : nat.
Variable stale : nat -> nat -> R.
Variables Ns Nd : nat.
Variables bb : bool.
Variable cf : R.
Variable g : settings.
Variable input : config -> R -> res (inputs * flow).
Variable p0 : config.
Notation N := (g_num_frames g).
Notation n := (11 * Ns + 6 * Nd)%nat.
Hypothesis Hinv : inverts_posdef inv.
Hypothesis Hsolve : solves_posdef solve.
Hypothesis HNs : (0 < Ns)%nat.
Hypothesis Hex : g_explosion g = false \/ Nd = 0%nat.
Hypothesis Hd : g_use_drag g = false.
Hypothesis Hstart : g_start g = 0%nat.
Hypothesis Hbox : no_box_g g.
Hypothesis S1 : (0 < g_save_pos g)%nat.
Hypothesis S2 : (0 < g_save_forces g)%nat.
Hypothesis S3 : (g_save_after g mod g_save_pos g = 0)%nat.
Hypothesis S4 : (g_save_after g mod g_save_forces g = 0)%nat.
Hypothesis HI : forall p t i f, input p t = Ok (i, f) -> well_posed Ns Nd fts i /\ 0 < f_mu f /\ unbounded f.
Hypothesis HS0 : forall p t i f, input p t = Ok (i, f) -> no_stresslet (i_Sa i).
Notation stg := (stages inv3 sc table h stale Ns Nd fts bb true cf g input).
Notation reach := (reached inv inv3 solve sc table h stale Ns Nd fts false bb true cf g input p0).
Hypothesis HR : forall m pos K q L fl o, (m < N)%nat -> (K < 4)%nat -> (forall k, (k <= m)%nat -> reach k (pos k)) -> stg pos m K q L fl o ->
  roomy (Ns + 2 * Nd) (beads_of Ns Nd (q K)) (radii_of Ns Nd (q K)).
Hypothesis Hsch : g_scheme g = rk4.

Lemma start_roomy m pos : (m < N)%nat -> (forall k, (k <= m)%nat -> reach k (pos k)) -> roomy (Ns + 2 * Nd) (beads_of Ns Nd (pos m)) (radii_of Ns Nd (pos m)).
Proof.
  intros Hm Hr. apply (HR m pos 0%nat (fun _ => pos m) (fun _ _ _ => 0) (fun _ => default_flow) (fun _ => mkOutputs [] [] [] [] [] [] [] [] [] [])); try assumption; [lia|].
  split; [reflexivity|]. split; intros; lia.
Qed.
Lemma roomy_far q mu : 0 < mu -> roomy (Ns + 2 * Nd) (beads_of Ns Nd q) (radii_of Ns Nd q) -> pos_def n (generate_Minfinity bb (posdata_of Ns Nd q) mu).
Proof. intros Hmu HQ. apply room_posdef; [|exact Hmu]. rewrite beads_same, radii_same. exact HQ. Qed.
Lemma far_posed m pos L : (m < N)%nat -> (forall k, (k <= m)%nat -> reach k (pos k)) -> far_resistance h stale Ns Nd bb g input pos m L -> pos_def n L.
Proof.
  intros Hm Hr A. unfold far_resistance in A. rewrite Hd in A. destruct A as (k & i' & f' & M & LD & E' & FM & IV).
  destruct (HI _ _ i' f' E') as (_ & Mu & U). rewrite (proj1 FM U) in IV. assert (Hk : (k <= m)%nat) by apply LD.
  apply (pos_def_inv n _ L (roomy_far (pos k) (f_mu f') Mu (start_roomy k pos ltac:(lia) ltac:(intros; apply Hr; lia))) IV).
Qed.
Lemma roomy_stages : posed_stages inv3 sc table h stale Ns Nd fts bb true cf g input reach.
Proof.
  intros m pos K q L fl o Hm HK Hr HS i f Ei. pose proof (HR m pos K q L fl o Hm HK Hr HS) as RM.
  destruct (HI _ _ i f Ei) as (W & Mu & U). split; [exact W|]. split.
  - intros _ M FM. rewrite (proj1 FM U). apply roomy_far; assumption.
  - intros LK N0 HL HN. unfold near_field in HN. subst N0. apply (pos_def_ext n LK); [intros; unfold mzero; ring|].
    destruct K as [|K]; [exact (far_posed m pos LK Hm Hr HL)|]. destruct HL as [HL1 HL2].
    destruct (g_rk4_each g) eqn:ER.
    + destruct (Classical_Prop.classic (inversion_due 0 (g_invert_every g) m)) as [DU|DU].
      * specialize (HL1 (or_intror (conj eq_refl DU))). unfold far_of in HL1. rewrite Hd in HL1. destruct HL1 as (i1 & f1 & M & E1 & FM & IV).
        destruct (HI _ _ _ _ E1) as (_ & Mu1 & U1). rewrite (proj1 FM U1) in IV. exact (pos_def_inv n _ LK (roomy_far _ _ Mu1 RM) IV).
      * rewrite (HL2 Hd (or_intror DU)). destruct HS as (_ & HS & _). destruct (HS 0%nat ltac:(lia)) as [F0 _]. exact (far_posed m pos _ Hm Hr F0).
    + rewrite (HL2 Hd (or_introl eq_refl)). destruct HS as (_ & HS & _). destruct (HS 0%nat ltac:(lia)) as [F0 _]. exact (far_posed m pos _ Hm Hr F0).
Qed.

Variables (s : list snapshot) (fs : list fsnapshot).
Hypothesis E : full_simulation inv inv3 solve sc table h stale Ns Nd fts false bb true cf g input p0 = Ok (Some (s, fs)).

Theorem towed_run4 : exists (pos : nat -> config) (q : nat -> nat -> config) (inp : nat -> nat -> inputs) (fl : nat -> nat -> flow) (frc : nat -> fsnapshot),
  pos 0%nat = p0 /\
  (forall m, (m < N)%nat ->
     (forall k, (k < 4)%nat -> input (q m k) (stage_time m k) = Ok (inp m k, fl m k)) /\
     exists m', latest_due 0 (g_invert_every g) m m' /\
       tow_frame bb Ns Nd g m m' (pos m') (f_mu (fl m' 0%nat)) (q m) (inp m) (fl m) (pos m) (pos (S m))) /\
  (forall m, (m < N)%nat ->
     (forall j l, (j < Ns)%nat -> n_Fa (frc m) j l = mean4 (fun k => load (i_Fa (inp m k)) j l)) /\
     (forall j k l, (j < Ns)%nat -> (k < 3)%nat -> (l < 3)%nat -> n_Sa (frc m) j k l = 0) /\
     (forall j l, (j < Nd)%nat -> n_Fb (frc m) j l = mean4 (fun k => load (i_Fb (inp m k)) j l) /\ n_DFb (frc m) j l = mean4 (fun k => load (i_DFb (inp m k)) j l))) /\
  s = map (fun m => snap Ns (pos m)) (due_frames (g_save_pos g) (g_save_after g) N)
      ++ (if save_due (g_save_pos g) (g_save_after g) (N - 1) then [snap Ns (pos N)] else []) /\
  fs = map frc (due_frames (g_save_forces g) (g_save_after g) N).
Proof.
  assert (Hq : forall m st, (m < N)%nat -> run_frames inv3 Ns Nd (far_inverse inv h stale Ns Nd bb g input)
    (solve_rest inv inv3 solve sc table h stale Ns Nd fts false bb true cf g input) g (fresh p0) (seq 0 m) = Ok st -> s_error st = false)
    by (intros m st _ Est; exact (no_flag inv3 Ns Nd _ _ g (fresh p0) Hex eq_refl _ st Est)).
  destruct (whole_run_reached inv inv3 solve sc table h stale Ns Nd fts bb true cf g input p0 Hinv Hsolve HNs Hstart Hsch Hq roomy_stages s fs S1 S2 S3 S4 E)
    as (pos & q & L & fl & out & (P0 & PR) & P1 & P2 & P3).
  set (inp := fun m k => match input (q m k) (stage_time m k) with Ok (i, _) => i | Raise _ => default_inputs fts Ns Nd end).
  exists pos, q, inp, fl, (fun m => mean_forces (out m)).
  assert (EI : forall m k, (m < N)%nat -> (k < 4)%nat -> input (q m k) (stage_time m k) = Ok (inp m k, fl m k)).
  { intros m k Hm Hk. destruct (P1 m Hm) as [(_ & SV & _) _]. destruct (SV k Hk) as [_ (i & N0 & E0 & _)]. unfold inp. rewrite E0. reflexivity. }
  (* each stage in closed form *)
  assert (K : forall m, (m < N)%nat -> exists m', latest_due 0 (g_invert_every g) m m' /\ forall k, (k < 4)%nat ->
    let own := (Nat.ltb 0 k && g_rk4_each g && Nat.eqb m' m)%bool in
    let src := if own then q m k else pos m' in
    let mu := if own then f_mu (fl m k) else f_mu (fl m' 0%nat) in
    (forall j, (j < Ns)%nat ->
      (forall l, (l < 3)%nat -> rowof (oUa (out m k)) j l = tow_velocity bb Ns Nd src mu (inp m k) j l) /\
      (forall a l, (a < 3)%nat -> (l < 3)%nat -> matof (oEa (out m k)) j a l = tow_strain bb Ns Nd src mu (inp m k) j a l) /\
      (forall l, rowof (oFa (out m k)) j l = load (i_Fa (inp m k)) j l) /\
      (forall a l, (a < 3)%nat -> (l < 3)%nat -> matof (oSa (out m k)) j a l = 0)) /\
    (forall j, (j < Nd)%nat ->
      (forall l, (l < 3)%nat -> rowof (oUb (out m k)) j l = (tow_velocity bb Ns Nd src mu (inp m k) (Ns + j)%nat l + tow_velocity bb Ns Nd src mu (inp m k) (Ns + Nd + j)%nat l) / 2) /\
      (forall l, (l < 3)%nat -> rowof (oHDb (out m k)) j l = (tow_velocity bb Ns Nd src mu (inp m k) (Ns + Nd + j)%nat l - tow_velocity bb Ns Nd src mu (inp m k) (Ns + j)%nat l) / 2) /\
      (forall l, rowof (oFb (out m k)) j l = load (i_Fb (inp m k)) j l) /\ (forall l, rowof (oDFb (out m k)) j l = load (i_DFb (inp m k)) j l))).
  { intros m Hm. destruct (P1 m Hm) as [ST _]. pose proof ST as (Q0 & SV & MV).
    destruct (SV 0%nat ltac:(lia)) as [F0 _]. pose proof F0 as F0'. unfold stage_far, far_resistance in F0'. rewrite Hd in F0'.
    destruct F0' as (m' & i' & f' & M & LD & E' & FM & IV). assert (Hm' : (m' <= m)%nat) by apply LD.
    exists m'. split; [exact LD|]. intros k Hk own src mu.
    assert (EF : f' = fl m' 0%nat).
    { pose proof (EI m' 0%nat ltac:(lia) ltac:(lia)) as B1. destruct (P1 m' ltac:(lia)) as [(Q0' & _) _]. rewrite Q0' in B1. cbn [stage_time] in B1. rewrite E' in B1. congruence. }
    destruct (SV k Hk) as [FK (i & N0 & E0 & NF & AK)]. unfold near_field in NF. subst N0.
    assert (II : i = inp m k) by (unfold inp; rewrite E0; reflexivity). subst i.
    assert (IVK : is_inv n (generate_Minfinity bb (posdata_of Ns Nd src) mu) (L m k) /\ 0 < mu /\ roomy (Ns + 2 * Nd) (beads_of Ns Nd src) (radii_of Ns Nd src)).
    { destruct (HI _ _ _ _ E') as (_ & Mu & U). rewrite (proj1 FM U) in IV. rewrite EF in *.
      assert (OLD : L m k = L m 0%nat -> own = false -> is_inv n (generate_Minfinity bb (posdata_of Ns Nd src) mu) (L m k) /\ 0 < mu /\ roomy (Ns + 2 * Nd) (beads_of Ns Nd src) (radii_of Ns Nd src)).
      { intros -> O. unfold src, mu. rewrite O. split; [exact IV|]. split; [exact Mu|]. apply (start_roomy m' pos); [lia|]. intros; apply PR; lia. }
      destruct k as [|k]; [apply OLD; reflexivity|]. destruct FK as [FK1 FK2].
      destruct (g_rk4_each g) eqn:ER; [|apply OLD; [apply FK2; auto|unfold own; rewrite andb_false_r; reflexivity]].
      destruct (Nat.eqb_spec m' m) as [EM|NE].
      - assert (O : own = true) by (unfold own; cbn [Nat.ltb Nat.leb andb]; reflexivity). unfold src, mu. rewrite O.
        assert (DU : inversion_due 0 (g_invert_every g) m) by (rewrite <- EM; exact (proj1 (proj2 LD))).
        specialize (FK1 (or_intror (conj eq_refl DU))). unfold far_of in FK1. rewrite Hd in FK1. destruct FK1 as (i1 & f1 & M1 & E1 & FM1 & IV1).
        rewrite E0 in E1. injection E1 as _ <-. destruct (HI _ _ _ _ E0) as (_ & Mu1 & U1). rewrite (proj1 FM1 U1) in IV1.
        split; [exact IV1|]. split; [exact Mu1|]. apply (HR m pos (S k) (q m) (L m) (fl m) (out m) Hm ltac:(lia)); [intros; apply PR; lia|].
        split; [exact Q0|]. split; [intros; apply SV; lia|intros; apply MV; lia].
      - apply OLD; [|unfold own; rewrite andb_false_r; reflexivity]. apply FK2; [exact Hd|]. right. intros DU.
        destruct LD as (_ & _ & LD). apply (LD m); [lia|exact DU]. }
    destruct IVK as (IVK & Mu & (R1 & R2 & _)).
    destruct (towed_answers bb Ns Nd src mu (inp m k) (L m k) (fun a b => L m k a b + mzero a b) (out m k) Mu R1 R2 IVK) as [TA TB].
    - intros. unfold mzero. ring.
    - exact AK.
    - exact (HS0 _ _ _ _ E0).
    - split.
      + intros j Hj. destruct (TA j Hj) as (A1 & _ & A3 & A4 & _ & A6). auto.
      + exact TB. }
  split; [exact P0|]. split; [|split; [|split; [exact P2|exact P3]]].
  - intros m Hm. split; [intros k Hk; exact (EI m k Hm Hk)|]. destruct (K m Hm) as (m' & LD & KK). exists m'. split; [exact LD|].
    destruct (P1 m Hm) as [(Q0 & SV & MV) AD]. cbv beta delta [tow_frame]. intros own placed viscosity strain background V same_sizes.
    (* speeds of the stages *)
    assert (VS : forall k j l, (k < 4)%nat -> (j < Ns)%nat -> (l < 3)%nat -> stage_speed (fl m k) (out m k) (pos m) j l = V k j l).
    { intros k j l Hk Hj Hl. destruct (KK k Hk) as [KA _]. destruct (KA j Hj) as (A1 & A3 & _). unfold stage_speed, V.
      destruct (Nat.ltb_spec j Ns); [|lia]. rewrite (A1 l Hl). f_equal. unfold background, beads_of. destruct (Nat.ltb_spec j Ns); [|lia].
      apply flow_strain. intros b Hb. exact (A3 l b Hl Hb). }
    assert (VB : forall k j l, (k < 4)%nat -> (j < Nd)%nat -> (l < 3)%nat ->
      stage_centre (fl m k) (out m k) (matof (oEa (out m (strain_stage k))) 0) (pos m) j l = (V k (Ns + j)%nat l + V k (Ns + Nd + j)%nat l) / 2 /\
      stage_stretch (fl m k) (out m k) (matof (oEa (out m (strain_stage k))) 0) (pos m) j l = V k (Ns + Nd + j)%nat l - V k (Ns + j)%nat l).
    { intros k j l Hk Hj Hl. destruct (KK k Hk) as [_ KB]. destruct (KB j Hj) as (B1 & B2 & _).
      assert (Hk' : (strain_stage k < 4)%nat) by (destruct k as [|[|k]]; cbn; lia).
      destruct (KK (strain_stage k) Hk') as [KA _]. destruct (KA 0%nat HNs) as (_ & A3 & _).
      assert (FW : forall y, flow_with (fl m k) (matof (oEa (out m (strain_stage k))) 0) y l = background k (strain (strain_stage k) 0%nat) y l).
      { intros y. unfold flow_with, background. apply flow_strain. intros b Hb. exact (A3 l b Hl Hb). }
      unfold stage_centre, stage_stretch, V. rewrite first_bead, second_bead by exact Hj. rewrite !FW, (B1 l Hl), (B2 l Hl).
      destruct (Nat.ltb_spec (Ns + j) Ns); [lia|]. destruct (Nat.ltb_spec (Ns + Nd + j) Ns); [lia|].
      unfold placed, viscosity, own. split; field. }
    assert (BK : forall b, (b < Ns + 2 * Nd)%nat -> (b < Ns)%nat \/ (exists j, (j < Nd)%nat /\ b = (Ns + j)%nat) \/ (exists j, (j < Nd)%nat /\ b = (Ns + Nd + j)%nat)).
    { intros b Hb. destruct (Nat.lt_ge_cases b Ns); [left; assumption|right]. destruct (Nat.lt_ge_cases b (Ns + Nd)); [left; exists (b - Ns)%nat|right; exists (b - Ns - Nd)%nat]; lia. }
    split; [exact Q0|]. split; [|split; [split; apply AD|split]].
    + intros k Hk. destruct k as [|k]; [rewrite Q0; split; reflexivity|]. destruct (MV k ltac:(lia) ltac:(lia)) as (Z1 & Z2 & _). split; assumption.
    + intros k b l Hk Hb Hl. destruct (MV k ltac:(lia) Hk) as (_ & _ & M1 & M2). destruct (BK b Hb) as [Hj|[(j & Hj & ->)|(j & Hj & ->)]].
      * destruct (M1 b Hj) as (y & LX & X & _). unfold beads_of. destruct (Nat.ltb_spec b Ns); [|lia].
        rewrite (landed_at inv3 g Hbox _ _ _ LX l Hl), (X l Hl), VS by (try assumption; lia). reflexivity.
      * destruct (M2 j Hj) as ((y & LX & X) & Y). destruct (VB k j l ltac:(lia) Hj Hl) as [V1 V2]. rewrite !first_bead by exact Hj. unfold bead_minus.
        unfold vsub, vadd, vscal. rewrite (landed_at inv3 g Hbox _ _ _ LX l Hl), (X l Hl), (Y l Hl), V1, V2. field.
      * destruct (M2 j Hj) as ((y & LX & X) & Y). destruct (VB k j l ltac:(lia) Hj Hl) as [V1 V2]. rewrite !second_bead by exact Hj. unfold bead_plus.
        unfold vsub, vadd, vscal. rewrite (landed_at inv3 g Hbox _ _ _ LX l Hl), (X l Hl), (Y l Hl), V1, V2. field.
    + intros b l Hb Hl. destruct AD as (_ & _ & M1 & M2). destruct (BK b Hb) as [Hj|[(j & Hj & ->)|(j & Hj & ->)]].
      * destruct (M1 b Hj) as (y & LX & X & _). unfold beads_of at 1 2. destruct (Nat.ltb_spec b Ns); [|lia]. rewrite andb_true_r.
        rewrite (landed_at inv3 g Hbox _ _ _ LX l Hl), (X l Hl). destruct (g_fully_2d g && Nat.eqb l 1)%bool; [reflexivity|].
        unfold mean4. rewrite !VS by (try assumption; lia). reflexivity.
      * destruct (M2 j Hj) as ((y & LX & X) & Y). destruct (Nat.ltb_spec (Ns + j) Ns); [lia|]. rewrite andb_false_r.
        rewrite !first_bead by exact Hj. unfold bead_minus, vsub, vadd, vscal. rewrite (landed_at inv3 g Hbox _ _ _ LX l Hl), (X l Hl), (Y l Hl). unfold mean4.
        rewrite !(fun k Hk => proj1 (VB k j l Hk Hj Hl)), !(fun k Hk => proj2 (VB k j l Hk Hj Hl)) by lia. field.
      * destruct (M2 j Hj) as ((y & LX & X) & Y). destruct (Nat.ltb_spec (Ns + Nd + j) Ns); [lia|]. rewrite andb_false_r.
        rewrite !second_bead by exact Hj. unfold bead_plus, vsub, vadd, vscal. rewrite (landed_at inv3 g Hbox _ _ _ LX l Hl), (X l Hl), (Y l Hl). unfold mean4.
        rewrite !(fun k Hk => proj1 (VB k j l Hk Hj Hl)), !(fun k Hk => proj2 (VB k j l Hk Hj Hl)) by lia. field.
  - intros m Hm. destruct (K m Hm) as (m' & _ & KK). unfold mean_forces, mean4. cbn [n_Fa n_Sa n_Fb n_DFb]. split; [|split].
    + intros j l Hj. rewrite !(fun k Hk => proj1 (proj2 (proj2 (proj1 (KK k Hk) j Hj))) l) by lia. reflexivity.
    + intros j k l Hj Hk Hl. rewrite !(fun k0 Hk0 => proj2 (proj2 (proj2 (proj1 (KK k0 Hk0) j Hj))) k l Hk Hl) by lia. ring.
    + intros j l Hj. rewrite !(fun k Hk => proj1 (proj2 (proj2 (proj2 (KK k Hk) j Hj))) l) by lia.
      rewrite !(fun k Hk => proj2 (proj2 (proj2 (proj2 (KK k Hk) j Hj))) l) by lia. split; reflexivity.
Qed.
End Runs.
