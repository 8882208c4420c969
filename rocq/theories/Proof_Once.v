(** Runge-Kutta frames that use one far field throughout. *)
From Coq Require Import Reals List Arith Bool Lia Lra FunctionalExtensionality.
From Verif Require Import Base Py Model_Pack Model_Mob Model_Layout Model_Minf Model_Grand Model_Close Model_R2B Model_GrandP Model_Step
  Model_Output Model_Frame Model_Inputs Model_Sim
  Spec_Pack Spec_Layout Spec_Minf Spec_Convert Spec_Output Spec_Rotate Spec_Step Spec_Frame Spec_Posdef Spec_Run Spec_Run4 Spec_Turn Spec_Turn4 Spec_Once
  Proof_Frame Proof_Frame2 Proof_Run2 Proof_Run4 Proof_Rotate8 Proof_Turn1 Proof_Turn2 Proof_Turn3 Proof_Turn4 Proof_Turn5 Proof_Renumber4 Proof_Renumber5.
Import ListNotations.
Local Open Scope R_scope.

Lemma inputs_self i : given_st (i_Sa i) -> given_st (i_Ea i) -> inputs_turned one i i.
Proof.
  intros A B. unfold inputs_turned, rows_turned, pseudo_rows_turned, tensors_turned.
  repeat match goal with |- _ /\ _ => split end; try assumption; apply lists_self; intros; first [apply one_vec_same|apply one_pseudo|apply one_mat].
Qed.
Lemma commutes_self Ns Nd M : commutes one Ns Nd M M.
Proof.
  intros f r Hr. rewrite (one_turn Ns Nd) by exact Hr. unfold mvec. apply rsum_ext. intros t Ht.
  rewrite (one_turn Ns Nd) by exact Ht. reflexivity.
Qed.

(** One solution. *)
Definition out_same (Ns Nd : nat) (o o' : outputs) : Prop :=
  (forall j, (j < Ns)%nat ->
     (forall l, (l < 3)%nat -> rowof (Model_Output.o_Fa o') j l = rowof (Model_Output.o_Fa o) j l /\
        rowof (Model_Output.o_Ua o') j l = rowof (Model_Output.o_Ua o) j l /\ rowof (Model_Output.o_Oa o') j l = rowof (Model_Output.o_Oa o) j l) /\
     (forall k l, (k < 3)%nat -> (l < 3)%nat -> matof (Model_Output.o_Sa o') j k l = matof (Model_Output.o_Sa o) j k l /\
        matof (Model_Output.o_Ea o') j k l = matof (Model_Output.o_Ea o) j k l)) /\
  (forall d l, (d < Nd)%nat -> (l < 3)%nat ->
     rowof (Model_Output.o_Fb o') d l = rowof (Model_Output.o_Fb o) d l /\ rowof (Model_Output.o_DFb o') d l = rowof (Model_Output.o_DFb o) d l /\
     rowof (Model_Output.o_Ub o') d l = rowof (Model_Output.o_Ub o) d l /\ rowof (Model_Output.o_HalfDUb o') d l = rowof (Model_Output.o_HalfDUb o) d l).
Lemma turned_same Ns Nd o o' : outputs_turned one Ns Nd o o' -> out_same Ns Nd o o'.
Proof.
  intros [A B]. split.
  - intros j Hj. destruct (A j Hj) as (A1 & _ & A3 & A4 & A5 & A6). split.
    + intros l Hl. split; [apply one_out; assumption|]. split; [apply one_out; assumption|]. rewrite (A5 l Hl), one_det, one_rot by exact Hl. ring.
    + intros k l Hk Hl. split; apply one_mat_out; assumption.
  - intros d l Hd Hl. destruct (B d Hd) as (B1 & B2 & B3 & B4). repeat split; apply one_out; assumption.
Qed.
Lemma answers_same Ns Nd fm i R0 o o' : given_st (i_Sa i) -> given_st (i_Ea i) -> pos_def (11 * Ns + 6 * Nd) R0 ->
  answers Ns Nd fm i R0 o -> answers Ns Nd fm i R0 o' -> out_same Ns Nd o o'.
Proof.
  intros G1 G2 P A A'. apply turned_same.
  exact (answers_turned one one_orthogonal Ns Nd fm i i R0 R0 o o' (inputs_self i G1 G2) A A' (commutes_self Ns Nd R0) P).
Qed.

Lemma mean4_same c a : (forall k, (k < 4)%nat -> a k = c) -> mean4 a = c.
Proof. intros H. unfold mean4. rewrite !H by lia. field. Qed.

Lemma flow_ext f A B x l : (l < 3)%nat -> (forall k l, (k < 3)%nat -> (l < 3)%nat -> B k l = A k l) -> flow_with f B x l = flow_with f A x l.
Proof.
  intros Hl H. unfold flow_with, linear_flow, mvec, vadd. f_equal. apply rsum_ext. intros c Hc. rewrite H by assumption. reflexivity.
Qed.
Lemma flow_add f A x l : flow_with f A x l = linear_flow (f_U f) (f_O f) A (f_centre f) x l.
Proof. reflexivity. Qed.

Lemma rodrigues_same w w' t v l : (l < 3)%nat -> (forall c, (c < 3)%nat -> w c = w' c) -> rodrigues w (norm w * t) v l = rodrigues w' (norm w' * t) v l.
Proof.
  intros Hl H. assert (N : norm w = norm w') by (unfold norm; rewrite !H by lia; reflexivity).
  unfold rodrigues. rewrite N. unfold dot3, cross, vscal. rewrite !H by lia. reflexivity.
Qed.

Section Once.
Variable inv : nat -> mat -> mat.
Variable inv3 : mat -> mat.
Variable solve : nat -> mat -> list R -> list R.
Variable sc : nat -> nat -> R -> nat -> R.
Variable table : list R.
Variable h : nat.
Variable stale : nat -> nat -> R.
Variables Ns Nd : nat.
Variable fm : form.
Variable bb : bool.
Variable cf : R.
Variable g : settings.
Variable input : config -> R -> res (inputs * flow).
Notation n := (11 * Ns + 6 * Nd)%nat.
Notation stg := (stages inv3 sc table h stale Ns Nd fm bb true cf g input).
Hypothesis HNs : (0 < Ns)%nat.
Hypothesis Hbox : no_box_g g.
Hypothesis Hsteady : steady input.
Hypothesis Hgiven : forall p t i f, input p t = Ok (i, f) -> given_st (i_Sa i) /\ given_st (i_Ea i).

Lemma stage_sizes pos m q L fl o k : stg pos m 4 q L fl o -> (k < 4)%nat -> c_ssizes (q k) = c_ssizes (pos m) /\ c_dsizes (q k) = c_dsizes (pos m).
Proof.
  intros (Q0 & _ & MV) Hk. destruct k as [|k]; [rewrite Q0; auto|].
  destruct (MV k ltac:(lia) ltac:(lia)) as (A & B & _). auto.
Qed.

Lemma drag_sizes q q' mu : c_ssizes q = c_ssizes q' -> c_dsizes q = c_dsizes q' ->
  drag_Minfinity_inverse (posdata_of Ns Nd q) mu = drag_Minfinity_inverse (posdata_of Ns Nd q') mu.
Proof. intros A B. unfold drag_Minfinity_inverse, posdata_of. cbn [num_spheres num_dumbbells sphere_sizes dumbbell_sizes]. rewrite A, B. reflexivity. Qed.

Lemma one_far pos m q L fl o k : stg pos m 4 q L fl o -> one_far_field g m -> (k < 4)%nat -> L k = L 0%nat.
Proof.
  intros ST OF Hk. destruct k as [|k]; [reflexivity|]. pose proof ST as (Q0 & SV & _).
  destruct (SV 0%nat ltac:(lia)) as [F0 _]. destruct (SV (S k) Hk) as [[FA FB] _]. cbn [stage_far] in F0. unfold far_resistance in F0.
  destruct (g_use_drag g) eqn:ED.
  - specialize (FA (or_introl eq_refl)). unfold far_of in FA. rewrite ED in FA. destruct FA as (i & f & E & _ & ->).
    destruct F0 as (i0 & f0 & E0 & _ & ->). rewrite (Hsteady _ (pos m) _ (INR m)), E0 in E. injection E as <- <-.
    destruct (stage_sizes pos m q L fl o (S k) ST Hk) as [A B]. apply drag_sizes; assumption.
  - apply FB; [reflexivity|]. destruct OF as [OF|OF]; [congruence|exact OF].
Qed.

Theorem once_frame pos m q L fl o :
  stg pos m 4 q L fl o -> one_far_field g m -> pos_def n (fun a b => L 0%nat a b + mzero a b) ->
  advanced inv3 Ns Nd g fl o (pos m) (pos (S m)) ->
  solved inv3 sc table h stale Ns Nd fm bb true cf (as_euler g) input pos m (fl 0%nat) (o 0%nat) /\
  (forall V W, moved_on inv3 Ns Nd (as_euler g) m (fl 0%nat) (o 0%nat) V W (pos m) (pos (S m))) /\
  forces_same Ns Nd (forces_of (o 0%nat)) (mean_forces o).
Proof.
  intros ST OF PD AD. pose proof ST as (Q0 & SV & MV).
  destruct (SV 0%nat ltac:(lia)) as [F0 (i & N0 & E0 & NF0 & A0)]. unfold near_field in NF0. subst N0.
  assert (K : forall k, (k < 4)%nat -> fl k = fl 0%nat /\ out_same Ns Nd (o 0%nat) (o k)).
  { intros k Hk. destruct (SV k Hk) as [_ (i' & N' & E' & NF' & A')]. unfold near_field in NF'. subst N'.
    rewrite (Hsteady _ (q 0%nat) _ (stage_time m 0)), E0 in E'. injection E' as <- <-. split; [reflexivity|].
    rewrite (one_far pos m q L fl o k ST OF Hk) in A'. destruct (Hgiven _ _ _ _ E0) as [G1 G2].
    exact (answers_same Ns Nd fm i _ (o 0%nat) (o k) G1 G2 PD A0 A'). }
  assert (SS : forall k, (k < 4)%nat -> (strain_stage k < 4)%nat) by (intros k Hk; destruct k as [|[|k]]; cbn; lia).
  assert (KE : forall k x l, (k < 4)%nat -> (l < 3)%nat ->
     flow_with (fl k) (matof (Model_Output.o_Ea (o (strain_stage k))) 0) x l = bead_flow (fl 0%nat) (o 0%nat) x l).
  { intros k x l Hk Hl. destruct (K k Hk) as [-> _]. unfold bead_flow. rewrite <- flow_add. apply flow_ext; [exact Hl|].
    intros a b Ha Hb. destruct (K (strain_stage k) (SS k Hk)) as [_ [A _]]. apply (A 0%nat HNs); assumption. }
  split; [|split].
  - exists i, (L 0%nat), mzero. rewrite Q0 in E0. split; [exact E0|]. split; [exact F0|]. split; [reflexivity|exact A0].
  - intros V W. destruct AD as (Z1 & Z2 & M1 & M2). split; [exact Z1|]. split; [exact Z2|]. cbn [as_euler g_scheme g_dt]. split.
    + intros j Hj. destruct (M1 j Hj) as (x & LX & X & TN). pose proof (landed_at inv3 g Hbox _ _ _ LX) as LA.
      exists x. split; [exact LX|]. split.
      * intros l Hl. rewrite (X l Hl). f_equal. f_equal. unfold sphere_speed. cbn [as_euler g_fully_2d].
        destruct (g_fully_2d g && Nat.eqb l 1)%bool; [reflexivity|]. apply mean4_same. intros k Hk.
        unfold stage_speed. destruct (K k Hk) as [-> [A _]]. destruct (A j Hj) as [A1 A2].
        destruct (A1 l Hl) as (_ & -> & _). f_equal. rewrite <- !flow_add. apply flow_ext; [exact Hl|]. intros a b Ha Hb. apply A2; assumption.
      * intros k I3 NZ l Hl. specialize (TN k I3 NZ l Hl).
        assert (W3 : forall c, (c < 3)%nat -> mean4 (fun k0 => sphere_spin (fl k0) (o k0) j c) = sphere_spin (fl 0%nat) (o 0%nat) j c).
        { intros c Hc. apply mean4_same. intros k0 Hk0. unfold sphere_spin. destruct (K k0 Hk0) as [-> [A _]]. destruct (A j Hj) as [A1 _].
          destruct (A1 c Hc) as (_ & _ & ->). reflexivity. }
        unfold vsub in TN |- *. rewrite (LA l Hl) in TN. rewrite TN. cbn [g_dt as_euler]. apply rodrigues_same; assumption.
    + intros j Hj. destruct (M2 j Hj) as ((x & LX & X) & D). split.
      * exists x. split; [exact LX|]. intros l Hl. rewrite (X l Hl). f_equal. f_equal. apply mean4_same. intros k Hk.
        unfold stage_centre, centre_speed. rewrite !KE by assumption. destruct (K k Hk) as [_ [_ B]]. destruct (B j l Hj Hl) as (_ & _ & -> & _). reflexivity.
      * intros l Hl. rewrite (D l Hl). f_equal. f_equal. apply mean4_same. intros k Hk.
        unfold stage_stretch, stretch_speed. rewrite !KE by assumption. destruct (K k Hk) as [_ [_ B]]. destruct (B j l Hj Hl) as (_ & _ & _ & ->). reflexivity.
  - split; [|split].
    + intros j l Hj Hl. cbn [n_Fa mean_forces forces_of]. apply mean4_same. intros k Hk. destruct (K k Hk) as [_ [A _]]. apply (A j Hj); assumption.
    + intros j a l Hj Ha Hl. cbn [n_Sa mean_forces forces_of]. apply mean4_same. intros k Hk. destruct (K k Hk) as [_ [A _]]. apply (A j Hj); assumption.
    + intros d l Hd Hl. cbn [n_Fb n_DFb mean_forces forces_of]. split; apply mean4_same; intros k Hk; destruct (K k Hk) as [_ [_ B]]; apply (B d l Hd Hl).
Qed.
End Once.

Section Runs.
Variable inv : nat -> mat -> mat.
Variable inv3 : mat -> mat.
Variable solve : nat -> mat -> list R -> list R.
Variable sc : nat -> nat -> R -> nat -> R.
Variable table : list R.
Variable h : nat.
Variable stale : nat -> nat -> R.
Variables Ns Nd : nat.
Variable fm : form.
Variable bb : bool.
Variable cf : R.
Variable g : settings.
Variable input : config -> R -> res (inputs * flow).
Variable p0 : config.
Notation n := (11 * Ns + 6 * Nd)%nat.
Notation N := (g_num_frames g).
Hypothesis Hinv : inverts_posdef inv.
Hypothesis Hsolve : solves_posdef solve.
Hypothesis HNs : (0 < Ns)%nat.
Hypothesis Hstart : g_start g = 0%nat.
Hypothesis Hsch : g_scheme g = rk4.
Hypothesis Hbox : no_box_g g.
Hypothesis S1 : (0 < g_save_pos g)%nat.
Hypothesis S2 : (0 < g_save_forces g)%nat.
Hypothesis S3 : (g_save_after g mod g_save_pos g = 0)%nat.
Hypothesis S4 : (g_save_after g mod g_save_forces g = 0)%nat.
Hypothesis Hsteady : steady input.
Hypothesis Hgiven : forall p t i f, input p t = Ok (i, f) -> given_st (i_Sa i) /\ given_st (i_Ea i).
Hypothesis HP4 : posed_run4 inv inv3 solve sc table h stale Ns Nd fm bb true cf g input p0.

Theorem once_run s fs :
  full_simulation inv inv3 solve sc table h stale Ns Nd fm false bb true cf g input p0 = Ok (Some (s, fs)) ->
  exists pos q L fl out,
    pos 0%nat = p0 /\
    (forall m, (m < N)%nat -> stages inv3 sc table h stale Ns Nd fm bb true cf g input pos m 4 (q m) (L m) (fl m) (out m) /\
       advanced inv3 Ns Nd g (fl m) (out m) (pos m) (pos (S m))) /\
    (forall m, (m < N)%nat -> one_far_field g m ->
       solved inv3 sc table h stale Ns Nd fm bb true cf (as_euler g) input pos m (fl m 0%nat) (out m 0%nat) /\
       (forall V W, moved_on inv3 Ns Nd (as_euler g) m (fl m 0%nat) (out m 0%nat) V W (pos m) (pos (S m))) /\
       forces_same Ns Nd (forces_of (out m 0%nat)) (mean_forces (out m)) /\
       pos_def n (fun a b => L m 0%nat a b + mzero a b) /\ far_resistance h stale Ns Nd bb g input pos m (L m 0%nat) /\
       exists i, input (pos m) (INR m) = Ok (i, fl m 0%nat) /\ answers Ns Nd fm i (fun a b => L m 0%nat a b + mzero a b) (out m 0%nat)) /\
    s = map (fun m => snap Ns (pos m)) (due_frames (g_save_pos g) (g_save_after g) N)
        ++ (if save_due (g_save_pos g) (g_save_after g) (N - 1) then [snap Ns (pos N)] else []) /\
    fs = map (fun m => mean_forces (out m)) (due_frames (g_save_forces g) (g_save_after g) N).
Proof.
  intros E. pose proof HP4 as (Hq & Hp & _).
  destruct (whole_run_reached inv inv3 solve sc table h stale Ns Nd fm bb true cf g input p0 Hinv Hsolve HNs Hstart Hsch Hq Hp s fs S1 S2 S3 S4 E)
    as (pos & q & L & fl & out & (P0 & RC) & M & E1 & E2).
  exists pos, q, L, fl, out. split; [exact P0|]. split; [exact M|]. split; [|split; assumption].
  intros m Hm OF. destruct (M m Hm) as [ST AD]. pose proof ST as (Q0 & SV & _).
  destruct (SV 0%nat ltac:(lia)) as [F0 (i & N0 & E0 & NF & A0)]. unfold near_field in NF. subst N0.
  assert (PD : pos_def n (fun a b => L m 0%nat a b + mzero a b)).
  { assert (ST0 : stages inv3 sc table h stale Ns Nd fm bb true cf g input pos m 0 (q m) (L m) (fl m) (out m)).
    { split; [exact Q0|]. split; intros; lia. }
    destruct (Hp m pos 0%nat (q m) (L m) (fl m) (out m) Hm ltac:(lia) ltac:(intros; apply RC; lia) ST0 i (fl m 0%nat) E0) as (_ & _ & PD).
    apply PD; [exact F0|reflexivity]. }
  destruct (once_frame inv3 sc table h stale Ns Nd fm bb cf g input HNs Hbox Hsteady Hgiven pos m (q m) (L m) (fl m) (out m) ST OF PD AD) as (B1 & B2 & B3).
  split; [exact B1|]. split; [exact B2|]. split; [exact B3|]. split; [exact PD|]. split; [exact F0|].
  exists i. rewrite <- Q0. auto.
Qed.

Hypothesis Hinv3 : inverts inv3.
Hypothesis Hor : oriented Ns p0.
Hypothesis H2d : g_fully_2d g = false.
Hypothesis Hub : forall p t i f, input p t = Ok (i, f) -> unbounded f.
Hypothesis Hone : forall m, (m < N)%nat -> one_far_field g m.
Hypothesis HPe : posed_run inv inv3 solve sc table h stale Ns Nd fm bb true cf (as_euler g) input p0.

Lemma config_self p : config_turned one Ns Nd p p.
Proof. split; [reflexivity|]. split; [reflexivity|]. split; [|split]; intros; try split; apply one_vec_same. Qed.

Theorem once_euler s fs s' fs' :
  full_simulation inv inv3 solve sc table h stale Ns Nd fm false bb true cf (as_euler g) input p0 = Ok (Some (s, fs)) ->
  full_simulation inv inv3 solve sc table h stale Ns Nd fm false bb true cf g input p0 = Ok (Some (s', fs')) ->
  Forall2 (snapshot_same Ns Nd) s s' /\ Forall2 (forces_same Ns Nd) fs fs'.
Proof.
  intros E E'. pose proof HPe as (Q1 & Q2 & Q3 & Q4 & Q5).
  destruct (whole_run inv inv3 solve sc table h stale Ns Nd fm false bb true cf (as_euler g) input p0 Hinv Hsolve HNs eq_refl Hstart (or_introl eq_refl)
    Q1 Q2 Q3 Q4 s fs S1 S2 S3 S4 E) as (pos & fl & out & (P0 & Rc) & M & -> & ->).
  destruct (once_run s' fs' E') as (pos' & q' & L' & fl' & out' & P0' & _ & M' & -> & ->).
  cbn [as_euler g_num_frames] in *.
  assert (FR : forall m, (m < N)%nat -> (forall k, (k <= m)%nat -> config_turned one Ns Nd (pos k) (pos' k)) ->
    flow_turned one (fl m) (fl' m 0%nat) /\ outputs_turned one Ns Nd (out m) (out' m 0%nat)).
  { intros m Hm HT. destruct (M m Hm) as [(i & L & N0 & EI & F & NF & A) _]. unfold near_field in NF. subst N0.
    destruct (M' m Hm (Hone m Hm)) as (_ & _ & _ & PD & F' & i' & EI' & A').
    rewrite (Hsteady _ (pos m) _ (INR m)), EI in EI'. injection EI' as <- <-.
    destruct (Hgiven _ _ _ _ EI) as [G1 G2]. pose proof (Hub _ _ _ _ EI) as UB. split.
    - split; [apply one_vec_same|]. split; [apply one_pseudo|]. split; [apply one_vec_same|]. auto.
    - refine (answers_turned one one_orthogonal Ns Nd fm i i _ _ (out m) (out' m 0%nat) (inputs_self i G1 G2) A A' _ PD).
      apply commutes_add; [|apply commutes_self].
      unfold far_resistance in F, F'. cbn [as_euler g_use_drag g_invert_every] in F. destruct (g_use_drag g) eqn:ED.
      + destruct F as (i1 & f1 & E1 & _ & ->). destruct F' as (i2 & f2 & E2 & _ & ->).
        rewrite (Hsteady _ (pos m) _ (INR m)), E1 in E2. injection E2 as <- <-.
        apply drag_turned; [exact one_orthogonal|apply HT; lia].
      + destruct F as (k & i1 & f1 & M1 & D & E1 & FM & IV). destruct F' as (k' & i2 & f2 & M2 & D' & E2 & FM' & IV').
        pose proof (latest_due_unique _ _ _ _ _ D D') as <-. assert (Hk : (k <= m)%nat) by (destruct D as ((_ & D) & _); lia).
        rewrite (Hsteady _ (pos k) _ (INR k)), E1 in E2. injection E2 as <- <-.
        pose proof (Hub _ _ _ _ E1) as U1. rewrite (proj1 FM U1) in IV. rewrite (proj1 FM' U1) in IV'.
        refine (commutes_inv one Ns Nd _ _ L (L' m 0%nat) IV IV' _).
        apply far_turned; [exact one_orthogonal|apply HT; exact Hk|].
        apply (Q5 (or_introl ED) k); [lia|apply Rc; lia]. }
  assert (INV : forall m, (m <= N)%nat -> (forall k, (k <= m)%nat -> config_turned one Ns Nd (pos k) (pos' k)) /\ oriented Ns (pos m) /\ oriented Ns (pos' m)).
  { induction m as [|m IH]; intros Hm.
    - split; [|rewrite P0, P0'; split; exact Hor]. intros k Hk. replace k with 0%nat by lia. rewrite P0, P0'. apply config_self.
    - destruct (IH ltac:(lia)) as (HT & A1 & A2). destruct (M m Hm) as [_ Mv]. destruct (M' m Hm (Hone m Hm)) as (_ & Mv' & _).
      destruct (FR m Hm HT) as [FT OT].
      assert (Bx : no_box_g (as_euler g)) by exact Hbox.
      split; [|split; [exact (step_oriented Ns Nd inv3 Hinv3 (as_euler g) Bx m _ _ _ _ _ _ A1 Mv)
                      |exact (step_oriented Ns Nd inv3 Hinv3 (as_euler g) Bx m _ _ _ _ _ _ A2 (Mv' (fun _ _ => 0) (fun _ _ => 0)))]].
      intros k Hk. destruct (Nat.eq_dec k (S m)) as [->|]; [|apply HT; lia].
      assert (Mw : moved_on inv3 Ns Nd (as_euler g) m (fl m) (out m) (fun _ _ => 0) (fun _ _ => 0) (pos m) (pos (S m))) by exact Mv.
      refine (step_turned one one_orthogonal Ns Nd inv3 Hinv3 (as_euler g) Bx H2d HNs m _ _ _ _ _ _ _ _ _ _ _ _ FT OT (HT m (le_n m)) _ A1 A2 Mw (Mv' (fun _ _ => 0) (fun _ _ => 0))).
      intros _ j Hj. split; [apply one_vec_same|apply one_pseudo]. }
  assert (SN : forall m, (m <= N)%nat -> snapshot_same Ns Nd (snap Ns (pos m)) (snap Ns (pos' m))).
  { intros m Hm. destruct (INV m Hm) as (HT & _). destruct (HT m (le_n m)) as (_ & _ & C1 & C2 & C3). split; [|split].
    - intros j l Hj Hl. cbn [snap n_pos]. unfold append_rows. destruct (Nat.ltb_spec j Ns); apply one_out; try assumption; [apply C1; assumption|apply C3; lia].
    - intros j k l Hj Hk Hl. apply one_out; [apply C2; assumption|assumption].
    - intros d l Hd Hl. apply one_out; [apply C3; assumption|assumption]. }
  split.
  - apply Forall2_app.
    + apply Forall2_map. intros m Hm. unfold due_frames in Hm. apply filter_In in Hm. destruct Hm as [Hm _]. apply in_seq in Hm. apply SN. lia.
    + destruct (save_due _ _ _); constructor; [apply SN; lia|constructor].
  - apply Forall2_map. intros m Hm. unfold due_frames in Hm. apply filter_In in Hm. destruct Hm as [Hm _]. apply in_seq in Hm.
    destruct (INV m ltac:(lia)) as (HT & _). destruct (FR m ltac:(lia) HT) as [_ OT]. apply turned_same in OT. destruct OT as [OA OB].
    destruct (M' m ltac:(lia) (Hone m ltac:(lia))) as (_ & _ & (K1 & K2 & K3) & _). split; [|split].
    + intros j l Hj Hl. rewrite (K1 j l Hj Hl). apply (OA j Hj); assumption.
    + intros j k l Hj Hk Hl. rewrite (K2 j k l Hj Hk Hl). apply (OA j Hj); assumption.
    + intros d l Hd Hl. destruct (K3 d l Hd Hl) as [-> ->]. split; apply (OB d l Hd Hl).
Qed.
End Runs.
