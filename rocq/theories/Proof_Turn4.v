(** Runs from turned configurations with turned inputs. *)
From Coq Require Import Reals List Arith Bool Lia Lra.
From Verif Require Import Base Py Model_Pack Model_Mob Model_Layout Model_Minf Model_Grand Model_Close Model_R2B Model_GrandP Model_Step
  Model_Output Model_Frame Model_Inputs Model_Sim
  Spec_Pack Spec_Layout Spec_Minf Spec_Convert Spec_Output Spec_Rotate Spec_Step Spec_Frame Spec_Posdef Spec_Run Spec_Turn
  Proof_Frame Proof_Frame2 Proof_Run2 Proof_Rotate8 Proof_Turn1 Proof_Turn2 Proof_Turn3.
Import ListNotations.
Local Open Scope R_scope.

Lemma Forall2_map {A B C} (R : B -> C -> Prop) (f : A -> B) (h : A -> C) l : (forall a, In a l -> R (f a) (h a)) -> Forall2 R (map f l) (map h l).
Proof. induction l as [|a l IH]; intros H; cbn [map]; constructor; [apply H; left; reflexivity|apply IH; intros; apply H; right; assumption]. Qed.

Section Runs.
Variable Q : mat.
Hypothesis HQ : orthogonal Q.
Variable inv : nat -> mat -> mat.
Variable inv3 : mat -> mat.
Variable solve : nat -> mat -> list R -> list R.
Variable sc : nat -> nat -> R -> nat -> R.
Variable table : list R.
Variable h : nat.
Variable stale : nat -> nat -> R.
Variables Ns Nd : nat.
Variable fm : form.
Variables bb minf_only : bool.
Variable cf : R.
Variable g : settings.
Variables input input' : config -> R -> res (inputs * flow).
Variables p0 p0' : config.
Notation n := (11 * Ns + 6 * Nd)%nat.
Notation N := (g_num_frames g).
Notation posed inp p := (posed_run inv inv3 solve sc table h stale Ns Nd fm bb minf_only cf g inp p).
Hypothesis Hcf : 0 < cf.
Hypothesis Hinv : inverts_posdef inv.
Hypothesis Hsolve : solves_posdef solve.
Hypothesis Hinv3 : inverts inv3.
Hypothesis HNs : (0 < Ns)%nat.
Hypothesis Hbox : no_box_g g.
Hypothesis H2d : g_fully_2d g = false.
Hypothesis Hstart : g_start g = 0%nat.
Hypothesis Hscheme : g_scheme g = euler \/ g_scheme g = ab2.
Hypothesis HI : input_turned Q Ns Nd input input'.
Hypothesis H0 : config_turned Q Ns Nd p0 p0'.
Hypothesis HA : oriented Ns p0.
Hypothesis HP : posed input p0.
Hypothesis HP' : posed input' p0'.

Definition reach inp p m c : Prop := exists st, run_frames inv3 Ns Nd (far_inverse inv h stale Ns Nd bb g inp)
    (solve_rest inv inv3 solve sc table h stale Ns Nd fm false bb minf_only cf g inp) g (fresh p) (seq 0 m) = Ok st /\ s_pos st = c.

Lemma p0'_oriented : oriented Ns p0'.
Proof.
  destruct H0 as (_ & _ & S & T & _). intros j k Hj Hk.
  pose proof (armed Ns p0 j k HA Hj Hk) as A.
  destruct (nz_turned Q HQ _ (vsub (c_srot p0' j k) (c_spos p0' j)) (vt_sub Q _ _ _ _ (T j k Hj Hk) (S j Hj)) A) as (l & Hl & E).
  exists l. split; [exact Hl|]. unfold vsub in E. lra.
Qed.

Section Frames.
Variables pos pos' : nat -> config.
Hypothesis Hr : forall m, (m <= N)%nat -> reach input p0 m (pos m).
Hypothesis Hr' : forall m, (m <= N)%nat -> reach input' p0' m (pos' m).

Lemma far_same m L L' : (m < N)%nat -> (forall k, (k <= m)%nat -> config_turned Q Ns Nd (pos k) (pos' k)) ->
  far_resistance h stale Ns Nd bb g input pos m L -> far_resistance h stale Ns Nd bb g input' pos' m L' -> commutes Q Ns Nd L L'.
Proof.
  intros Hm HT. unfold far_resistance. destruct (g_use_drag g) eqn:ED.
  - intros (i & f & E & _ & ->) (i' & f' & E' & _ & ->).
    destruct (HI _ _ _ _ _ _ _ (HT m (le_n m)) E E') as [_ (_ & _ & _ & Mu & _)]. rewrite Mu.
    apply drag_turned; [exact HQ|apply HT; lia].
  - intros (k & i & f & M & D & E & F & I) (k' & i' & f' & M' & D' & E' & F' & I').
    pose proof (latest_due_unique _ _ _ _ _ D D') as <-.
    assert (Hk : (k <= m)%nat) by (destruct D as ((_ & D) & _); lia).
    destruct (HI _ _ _ _ _ _ _ (HT k Hk) E E') as [_ (_ & _ & _ & Mu & Ub & Ub')].
    rewrite (proj1 F Ub) in I. rewrite (proj1 F' Ub') in I'. rewrite Mu in I'.
    refine (commutes_inv Q Ns Nd _ _ L L' I I' _).
    apply far_turned; [exact HQ|apply HT; exact Hk|].
    destruct HP as (_ & _ & _ & _ & HD). apply (HD (or_introl ED) k); [lia|apply Hr; lia].
Qed.
Lemma near_same m f f' i i' N0 N0' : (m < N)%nat -> config_turned Q Ns Nd (pos m) (pos' m) ->
  input (pos m) (INR m) = Ok (i, f) -> input' (pos' m) (INR m) = Ok (i', f') ->
  near_field inv3 sc table Ns Nd bb minf_only cf (pos m) f N0 -> near_field inv3 sc table Ns Nd bb minf_only cf (pos' m) f' N0' -> commutes Q Ns Nd N0 N0'.
Proof.
  intros Hm HT E E'. destruct (HI _ _ _ _ _ _ _ HT E E') as [_ (_ & _ & _ & Mu & Ub & Ub')].
  assert (HD : minf_only = false -> distinct_beads (Ns + 2 * Nd) (bead_positions (posdata_of Ns Nd (pos m))) (bead_sizes (posdata_of Ns Nd (pos m)))).
  { intros EM. destruct HP as (_ & _ & _ & _ & HD). apply (HD (or_intror EM) m); [lia|apply Hr; lia]. }
  unfold near_field. clear HP HP'. destruct minf_only.
  - intros -> -> v r Hr0. unfold mvec, mzero. rewrite rsum_zero by (intros; ring).
    destruct (Proof_Layout.block_cover Ns Nd r Hr0) as (k & p & c & V & Hc & ->).
    rewrite (Proof_Rotate5.turn_at Q Ns Nd) by assumption. symmetry. apply rsum_zero. intros. rewrite rsum_zero by (intros; ring). ring.
  - intros [A _] [A' _]. specialize (A Ub). specialize (A' Ub'). rewrite Mu in A'.
    exact (near_turned Q HQ Ns Nd (pos m) (pos' m) HT (HD eq_refl) sc table bb cf (f_mu f) N0 N0' Hcf A A').
Qed.

Lemma frame_turned m f o f' o' : (m < N)%nat -> (forall k, (k <= m)%nat -> config_turned Q Ns Nd (pos k) (pos' k)) ->
  solved inv3 sc table h stale Ns Nd fm bb minf_only cf g input pos m f o ->
  solved inv3 sc table h stale Ns Nd fm bb minf_only cf g input' pos' m f' o' ->
  flow_turned Q f f' /\ outputs_turned Q Ns Nd o o'.
Proof.
  intros Hm HT (i & L & N0 & E & F & G & A) (i' & L' & N0' & E' & F' & G' & A').
  destruct (HI _ _ _ _ _ _ _ (HT m (le_n m)) E E') as [IT FT]. split; [exact FT|].
  refine (answers_turned Q HQ Ns Nd fm i i' _ _ o o' IT A A' _ _).
  - apply commutes_add; [exact (far_same m L L' Hm HT F F')|].
    exact (near_same m f f' i i' N0 N0' Hm (HT m (le_n m)) E E' G G').
  - destruct HP' as (_ & _ & _ & HG & _). apply (HG m pos' i' f' L' N0' Hm); try assumption. intros k Hk. apply Hr'. lia.
Qed.
End Frames.

Theorem runs_turned s fs s' fs' :
  (0 < g_save_pos g)%nat -> (0 < g_save_forces g)%nat ->
  (g_save_after g mod g_save_pos g = 0)%nat -> (g_save_after g mod g_save_forces g = 0)%nat ->
  full_simulation inv inv3 solve sc table h stale Ns Nd fm false bb minf_only cf g input p0 = Ok (Some (s, fs)) ->
  full_simulation inv inv3 solve sc table h stale Ns Nd fm false bb minf_only cf g input' p0' = Ok (Some (s', fs')) ->
  Forall2 (snapshot_turned Q Ns Nd) s s' /\ Forall2 (forces_turned Q Ns Nd) fs fs'.
Proof.
  intros S1 S2 S3 S4 E E'. pose proof HP as (Q1 & Q2 & Q3 & Q4 & _). pose proof HP' as (R1 & R2 & R3 & R4 & _).
  destruct (whole_run inv inv3 solve sc table h stale Ns Nd fm false bb minf_only cf g input p0 Hinv Hsolve HNs eq_refl Hstart Hscheme Q1 Q2 Q3 Q4 s fs S1 S2 S3 S4 E)
    as (pos & fl & out & (P0 & Rc) & M & -> & ->).
  destruct (whole_run inv inv3 solve sc table h stale Ns Nd fm false bb minf_only cf g input' p0' Hinv Hsolve HNs eq_refl Hstart Hscheme R1 R2 R3 R4 s' fs' S1 S2 S3 S4 E')
    as (pos' & fl' & out' & (P0' & Rc') & M' & -> & ->).
  assert (INV : forall m, (m <= N)%nat -> (forall k, (k <= m)%nat -> config_turned Q Ns Nd (pos k) (pos' k)) /\ oriented Ns (pos m) /\ oriented Ns (pos' m)).
  { induction m as [|m IH]; intros Hm.
    - split; [|rewrite P0, P0'; split; [exact HA|exact p0'_oriented]].
      intros k Hk. replace k with 0%nat by lia. rewrite P0, P0'. exact H0.
    - destruct (IH ltac:(lia)) as (HT & A1 & A2). destruct (M m Hm) as [Sv Mv]. destruct (M' m Hm) as [Sv' Mv'].
      destruct (frame_turned pos pos' Rc Rc' m _ _ _ _ Hm HT Sv Sv') as [FT OT].
      split; [|split; [exact (step_oriented Ns Nd inv3 Hinv3 g Hbox m _ _ _ _ _ _ A1 Mv)|exact (step_oriented Ns Nd inv3 Hinv3 g Hbox m _ _ _ _ _ _ A2 Mv')]].
      intros k Hk. destruct (Nat.eq_dec k (S m)) as [->|]; [|apply HT; lia].
      refine (step_turned Q HQ Ns Nd inv3 Hinv3 g Hbox H2d HNs m _ _ _ _ _ _ _ _ _ _ _ _ FT OT (HT m (le_n m)) _ A1 A2 Mv Mv').
      intros Hm0 j Hj. destruct (M (m - 1)%nat ltac:(lia)) as [Pv _]. destruct (M' (m - 1)%nat ltac:(lia)) as [Pv' _].
      destruct (frame_turned pos pos' Rc Rc' (m - 1) _ _ _ _ ltac:(lia) ltac:(intros; apply HT; lia) Pv Pv') as [FT1 OT1].
      split; [|apply (spin_turned Q Ns Nd); assumption].
      apply (speed_turned Q HQ Ns Nd g H2d); try assumption. apply HT. lia. }
  assert (SN : forall m, (m <= N)%nat -> snapshot_turned Q Ns Nd (snap Ns (pos m)) (snap Ns (pos' m))).
  { intros m Hm. destruct (INV m Hm) as (HT & _). destruct (HT m (le_n m)) as (_ & _ & C1 & C2 & C3). split; [|split].
    - intros j Hj. cbn [snap n_pos]. unfold append_rows. destruct (Nat.ltb_spec j Ns); [apply C1; assumption|]. apply C3. lia.
    - exact C2.
    - intros d Hd. apply (C3 d Hd). }
  split.
  - apply Forall2_app.
    + apply Forall2_map. intros m Hm. apply SN. unfold due_frames in Hm. apply filter_In in Hm. destruct Hm as [Hm _]. apply in_seq in Hm. lia.
    + destruct (save_due _ _ _); constructor; [apply SN; lia|constructor].
  - apply Forall2_map. intros m Hm. unfold due_frames in Hm. apply filter_In in Hm. destruct Hm as [Hm _]. apply in_seq in Hm.
    destruct (INV m ltac:(lia)) as (HT & _). destruct (M m ltac:(lia)) as [Sv _]. destruct (M' m ltac:(lia)) as [Sv' _].
    destruct (frame_turned pos pos' Rc Rc' m _ _ _ _ ltac:(lia) HT Sv Sv') as [_ (O1 & O2)]. split.
    + intros j Hj. destruct (O1 j Hj) as (A & _ & B & _). split; assumption.
    + intros d Hd. destruct (O2 d Hd) as (A & B & _). split; assumption.
Qed.
End Runs.
