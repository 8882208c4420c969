(** Runge-Kutta runs from turned configurations with turned inputs. *)
From Coq Require Import Reals List Arith Bool Lia Lra Classical.
From Verif Require Import Base Py Model_Pack Model_Mob Model_Layout Model_Minf Model_Grand Model_Close Model_R2B Model_GrandP Model_Step
  Model_Output Model_Frame Model_Inputs Model_Sim
  Spec_Pack Spec_Layout Spec_Minf Spec_Convert Spec_Output Spec_Rotate Spec_Step Spec_Frame Spec_Posdef Spec_Run Spec_Run4 Spec_Turn Spec_Turn4
  Proof_Step Proof_Step2 Proof_Frame Proof_Frame2 Proof_Run2 Proof_Run4 Proof_Rotate8 Proof_Turn1 Proof_Turn2 Proof_Turn3 Proof_Turn4.
Import ListNotations.
Local Open Scope R_scope.

Section Turn.
Variable Q : mat.
Hypothesis HQ : orthogonal Q.
Variables Ns Nd : nat.
Variable inv3 : mat -> mat.
Hypothesis Hinv3 : inverts inv3.
Variable g : settings.
Hypothesis Hbox : no_box_g g.
Hypothesis H2d : g_fully_2d g = false.
Hypothesis HNs : (0 < Ns)%nat.

Lemma centre_of ta f x y : landed inv3 g f x y -> forall l, (l < 3)%nat -> (if ta : bool then y else x) l = x l.
Proof. intros L l Hl. destruct ta; [exact (landed_at inv3 g Hbox _ _ _ L l Hl)|reflexivity]. Qed.

Lemma moved_oriented ta t f U W B D p q : oriented Ns p -> moved_by inv3 Ns Nd g ta t f U W B D p q -> oriented Ns q.
Proof.
  intros A (_ & _ & M & _) j k Hj Hk. destruct (M j Hj) as (x & L & _ & T). pose proof (armed Ns p j k A Hj Hk) as NZ.
  specialize (T k Hinv3 NZ). pose proof (landed_at inv3 g Hbox _ _ _ L) as L'.
  destruct (nz_rodrigues (W j) t _ NZ) as (l & Hl & E).
  exists l. split; [exact Hl|]. rewrite <- (T l Hl) in E. unfold vsub in E. rewrite (centre_of ta _ _ _ L l Hl) in E. rewrite (L' l Hl). lra.
Qed.

Lemma moved_turned ta t f U W B D p q f' U' W' B' D' p' q' :
  (forall j, (j < Ns)%nat -> vec_turned Q (U j) (U' j) /\ pseudo_turned Q (W j) (W' j)) ->
  (forall d, (d < Nd)%nat -> vec_turned Q (B d) (B' d) /\ vec_turned Q (D d) (D' d)) ->
  config_turned Q Ns Nd p p' -> oriented Ns p -> oriented Ns p' ->
  moved_by inv3 Ns Nd g ta t f U W B D p q -> moved_by inv3 Ns Nd g ta t f' U' W' B' D' p' q' -> config_turned Q Ns Nd q q'.
Proof.
  intros SP DP (Y1 & Y2 & PS & PR & PD) HA HA' (Z1 & Z2 & M1 & M2) (Z1' & Z2' & M1' & M2').
  split; [congruence|]. split; [congruence|]. split; [|split].
  - intros j Hj. destruct (M1 j Hj) as (x & L & X & _). destruct (M1' j Hj) as (x' & L' & X' & _).
    apply (vt_ext Q _ _ _ _ (landed_at inv3 g Hbox _ _ _ L) (landed_at inv3 g Hbox _ _ _ L')). apply (vt_ext Q _ _ _ _ X X').
    apply vt_add; [apply PS; exact Hj|]. apply vt_scal. apply SP. exact Hj.
  - intros j k Hj Hk. destruct (M1 j Hj) as (x & L & X & T). destruct (M1' j Hj) as (x' & L' & X' & T').
    specialize (T k Hinv3 (armed Ns p j k HA Hj Hk)). specialize (T' k Hinv3 (armed Ns p' j k HA' Hj Hk)).
    assert (XT : vec_turned Q x x').
    { apply (vt_ext Q _ _ _ _ X X'). apply vt_add; [apply PS; exact Hj|]. apply vt_scal. apply SP. exact Hj. }
    match type of T with forall l, _ -> _ = ?r l => match type of T' with forall l, _ -> _ = ?r' l =>
      apply (vt_ext Q _ (fun l => x l + r l) _ (fun l => x' l + r' l)) end end.
    + intros l Hl. rewrite <- (T l Hl). unfold vsub. rewrite (centre_of ta _ _ _ L l Hl). ring.
    + intros l Hl. rewrite <- (T' l Hl). unfold vsub. rewrite (centre_of ta _ _ _ L' l Hl). ring.
    + apply vt_add; [exact XT|]. apply rodrigues_turned; [exact HQ|apply SP; exact Hj|]. apply vt_sub; [apply PR; assumption|apply PS; exact Hj].
  - intros d Hd. destruct (M2 d Hd) as ((x & L & X) & S). destruct (M2' d Hd) as ((x' & L' & X') & S').
    destruct (PD d Hd) as [D1 D2]. destruct (DP d Hd) as [E1 E2]. split.
    + apply (vt_ext Q _ _ _ _ (landed_at inv3 g Hbox _ _ _ L) (landed_at inv3 g Hbox _ _ _ L')). apply (vt_ext Q _ _ _ _ X X').
      apply vt_add; [exact D1|apply vt_scal; exact E1].
    + apply (vt_ext Q _ _ _ _ S S'). apply vt_add; [exact D2|apply vt_scal; exact E2].
Qed.

Lemma stage_spheres_turned f o p f' o' p' j : flow_turned Q f f' -> outputs_turned Q Ns Nd o o' -> config_turned Q Ns Nd p p' -> (j < Ns)%nat ->
  vec_turned Q (stage_speed f o p j) (stage_speed f' o' p' j) /\ pseudo_turned Q (sphere_spin f o j) (sphere_spin f' o' j).
Proof.
  intros F O C Hj. split; [|apply (spin_turned Q Ns Nd); assumption].
  destruct F as (F1 & F2 & F3 & _). destruct O as (O1 & _). destruct C as (_ & _ & C1 & _). destruct (O1 j Hj) as (_ & _ & _ & U & _ & E).
  unfold stage_speed. apply vt_add; [exact U|]. apply flow_at_turned; auto.
Qed.
Lemma stage_dumbbells_turned f o A p f' o' A' p' d : flow_turned Q f f' -> outputs_turned Q Ns Nd o o' -> mat_turned Q A A' ->
  config_turned Q Ns Nd p p' -> (d < Nd)%nat ->
  vec_turned Q (stage_centre f o A p d) (stage_centre f' o' A' p' d) /\ vec_turned Q (stage_stretch f o A p d) (stage_stretch f' o' A' p' d).
Proof.
  intros (F1 & F2 & F3 & _) (_ & O2) HA (_ & _ & _ & _ & PD) Hd. destruct (O2 d Hd) as (_ & _ & U & H). destruct (PD d Hd) as [D1 D2].
  destruct (beads_turned Q _ _ _ _ D1 D2) as [B1 B2].
  assert (G : forall x x', vec_turned Q x x' -> vec_turned Q (flow_with f A x) (flow_with f' A' x')).
  { intros x x' X. unfold flow_with. apply (flow_at_turned Q HQ); assumption. }
  pose proof (G _ _ B1) as G1. pose proof (G _ _ B2) as G2. unfold stage_centre, stage_stretch.
  set (b1 := flow_with f A (bead_minus (c_dpos p d) (c_ddx p d))) in *. set (b2 := flow_with f A (bead_plus (c_dpos p d) (c_ddx p d))) in *.
  set (b1' := flow_with f' A' (bead_minus (c_dpos p' d) (c_ddx p' d))) in *. set (b2' := flow_with f' A' (bead_plus (c_dpos p' d) (c_ddx p' d))) in *.
  split.
  - apply vt_add; [exact U|].
    apply (vt_ext Q _ (fun l => / 2 * (b1 l + b2 l)) _ (fun l => / 2 * (b1' l + b2' l))); try (intros; field).
    apply vt_scal, vt_add; assumption.
  - apply vt_add; [apply vt_scal; exact H|]. apply (vt_sub Q b2 b1 b2' b1'); assumption.
Qed.
Lemma mean_vt (a a' : nat -> vec) : (forall k, (k < 4)%nat -> vec_turned Q (a k) (a' k)) ->
  vec_turned Q (fun l => mean4 (fun k => a k l)) (fun l => mean4 (fun k => a' k l)).
Proof.
  intros H. unfold mean4. apply vt_scal. apply vt_add; [apply vt_add; [apply vt_add|]|]; try (apply H; lia); apply vt_scal; apply H; lia.
Qed.
Lemma mean_pt (a a' : nat -> vec) : (forall k, (k < 4)%nat -> pseudo_turned Q (a k) (a' k)) ->
  pseudo_turned Q (fun l => mean4 (fun k => a k l)) (fun l => mean4 (fun k => a' k l)).
Proof.
  intros H. unfold mean4. apply pt_scal. apply pt_add; [apply pt_add; [apply pt_add|]|]; try (apply H; lia); apply pt_scal; apply H; lia.
Qed.
Lemma mean_mt (a a' : nat -> mat) : (forall k, (k < 4)%nat -> mat_turned Q (a k) (a' k)) ->
  mat_turned Q (fun i j => mean4 (fun k => a k i j)) (fun i j => mean4 (fun k => a' k i j)).
Proof.
  intros H i j Hi Hj. unfold mean4. rewrite !(H 0%nat), !(H 1%nat), !(H 2%nat), !(H 3%nat) by lia.
  unfold rot2, rsum. ring.
Qed.

(** ** Whole runs *)
Variable inv : nat -> mat -> mat.
Variable solve : nat -> mat -> list R -> list R.
Variable sc : nat -> nat -> R -> nat -> R.
Variable table : list R.
Variable h : nat.
Variable stale : nat -> nat -> R.
Variable fm : form.
Variables bb minf_only : bool.
Variable cf : R.
Variables input input' : config -> R -> res (inputs * flow).
Variables p0 p0' : config.
Notation n := (11 * Ns + 6 * Nd)%nat.
Notation N := (g_num_frames g).
Notation posed inp p := (posed_run4 inv inv3 solve sc table h stale Ns Nd fm bb minf_only cf g inp p).
Notation stg inp := (stages inv3 sc table h stale Ns Nd fm bb minf_only cf g inp).
Notation rch inp p := (Proof_Run2.reached inv inv3 solve sc table h stale Ns Nd fm false bb minf_only cf g inp p).
Hypothesis Hcf : 0 < cf.
Hypothesis Hinv : inverts_posdef inv.
Hypothesis Hsolve : solves_posdef solve.
Hypothesis Hstart : g_start g = 0%nat.
Hypothesis Hscheme : g_scheme g = rk4.
Hypothesis HI : input_turned Q Ns Nd input input'.
Hypothesis H0 : config_turned Q Ns Nd p0 p0'.
Hypothesis HA : oriented Ns p0.
Hypothesis HP : posed input p0.
Hypothesis HP' : posed input' p0'.

Notation distinct c := (distinct_beads (Ns + 2 * Nd) (bead_positions (posdata_of Ns Nd c)) (bead_sizes (posdata_of Ns Nd c))).

Lemma far_of_same c c' t L L' : config_turned Q Ns Nd c c' -> (g_use_drag g = false -> distinct c) ->
  far_of h stale Ns Nd bb g input c t L -> far_of h stale Ns Nd bb g input' c' t L' -> commutes Q Ns Nd L L'.
Proof.
  intros HT HD. unfold far_of. destruct (g_use_drag g) eqn:ED.
  - intros (i & f & E & _ & ->) (i' & f' & E' & _ & ->).
    destruct (HI _ _ _ _ _ _ _ HT E E') as [_ (_ & _ & _ & Mu & _)]. rewrite Mu. apply drag_turned; [exact HQ|exact HT].
  - intros (i & f & M & E & F & I) (i' & f' & M' & E' & F' & I').
    destruct (HI _ _ _ _ _ _ _ HT E E') as [_ (_ & _ & _ & Mu & Ub & Ub')].
    rewrite (proj1 F Ub) in I. rewrite (proj1 F' Ub') in I'. rewrite Mu in I'.
    refine (commutes_inv Q Ns Nd _ _ L L' I I' _). apply far_turned; [exact HQ|exact HT|apply HD; reflexivity].
Qed.
Lemma near_same4 c c' t f f' i i' N0 N0' : config_turned Q Ns Nd c c' -> (minf_only = false -> distinct c) ->
  input c t = Ok (i, f) -> input' c' t = Ok (i', f') ->
  near_field inv3 sc table Ns Nd bb minf_only cf c f N0 -> near_field inv3 sc table Ns Nd bb minf_only cf c' f' N0' -> commutes Q Ns Nd N0 N0'.
Proof.
  intros HT HD E E'. destruct (HI _ _ _ _ _ _ _ HT E E') as [_ (_ & _ & _ & Mu & Ub & Ub')].
  unfold near_field. clear HP HP'. destruct minf_only.
  - intros -> -> v r Hr0. unfold mvec, mzero. rewrite rsum_zero by (intros; ring).
    destruct (Proof_Layout.block_cover Ns Nd r Hr0) as (k & p & c0 & V & Hc & ->).
    rewrite (Proof_Rotate5.turn_at Q Ns Nd) by assumption. symmetry. apply rsum_zero. intros. rewrite rsum_zero by (intros; ring). ring.
  - intros [A _] [A' _]. specialize (A Ub). specialize (A' Ub'). rewrite Mu in A'.
    exact (near_turned Q HQ Ns Nd c c' HT (HD eq_refl) sc table bb cf (f_mu f) N0 N0' Hcf A A').
Qed.

Lemma stages_mono inp pos m K K' q L fl o : (K' <= K)%nat -> stg inp pos m K q L fl o -> stg inp pos m K' q L fl o.
Proof. intros HK (A & B & C). split; [exact A|]. split; intros k Hk; [apply B; lia|intros H3; apply C; lia]. Qed.

Section Frames.
Variables pos pos' : nat -> config.
Hypothesis Hr : forall m, (m <= N)%nat -> rch input p0 m (pos m).
Hypothesis Hr' : forall m, (m <= N)%nat -> rch input' p0' m (pos' m).
Variable q q' : nat -> nat -> config.
Variable L L' : nat -> nat -> mat.
Variable fl fl' : nat -> nat -> flow.
Variable o o' : nat -> nat -> outputs.
Hypothesis HS : forall m, (m < N)%nat -> stg input pos m 4 (q m) (L m) (fl m) (o m).
Hypothesis HS' : forall m, (m < N)%nat -> stg input' pos' m 4 (q' m) (L' m) (fl' m) (o' m).

Lemma stage_distinct m k : (m < N)%nat -> (k < 4)%nat -> g_use_drag g = false \/ minf_only = false -> distinct (q m k).
Proof.
  intros Hm Hk HD. destruct HP as (_ & _ & H). refine (H HD m pos k (q m) (L m) (fl m) (o m) Hm Hk _ _).
  - intros k0 Hk0. apply Hr. lia.
  - apply (stages_mono _ _ _ 4); [lia|apply HS; exact Hm].
Qed.

Lemma first_far m : (m < N)%nat -> (forall k, (k <= m)%nat -> config_turned Q Ns Nd (pos k) (pos' k)) -> commutes Q Ns Nd (L m 0%nat) (L' m 0%nat).
Proof.
  intros Hm HT. destruct (HS m Hm) as (B1 & B2 & _). destruct (HS' m Hm) as (_ & B2' & _).
  destruct (B2 0%nat ltac:(lia)) as [F _]. destruct (B2' 0%nat ltac:(lia)) as [F' _]. unfold stage_far, far_resistance in F, F'.
  destruct (g_use_drag g) eqn:ED.
  - refine (far_of_same (pos m) (pos' m) (INR m) _ _ (HT m (le_n m)) _ _ _); [congruence| |]; unfold far_of; rewrite ED; assumption.
  - destruct F as (k & i & f & M & D & E & F & I). destruct F' as (k' & i' & f' & M' & D' & E' & F' & I').
    pose proof (latest_due_unique _ _ _ _ _ D D') as <-.
    assert (Hk : (k <= m)%nat) by (destruct D as ((_ & D) & _); lia).
    refine (far_of_same (pos k) (pos' k) (INR k) _ _ (HT k Hk) _ _ _).
    + intros _. destruct (HS k ltac:(lia)) as (B & _). rewrite <- B. apply stage_distinct; [lia|lia|left; exact ED].
    + unfold far_of. rewrite ED. exists i, f, M. auto.
    + unfold far_of. rewrite ED. exists i', f', M'. auto.
Qed.
Lemma later_far m k : (m < N)%nat -> (k < 4)%nat -> (forall k, (k <= m)%nat -> config_turned Q Ns Nd (pos k) (pos' k)) ->
  config_turned Q Ns Nd (q m k) (q' m k) -> commutes Q Ns Nd (L m k) (L' m k).
Proof.
  intros Hm Hk HT HC. pose proof (first_far m Hm HT) as H1. destruct k as [|k]; [exact H1|].
  destruct (HS m Hm) as (_ & B2 & _). destruct (HS' m Hm) as (_ & B2' & _).
  destruct (B2 (S k) Hk) as [[F1 F2] _]. destruct (B2' (S k) Hk) as [[F1' F2'] _].
  destruct (classic (g_use_drag g = true \/ (g_rk4_each g = true /\ inversion_due 0 (g_invert_every g) m))) as [C|C].
  - refine (far_of_same _ _ _ _ _ HC _ (F1 C) (F1' C)). intros ED. apply stage_distinct; auto.
  - assert (C1 : g_use_drag g = false) by (destruct (g_use_drag g); tauto).
    assert (C2 : g_rk4_each g = false \/ ~ inversion_due 0 (g_invert_every g) m) by (destruct (g_rk4_each g); tauto).
    rewrite (F2 C1 C2), (F2' C1 C2). exact H1.
Qed.
Lemma stage_turned m k : (m < N)%nat -> (k < 4)%nat -> (forall k, (k <= m)%nat -> config_turned Q Ns Nd (pos k) (pos' k)) ->
  config_turned Q Ns Nd (q m k) (q' m k) -> flow_turned Q (fl m k) (fl' m k) /\ outputs_turned Q Ns Nd (o m k) (o' m k).
Proof.
  intros Hm Hk HT HC. pose proof (later_far m k Hm Hk HT HC) as HL.
  pose proof (HS m Hm) as (_ & B2 & _). pose proof (HS' m Hm) as (_ & B2' & _).
  destruct (B2 k Hk) as [F (i & N0 & E & G & A)]. destruct (B2' k Hk) as [F' (i' & N0' & E' & G' & A')].
  destruct (HI _ _ _ _ _ _ _ HC E E') as [IT FT]. split; [exact FT|].
  refine (answers_turned Q HQ Ns Nd fm i i' _ _ _ _ IT A A' _ _).
  - apply commutes_add; [exact HL|]. refine (near_same4 _ _ _ _ _ i i' N0 N0' HC _ E E' G G'). intros EM. apply stage_distinct; auto.
  - destruct HP' as (_ & HG & _).
    refine (proj2 (proj2 (HG m pos' k (q' m) (L' m) (fl' m) (o' m) Hm Hk _ _ i' _ E')) _ N0' F' G').
    + intros k0 Hk0. apply Hr'. lia.
    + apply (stages_mono _ _ _ 4); [lia|apply HS'; exact Hm].
Qed.

Lemma stages_turned m : (m < N)%nat -> (forall k, (k <= m)%nat -> config_turned Q Ns Nd (pos k) (pos' k)) ->
  oriented Ns (pos m) -> oriented Ns (pos' m) ->
  forall k, (k < 4)%nat -> forall j, (j <= k)%nat -> config_turned Q Ns Nd (q m j) (q' m j).
Proof.
  intros Hm HT A1 A2. pose proof (HS m Hm) as (B & _ & M). pose proof (HS' m Hm) as (B' & _ & M').
  induction k as [|k IH]; intros Hk j Hj.
  - replace j with 0%nat by lia. rewrite B, B'. apply HT. lia.
  - destruct (Nat.eq_dec j (S k)) as [->|]; [|apply IH; lia].
    specialize (M k ltac:(lia) ltac:(lia)). specialize (M' k ltac:(lia) ltac:(lia)). cbv zeta in M, M'.
    destruct (stage_turned m k Hm ltac:(lia) HT (IH ltac:(lia) k (le_n k))) as [FT OT].
    assert (SL : (strain_stage k <= k)%nat) by (destruct k as [|[|k]]; cbn; lia).
    destruct (stage_turned m (strain_stage k) Hm ltac:(lia) HT (IH ltac:(lia) _ SL)) as [_ (OE & _)].
    destruct (OE 0%nat HNs) as (_ & _ & _ & _ & _ & EE).
    refine (moved_turned _ _ _ _ _ _ _ _ _ _ _ _ _ _ _ _ _ _ (HT m (le_n m)) A1 A2 M M').
    + intros i Hi. apply stage_spheres_turned; auto.
    + intros i Hi. apply stage_dumbbells_turned; auto.
Qed.
Lemma frame_turned4 m : (m < N)%nat -> (forall k, (k <= m)%nat -> config_turned Q Ns Nd (pos k) (pos' k)) ->
  oriented Ns (pos m) -> oriented Ns (pos' m) ->
  forall k, (k < 4)%nat -> flow_turned Q (fl m k) (fl' m k) /\ outputs_turned Q Ns Nd (o m k) (o' m k).
Proof. intros Hm HT A1 A2 k Hk. apply stage_turned; auto. apply (stages_turned m Hm HT A1 A2 k Hk k (le_n k)). Qed.
End Frames.

Theorem runs_turned4 s fs s' fs' :
  (0 < g_save_pos g)%nat -> (0 < g_save_forces g)%nat ->
  (g_save_after g mod g_save_pos g = 0)%nat -> (g_save_after g mod g_save_forces g = 0)%nat ->
  full_simulation inv inv3 solve sc table h stale Ns Nd fm false bb minf_only cf g input p0 = Ok (Some (s, fs)) ->
  full_simulation inv inv3 solve sc table h stale Ns Nd fm false bb minf_only cf g input' p0' = Ok (Some (s', fs')) ->
  Forall2 (snapshot_turned Q Ns Nd) s s' /\ Forall2 (forces_turned Q Ns Nd) fs fs'.
Proof.
  intros S1 S2 S3 S4 E E'. pose proof HP as (Q1 & Q2 & _). pose proof HP' as (R1 & R2 & _).
  destruct (whole_run_reached inv inv3 solve sc table h stale Ns Nd fm bb minf_only cf g input p0 Hinv Hsolve HNs Hstart Hscheme Q1 Q2 s fs S1 S2 S3 S4 E)
    as (pos & q & L & fl & out & (P0 & Rc) & M & -> & ->).
  destruct (whole_run_reached inv inv3 solve sc table h stale Ns Nd fm bb minf_only cf g input' p0' Hinv Hsolve HNs Hstart Hscheme R1 R2 s' fs' S1 S2 S3 S4 E')
    as (pos' & q' & L' & fl' & out' & (P0' & Rc') & M' & -> & ->).
  pose proof (fun m Hm => proj1 (M m Hm)) as MS. pose proof (fun m Hm => proj1 (M' m Hm)) as MS'.
  pose proof (frame_turned4 pos pos' Rc Rc' q q' L L' fl fl' out out' MS MS') as FT.
  assert (INV : forall m, (m <= N)%nat -> (forall k, (k <= m)%nat -> config_turned Q Ns Nd (pos k) (pos' k)) /\ oriented Ns (pos m) /\ oriented Ns (pos' m)).
  { induction m as [|m IH]; intros Hm.
    - split; [|rewrite P0, P0'; split; [exact HA|exact (p0'_oriented Q HQ Ns Nd p0 p0' H0 HA)]].
      intros k Hk. replace k with 0%nat by lia. rewrite P0, P0'. exact H0.
    - destruct (IH ltac:(lia)) as (HT & A1 & A2). destruct (M m Hm) as [_ Mv]. destruct (M' m Hm) as [_ Mv'].
      unfold advanced in Mv, Mv'. cbv zeta in Mv, Mv'. specialize (FT m Hm HT A1 A2).
      split; [|split; [exact (moved_oriented _ _ _ _ _ _ _ _ _ A1 Mv)|exact (moved_oriented _ _ _ _ _ _ _ _ _ A2 Mv')]].
      intros k Hk. destruct (Nat.eq_dec k (S m)) as [->|]; [|apply HT; lia].
      refine (moved_turned _ _ _ _ _ _ _ _ _ _ _ _ _ _ _ _ _ _ (HT m (le_n m)) A1 A2 Mv Mv').
      + intros j Hj. cbn beta. split.
        * rewrite H2d. cbn [andb]. apply (mean_vt (fun k => stage_speed (fl m k) (out m k) (pos m) j) (fun k => stage_speed (fl' m k) (out' m k) (pos' m) j)).
          intros i Hi. destruct (FT i Hi). apply stage_spheres_turned; auto.
        * apply (mean_pt (fun k => sphere_spin (fl m k) (out m k) j) (fun k => sphere_spin (fl' m k) (out' m k) j)).
          intros i Hi. destruct (FT i Hi). apply (spin_turned Q Ns Nd); auto.
      + assert (EE : forall i, (i < 4)%nat -> mat_turned Q (matof (Model_Output.o_Ea (out m (strain_stage i))) 0) (matof (Model_Output.o_Ea (out' m (strain_stage i))) 0)).
        { intros i Hi. assert (SL : (strain_stage i < 4)%nat) by (destruct i as [|[|i]]; cbn; lia).
          destruct (FT _ SL) as [_ (OE & _)]. apply (OE 0%nat HNs). }
        intros d Hd. cbn beta. split.
        * apply (mean_vt (fun k => stage_centre (fl m k) (out m k) (matof (Model_Output.o_Ea (out m (strain_stage k))) 0) (pos m) d)
            (fun k => stage_centre (fl' m k) (out' m k) (matof (Model_Output.o_Ea (out' m (strain_stage k))) 0) (pos' m) d)).
          intros i Hi. destruct (FT i Hi). apply stage_dumbbells_turned; auto.
        * apply (mean_vt (fun k => stage_stretch (fl m k) (out m k) (matof (Model_Output.o_Ea (out m (strain_stage k))) 0) (pos m) d)
            (fun k => stage_stretch (fl' m k) (out' m k) (matof (Model_Output.o_Ea (out' m (strain_stage k))) 0) (pos' m) d)).
          intros i Hi. destruct (FT i Hi). apply stage_dumbbells_turned; auto. }
  assert (SN : forall m, (m <= N)%nat -> snapshot_turned Q Ns Nd (snap Ns (pos m)) (snap Ns (pos' m))).
  { intros m Hm. destruct (INV m Hm) as (HT & _). destruct (HT m (le_n m)) as (_ & _ & C1 & C2 & C3). split; [|split].
    - intros j Hj. cbn [snap n_pos]. unfold append_rows. destruct (Nat.ltb_spec j Ns); [apply C1; assumption|]. apply C3. lia.
    - exact C2.
    - intros d Hd. apply (C3 d Hd). }
  split.
  - apply Forall2_app.
    + apply Forall2_map. intros m Hm. apply SN. unfold due_frames in Hm. apply filter_In in Hm. destruct Hm as [Hm _]. apply in_seq in Hm. lia.
    + destruct (save_due _ _ _); constructor; [apply SN; lia|constructor].
  - apply Forall2_map. intros m Hm. unfold due_frames in Hm. apply filter_In in Hm. destruct Hm as [Hm _]. apply in_seq in Hm.
    destruct (INV m ltac:(lia)) as (HT & A1 & A2). specialize (FT m ltac:(lia) HT A1 A2). unfold mean_forces, forces_turned. cbn [n_Fa n_Fb n_DFb n_Sa]. split.
    + intros j Hj. split.
      * apply (mean_vt (fun k => rowof (Model_Output.o_Fa (out m k)) j) (fun k => rowof (Model_Output.o_Fa (out' m k)) j)).
        intros k Hk. destruct (FT k Hk) as [_ (O1 & _)]. apply (O1 j Hj).
      * apply (mean_mt (fun k => matof (Model_Output.o_Sa (out m k)) j) (fun k => matof (Model_Output.o_Sa (out' m k)) j)).
        intros k Hk. destruct (FT k Hk) as [_ (O1 & _)]. destruct (O1 j Hj) as (_ & _ & B & _). exact B.
    + intros d Hd. split.
      * apply (mean_vt (fun k => rowof (Model_Output.o_Fb (out m k)) d) (fun k => rowof (Model_Output.o_Fb (out' m k)) d)).
        intros k Hk. destruct (FT k Hk) as [_ (_ & O2)]. apply (O2 d Hd).
      * apply (mean_vt (fun k => rowof (Model_Output.o_DFb (out m k)) d) (fun k => rowof (Model_Output.o_DFb (out' m k)) d)).
        intros k Hk. destruct (FT k Hk) as [_ (_ & O2)]. apply (O2 d Hd).
Qed.
End Turn.
