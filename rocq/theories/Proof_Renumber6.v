(** Runge-Kutta runs of renumbered and turned configurations. *)
From Coq Require Import Reals List Arith Bool Lia Lra Classical.
From Verif Require Import Base Py Model_Pack Model_Mob Model_Layout Model_Minf Model_Grand Model_Close Model_R2B Model_GrandP Model_Step
  Model_Output Model_Frame Model_Inputs Model_Sim
  Spec_Pack Spec_Layout Spec_Minf Spec_Convert Spec_Output Spec_Rotate Spec_Step Spec_Frame Spec_Posdef Spec_Run Spec_Run4 Spec_Turn Spec_Turn4 Spec_Renumber Spec_Renumber4
  Proof_Step Proof_Step2 Proof_Frame Proof_Frame2 Proof_Run2 Proof_Run4 Proof_Rotate8 Proof_Turn1 Proof_Turn2 Proof_Turn3 Proof_Turn4 Proof_Turn6
  Proof_Renumber1 Proof_Renumber2 Proof_Renumber3.
Import ListNotations.
Local Open Scope R_scope.

Section Renumber.
Variable Q : mat.
Hypothesis HQ : orthogonal Q.
Variables s t : nat -> nat.
Variables Ns Nd : nat.
Hypothesis Hs : permutes Ns s.
Hypothesis Ht : permutes Nd t.
Hypothesis HNs : (0 < Ns)%nat.
Variable inv3 : mat -> mat.
Hypothesis Hinv3 : inverts inv3.
Variable g : settings.
Hypothesis Hbox : no_box_g g.
Hypothesis H2d : g_fully_2d g = false \/ keeps_y Q.
Notation renum := (config_renumbered Q s t Ns Nd).

Lemma moved_renumbered ta tm f U W B D p q f' U' W' B' D' p' q' :
  (forall j, (j < Ns)%nat -> vec_turned Q (U (s j)) (U' j) /\ pseudo_turned Q (W (s j)) (W' j)) ->
  (forall d, (d < Nd)%nat -> vec_turned Q (B (t d)) (B' d) /\ vec_turned Q (D (t d)) (D' d)) ->
  renum p p' -> oriented Ns p -> oriented Ns p' ->
  moved_by inv3 Ns Nd g ta tm f U W B D p q -> moved_by inv3 Ns Nd g ta tm f' U' W' B' D' p' q' -> renum q q'.
Proof.
  intros SP DP (Y1 & Y2 & PS & PD) HA HA' (Z1 & Z2 & M1 & M2) (Z1' & Z2' & M1' & M2').
  pose proof (proj1 Hs) as S1. pose proof (proj1 Ht) as T1.
  split; [intros j; rewrite Z1, Z1'; apply Y1|]. split; [intros j; rewrite Z2, Z2'; apply Y2|]. split.
  - intros j Hj. pose proof (S1 j Hj) as Hsj. destruct (PS j Hj) as [PX PR].
    destruct (M1 (s j) Hsj) as (x & L & X & T). destruct (M1' j Hj) as (x' & L' & X' & T').
    assert (XT : vec_turned Q x x').
    { apply (vt_ext Q _ _ _ _ X X'). apply vt_add; [exact PX|]. apply vt_scal. apply SP. exact Hj. }
    split.
    + apply (vt_ext Q _ _ _ _ (landed_at inv3 g Hbox _ _ _ L) (landed_at inv3 g Hbox _ _ _ L')). exact XT.
    + intros k Hk. specialize (T k Hinv3 (armed Ns p (s j) k HA Hsj Hk)). specialize (T' k Hinv3 (armed Ns p' j k HA' Hj Hk)).
      match type of T with forall l, _ -> _ = ?r l => match type of T' with forall l, _ -> _ = ?r' l =>
        apply (vt_ext Q _ (fun l => x l + r l) _ (fun l => x' l + r' l)) end end.
      * intros l Hl. rewrite <- (T l Hl). unfold vsub. rewrite (centre_of inv3 g Hbox ta _ _ _ L l Hl). ring.
      * intros l Hl. rewrite <- (T' l Hl). unfold vsub. rewrite (centre_of inv3 g Hbox ta _ _ _ L' l Hl). ring.
      * apply vt_add; [exact XT|]. apply (rodrigues_turned Q HQ); [apply SP; exact Hj|]. apply vt_sub; [apply PR; assumption|exact PX].
  - intros d Hd. destruct (M2 (t d) (T1 d Hd)) as ((x & L & X) & S). destruct (M2' d Hd) as ((x' & L' & X') & S').
    destruct (PD d Hd) as [D1 D2]. destruct (DP d Hd) as [E1 E2]. split.
    + apply (vt_ext Q _ _ _ _ (landed_at inv3 g Hbox _ _ _ L) (landed_at inv3 g Hbox _ _ _ L')). apply (vt_ext Q _ _ _ _ X X').
      apply vt_add; [exact D1|apply vt_scal; exact E1].
    + apply (vt_ext Q _ _ _ _ S S'). apply vt_add; [exact D2|apply vt_scal; exact E2].
Qed.

Lemma stage_spheres_renumbered f o p f' o' p' j : flow_turned Q f f' -> outputs_renumbered Q s t Ns Nd o o' -> renum p p' -> (j < Ns)%nat ->
  vec_turned Q (stage_speed f o p (s j)) (stage_speed f' o' p' j) /\ pseudo_turned Q (sphere_spin f o (s j)) (sphere_spin f' o' j).
Proof.
  intros F O C Hj. split; [|apply (spin_renumbered Q s t Ns Nd); assumption].
  destruct F as (F1 & F2 & F3 & _). destruct O as (O1 & _). destruct C as (_ & _ & C1 & _). destruct (O1 j Hj) as (_ & _ & _ & U & _ & E).
  destruct (C1 j Hj) as [CX _]. unfold stage_speed. apply vt_add; [exact U|]. apply flow_at_turned; auto.
Qed.
Lemma stage_dumbbells_renumbered f o A p f' o' A' p' d : flow_turned Q f f' -> outputs_renumbered Q s t Ns Nd o o' -> mat_turned Q A A' ->
  renum p p' -> (d < Nd)%nat ->
  vec_turned Q (stage_centre f o A p (t d)) (stage_centre f' o' A' p' d) /\ vec_turned Q (stage_stretch f o A p (t d)) (stage_stretch f' o' A' p' d).
Proof.
  intros (F1 & F2 & F3 & _) (_ & O2) HA (_ & _ & _ & PD) Hd. destruct (O2 d Hd) as (_ & _ & U & H). destruct (PD d Hd) as [D1 D2].
  destruct (beads_turned Q _ _ _ _ D1 D2) as [B1 B2].
  assert (G : forall x x', vec_turned Q x x' -> vec_turned Q (flow_with f A x) (flow_with f' A' x')).
  { intros x x' X. unfold flow_with. apply (flow_at_turned Q HQ); assumption. }
  pose proof (G _ _ B1) as G1. pose proof (G _ _ B2) as G2. unfold stage_centre, stage_stretch.
  set (b1 := flow_with f A (bead_minus (c_dpos p (t d)) (c_ddx p (t d)))) in *. set (b2 := flow_with f A (bead_plus (c_dpos p (t d)) (c_ddx p (t d)))) in *.
  set (b1' := flow_with f' A' (bead_minus (c_dpos p' d) (c_ddx p' d))) in *. set (b2' := flow_with f' A' (bead_plus (c_dpos p' d) (c_ddx p' d))) in *.
  split.
  - apply vt_add; [exact U|].
    apply (vt_ext Q _ (fun l => / 2 * (b1 l + b2 l)) _ (fun l => / 2 * (b1' l + b2' l))); try (intros; field).
    apply vt_scal, vt_add; assumption.
  - apply vt_add; [apply vt_scal; exact H|]. apply (vt_sub Q b2 b1 b2' b1'); assumption.
Qed.

Section Runs.
Variable inv : nat -> mat -> mat.
Variable solve : nat -> mat -> list R -> list R.
Variable sc : nat -> nat -> R -> nat -> R.
Variable table : list R.
Variable h : nat.
Variable stale : nat -> nat -> R.
Variable fm : form.
Variables bb minf_only : bool.
Variable cf : R.
Variables input input' : config -> R -> res (inputs * flow).
Variables p0 p0' : config.
Notation N := (g_num_frames g).
Notation posed inp p := (posed_run4 inv inv3 solve sc table h stale Ns Nd fm bb minf_only cf g inp p).
Notation stg inp := (stages inv3 sc table h stale Ns Nd fm bb minf_only cf g inp).
Notation rch inp p := (Proof_Run2.reached inv inv3 solve sc table h stale Ns Nd fm false bb minf_only cf g inp p).
Hypothesis Hcf : 0 < cf.
Hypothesis Hinv : inverts_posdef inv.
Hypothesis Hsolve : solves_posdef solve.
Hypothesis Hstart : g_start g = 0%nat.
Hypothesis Hscheme : g_scheme g = rk4.
Hypothesis HI : input_renumbered Q s t Ns Nd input input'.
Hypothesis HE : one_strain s Ns Nd fm input.
Hypothesis H0 : renum p0 p0'.
Hypothesis HA : oriented Ns p0.
Hypothesis HP : posed input p0.
Hypothesis HP' : posed input' p0'.
Hypothesis HR : minf_only = false -> reciprocal_run4 inv inv3 solve sc table h stale Ns Nd fm bb minf_only cf g input p0.

Notation distinct c := (distinct_beads (Ns + 2 * Nd) (bead_positions (posdata_of Ns Nd c)) (bead_sizes (posdata_of Ns Nd c))).

Lemma far_of_renumbered c c' tm L L' : renum c c' -> (g_use_drag g = false -> distinct c) ->
  far_of h stale Ns Nd bb g input c tm L -> far_of h stale Ns Nd bb g input' c' tm L' -> follows Q s t Ns Nd L L'.
Proof.
  intros HT HD. unfold far_of. destruct (g_use_drag g) eqn:ED.
  - intros (i & f & E & _ & ->) (i' & f' & E' & _ & ->).
    destruct (HI _ _ _ _ _ _ _ HT E E') as [_ (_ & _ & _ & Mu & _)]. rewrite Mu. apply drag_renumbered; assumption.
  - intros (i & f & M & E & F & I) (i' & f' & M' & E' & F' & I').
    destruct (HI _ _ _ _ _ _ _ HT E E') as [_ (_ & _ & _ & Mu & Ub & Ub')].
    rewrite (proj1 F Ub) in I. rewrite (proj1 F' Ub') in I'. rewrite Mu in I'.
    refine (follows_inv Q s t Ns Nd Hs Ht _ _ L L' I I' _). apply far_renumbered; try assumption. apply HD; reflexivity.
Qed.
Lemma near_renumbered4 c c' tm f f' i i' N0 N0' : renum c c' -> (minf_only = false -> distinct c /\ reciprocal_pairs sc table cf Ns Nd c) ->
  input c tm = Ok (i, f) -> input' c' tm = Ok (i', f') ->
  near_field inv3 sc table Ns Nd bb minf_only cf c f N0 -> near_field inv3 sc table Ns Nd bb minf_only cf c' f' N0' -> follows Q s t Ns Nd N0 N0'.
Proof.
  intros HT HD E E'. destruct (HI _ _ _ _ _ _ _ HT E E') as [_ (_ & _ & _ & Mu & Ub & Ub')].
  unfold near_field. clear HP HP' HR. destruct minf_only.
  - intros -> ->. apply follows_zero.
  - intros [A _] [A' _]. specialize (A Ub). specialize (A' Ub'). rewrite Mu in A'. destruct (HD eq_refl) as [HD1 HD2].
    exact (near_renumbered Q HQ s t Ns Nd Hs Ht c c' HT HD1 sc table bb cf (f_mu f) N0 N0' Hcf HD2 A A').
Qed.

Lemma stages_le inp pos m K K' q L fl o : (K' <= K)%nat -> stg inp pos m K q L fl o -> stg inp pos m K' q L fl o.
Proof. clear. intros HK (A & B & C). split; [exact A|]. split; intros k Hk; [apply B; lia|intros H3; apply C; lia]. Qed.

Section Frames.
Variables pos pos' : nat -> config.
Hypothesis Hr : forall m, (m <= N)%nat -> rch input p0 m (pos m).
Hypothesis Hr' : forall m, (m <= N)%nat -> rch input' p0' m (pos' m).
Variable q q' : nat -> nat -> config.
Variable L L' : nat -> nat -> mat.
Variable fl fl' : nat -> nat -> flow.
Variable o o' : nat -> nat -> outputs.
Hypothesis HS : forall m, (m < N)%nat -> stg input pos m 4 (q m) (L m) (fl m) (o m).
Hypothesis HS' : forall m, (m < N)%nat -> stg input' pos' m 4 (q' m) (L' m) (fl' m) (o' m).

Lemma stage_apart m k : (m < N)%nat -> (k < 4)%nat -> g_use_drag g = false \/ minf_only = false -> distinct (q m k).
Proof.
  intros Hm Hk HD. destruct HP as (_ & _ & H). refine (H HD m pos k (q m) (L m) (fl m) (o m) Hm Hk _ _).
  - intros k0 Hk0. apply Hr. lia.
  - apply (stages_le _ _ _ 4); [lia|apply HS; exact Hm].
Qed.
Lemma stage_reciprocal m k : (m < N)%nat -> (k < 4)%nat -> minf_only = false -> reciprocal_pairs sc table cf Ns Nd (q m k).
Proof.
  intros Hm Hk HD. refine (HR HD m pos k (q m) (L m) (fl m) (o m) Hm Hk _ _).
  - intros k0 Hk0. apply Hr. lia.
  - apply (stages_le _ _ _ 4); [lia|apply HS; exact Hm].
Qed.

Lemma first_follows m : (m < N)%nat -> (forall k, (k <= m)%nat -> renum (pos k) (pos' k)) -> follows Q s t Ns Nd (L m 0%nat) (L' m 0%nat).
Proof.
  intros Hm HT. destruct (HS m Hm) as (B1 & B2 & _). destruct (HS' m Hm) as (_ & B2' & _).
  destruct (B2 0%nat ltac:(lia)) as [F _]. destruct (B2' 0%nat ltac:(lia)) as [F' _]. unfold stage_far, far_resistance in F, F'.
  destruct (g_use_drag g) eqn:ED.
  - refine (far_of_renumbered (pos m) (pos' m) (INR m) _ _ (HT m (le_n m)) _ _ _); [congruence| |]; unfold far_of; rewrite ED; assumption.
  - destruct F as (k & i & f & M & D & E & F & I). destruct F' as (k' & i' & f' & M' & D' & E' & F' & I').
    pose proof (latest_due_unique _ _ _ _ _ D D') as <-.
    assert (Hk : (k <= m)%nat) by (destruct D as ((_ & D) & _); lia).
    refine (far_of_renumbered (pos k) (pos' k) (INR k) _ _ (HT k Hk) _ _ _).
    + intros _. destruct (HS k ltac:(lia)) as (B & _). rewrite <- B. apply stage_apart; [lia|lia|left; exact ED].
    + unfold far_of. rewrite ED. exists i, f, M. auto.
    + unfold far_of. rewrite ED. exists i', f', M'. auto.
Qed.
Lemma later_follows m k : (m < N)%nat -> (k < 4)%nat -> (forall k, (k <= m)%nat -> renum (pos k) (pos' k)) ->
  renum (q m k) (q' m k) -> follows Q s t Ns Nd (L m k) (L' m k).
Proof.
  intros Hm Hk HT HC. pose proof (first_follows m Hm HT) as H1. destruct k as [|k]; [exact H1|].
  destruct (HS m Hm) as (_ & B2 & _). destruct (HS' m Hm) as (_ & B2' & _).
  destruct (B2 (S k) Hk) as [[F1 F2] _]. destruct (B2' (S k) Hk) as [[F1' F2'] _].
  destruct (classic (g_use_drag g = true \/ (g_rk4_each g = true /\ inversion_due 0 (g_invert_every g) m))) as [C|C].
  - refine (far_of_renumbered _ _ _ _ _ HC _ (F1 C) (F1' C)). intros ED. apply stage_apart; auto.
  - assert (C1 : g_use_drag g = false) by (destruct (g_use_drag g); tauto).
    assert (C2 : g_rk4_each g = false \/ ~ inversion_due 0 (g_invert_every g) m) by (destruct (g_rk4_each g); tauto).
    rewrite (F2 C1 C2), (F2' C1 C2). exact H1.
Qed.
Lemma stage_renumbered m k : (m < N)%nat -> (k < 4)%nat -> (forall k, (k <= m)%nat -> renum (pos k) (pos' k)) ->
  renum (q m k) (q' m k) -> flow_turned Q (fl m k) (fl' m k) /\ outputs_renumbered Q s t Ns Nd (o m k) (o' m k) /\ strain0 Q Nd (o m k) (o' m k).
Proof.
  intros Hm Hk HT HC. pose proof (later_follows m k Hm Hk HT HC) as HL.
  pose proof (HS m Hm) as (_ & B2 & _). pose proof (HS' m Hm) as (_ & B2' & _).
  destruct (B2 k Hk) as [F (i & N0 & E & G & A)]. destruct (B2' k Hk) as [F' (i' & N0' & E' & G' & A')].
  destruct (HI _ _ _ _ _ _ _ HC E E') as [IT FT]. split; [exact FT|].
  assert (O : outputs_renumbered Q s t Ns Nd (o m k) (o' m k)).
  { refine (answers_renumbered Q HQ s t Ns Nd Hs Ht fm i i' _ _ _ _ IT A A' _ _).
    - apply follows_add; [exact HL|]. refine (near_renumbered4 _ _ _ _ _ i i' N0 N0' HC _ E E' G G').
      intros EM. split; [apply stage_apart; auto|apply stage_reciprocal; auto].
    - destruct HP' as (_ & HG & _).
      refine (proj2 (proj2 (HG m pos' k (q' m) (L' m) (fl' m) (o' m) Hm Hk _ _ i' _ E')) _ N0' F' G').
      + intros k0 Hk0. apply Hr'. lia.
      + apply (stages_le _ _ _ 4); [lia|apply HS'; exact Hm]. }
  split; [exact O|]. exact (strain_first Q s t Ns Nd Hs HNs fm input _ _ i _ _ _ _ HE E A O).
Qed.

Lemma stages_renumbered m : (m < N)%nat -> (forall k, (k <= m)%nat -> renum (pos k) (pos' k)) ->
  oriented Ns (pos m) -> oriented Ns (pos' m) ->
  forall k, (k < 4)%nat -> forall j, (j <= k)%nat -> renum (q m j) (q' m j).
Proof.
  intros Hm HT A1 A2. pose proof (HS m Hm) as (B & _ & M). pose proof (HS' m Hm) as (B' & _ & M').
  induction k as [|k IH]; intros Hk j Hj.
  - replace j with 0%nat by lia. rewrite B, B'. apply HT. lia.
  - destruct (Nat.eq_dec j (S k)) as [->|]; [|apply IH; lia].
    specialize (M k ltac:(lia) ltac:(lia)). specialize (M' k ltac:(lia) ltac:(lia)). cbv zeta in M, M'.
    destruct (stage_renumbered m k Hm ltac:(lia) HT (IH ltac:(lia) k (le_n k))) as (FT & OT & _).
    assert (SL : (strain_stage k <= k)%nat) by (destruct k as [|[|k]]; cbn; lia).
    destruct (stage_renumbered m (strain_stage k) Hm ltac:(lia) HT (IH ltac:(lia) _ SL)) as (_ & _ & EE).
    refine (moved_renumbered _ _ _ _ _ _ _ _ _ _ _ _ _ _ _ _ _ _ (HT m (le_n m)) A1 A2 M M').
    + intros i Hi. apply stage_spheres_renumbered; auto.
    + intros i Hi. destruct EE as [EE|EE]; [lia|]. apply stage_dumbbells_renumbered; auto.
Qed.
Lemma frame_renumbered4 m : (m < N)%nat -> (forall k, (k <= m)%nat -> renum (pos k) (pos' k)) ->
  oriented Ns (pos m) -> oriented Ns (pos' m) ->
  forall k, (k < 4)%nat -> flow_turned Q (fl m k) (fl' m k) /\ outputs_renumbered Q s t Ns Nd (o m k) (o' m k) /\ strain0 Q Nd (o m k) (o' m k).
Proof. intros Hm HT A1 A2 k Hk. apply stage_renumbered; auto. apply (stages_renumbered m Hm HT A1 A2 k Hk k (le_n k)). Qed.
End Frames.

Theorem runs_renumbered4 a fs a' fs' :
  (0 < g_save_pos g)%nat -> (0 < g_save_forces g)%nat ->
  (g_save_after g mod g_save_pos g = 0)%nat -> (g_save_after g mod g_save_forces g = 0)%nat ->
  full_simulation inv inv3 solve sc table h stale Ns Nd fm false bb minf_only cf g input p0 = Ok (Some (a, fs)) ->
  full_simulation inv inv3 solve sc table h stale Ns Nd fm false bb minf_only cf g input' p0' = Ok (Some (a', fs')) ->
  Forall2 (snapshot_renumbered Q s t Ns Nd) a a' /\ Forall2 (forces_renumbered Q s t Ns Nd) fs fs'.
Proof.
  intros S1 S2 S3 S4 E E'. pose proof HP as (Q1 & Q2 & _). pose proof HP' as (R1 & R2 & _).
  destruct (whole_run_reached inv inv3 solve sc table h stale Ns Nd fm bb minf_only cf g input p0 Hinv Hsolve HNs Hstart Hscheme Q1 Q2 a fs S1 S2 S3 S4 E)
    as (pos & q & L & fl & out & (P0 & Rc) & M & -> & ->).
  destruct (whole_run_reached inv inv3 solve sc table h stale Ns Nd fm bb minf_only cf g input' p0' Hinv Hsolve HNs Hstart Hscheme R1 R2 a' fs' S1 S2 S3 S4 E')
    as (pos' & q' & L' & fl' & out' & (P0' & Rc') & M' & -> & ->).
  pose proof (fun m Hm => proj1 (M m Hm)) as MS. pose proof (fun m Hm => proj1 (M' m Hm)) as MS'.
  pose proof (frame_renumbered4 pos pos' Rc Rc' q q' L L' fl fl' out out' MS MS') as FT.
  assert (INV : forall m, (m <= N)%nat -> (forall k, (k <= m)%nat -> renum (pos k) (pos' k)) /\ oriented Ns (pos m) /\ oriented Ns (pos' m)).
  { induction m as [|m IH]; intros Hm.
    - split; [|rewrite P0, P0'; split; [exact HA|exact (start_oriented Q HQ s t Ns Nd Hs p0 p0' H0 HA)]].
      intros k Hk. replace k with 0%nat by lia. rewrite P0, P0'. exact H0.
    - destruct (IH ltac:(lia)) as (HT & A1 & A2). destruct (M m Hm) as [_ Mv]. destruct (M' m Hm) as [_ Mv'].
      unfold advanced in Mv, Mv'. cbv zeta in Mv, Mv'. specialize (FT m Hm HT A1 A2).
      split; [|split; [exact (moved_oriented Ns Nd inv3 Hinv3 g Hbox _ _ _ _ _ _ _ _ _ A1 Mv)|exact (moved_oriented Ns Nd inv3 Hinv3 g Hbox _ _ _ _ _ _ _ _ _ A2 Mv')]].
      intros k Hk. destruct (Nat.eq_dec k (S m)) as [->|]; [|apply HT; lia].
      refine (moved_renumbered _ _ _ _ _ _ _ _ _ _ _ _ _ _ _ _ _ _ (HT m (le_n m)) A1 A2 Mv Mv').
      + intros j Hj. cbn beta. split.
        * apply (flattened Q Ns HNs (g_fully_2d g) (fun l => mean4 (fun k => stage_speed (fl m k) (out m k) (pos m) (s j) l))
            (fun l => mean4 (fun k => stage_speed (fl' m k) (out' m k) (pos' m) j l)) H2d).
          apply (mean_vt Q Ns HNs (fun k => stage_speed (fl m k) (out m k) (pos m) (s j)) (fun k => stage_speed (fl' m k) (out' m k) (pos' m) j)).
          intros i Hi. destruct (FT i Hi) as (? & ? & _). apply stage_spheres_renumbered; auto.
        * apply (mean_pt Q Ns HNs (fun k => sphere_spin (fl m k) (out m k) (s j)) (fun k => sphere_spin (fl' m k) (out' m k) j)).
          intros i Hi. destruct (FT i Hi) as (? & ? & _). apply (spin_renumbered Q s t Ns Nd); auto.
      + intros d Hd.
        assert (EE : forall i, (i < 4)%nat -> mat_turned Q (matof (Model_Output.o_Ea (out m (strain_stage i))) 0) (matof (Model_Output.o_Ea (out' m (strain_stage i))) 0)).
        { intros i Hi. assert (SL : (strain_stage i < 4)%nat) by (destruct i as [|[|i]]; cbn; lia).
          destruct (FT _ SL) as (_ & _ & [OE|OE]); [lia|exact OE]. }
        cbn beta. split.
        * apply (mean_vt Q Ns HNs (fun k => stage_centre (fl m k) (out m k) (matof (Model_Output.o_Ea (out m (strain_stage k))) 0) (pos m) (t d))
            (fun k => stage_centre (fl' m k) (out' m k) (matof (Model_Output.o_Ea (out' m (strain_stage k))) 0) (pos' m) d)).
          intros i Hi. destruct (FT i Hi) as (? & ? & _). apply stage_dumbbells_renumbered; auto.
        * apply (mean_vt Q Ns HNs (fun k => stage_stretch (fl m k) (out m k) (matof (Model_Output.o_Ea (out m (strain_stage k))) 0) (pos m) (t d))
            (fun k => stage_stretch (fl' m k) (out' m k) (matof (Model_Output.o_Ea (out' m (strain_stage k))) 0) (pos' m) d)).
          intros i Hi. destruct (FT i Hi) as (? & ? & _). apply stage_dumbbells_renumbered; auto. }
  assert (SN : forall m, (m <= N)%nat -> snapshot_renumbered Q s t Ns Nd (snap Ns (pos m)) (snap Ns (pos' m))).
  { intros m Hm. destruct (INV m Hm) as (HT & _). destruct (HT m (le_n m)) as (_ & _ & C1 & C2). split.
    - intros j Hj. cbn [snap n_pos n_rot]. unfold append_rows. pose proof (proj1 Hs j Hj).
      destruct (Nat.ltb_spec j Ns); [|lia]. destruct (Nat.ltb_spec (s j) Ns); [|lia]. apply C1; assumption.
    - intros d Hd. cbn [snap n_pos n_dx]. unfold append_rows.
      destruct (Nat.ltb_spec (Ns + d) Ns); [lia|]. destruct (Nat.ltb_spec (Ns + t d) Ns); [lia|].
      replace (Ns + d - Ns)%nat with d by lia. replace (Ns + t d - Ns)%nat with (t d) by lia. apply C2; assumption. }
  split.
  - apply Forall2_app.
    + apply Forall2_map. intros m Hm. apply SN. unfold due_frames in Hm. apply filter_In in Hm. destruct Hm as [Hm _]. apply in_seq in Hm. lia.
    + destruct (save_due _ _ _); constructor; [apply SN; lia|constructor].
  - apply Forall2_map. intros m Hm. unfold due_frames in Hm. apply filter_In in Hm. destruct Hm as [Hm _]. apply in_seq in Hm.
    destruct (INV m ltac:(lia)) as (HT & A1 & A2). specialize (FT m ltac:(lia) HT A1 A2). unfold mean_forces, forces_renumbered. cbn [n_Fa n_Fb n_DFb n_Sa]. split.
    + intros j Hj. split.
      * apply (mean_vt Q Ns HNs (fun k => rowof (Model_Output.o_Fa (out m k)) (s j)) (fun k => rowof (Model_Output.o_Fa (out' m k)) j)).
        intros k Hk. destruct (FT k Hk) as (_ & (O1 & _) & _). apply (O1 j Hj).
      * apply (mean_mt Q Ns HNs (fun k => matof (Model_Output.o_Sa (out m k)) (s j)) (fun k => matof (Model_Output.o_Sa (out' m k)) j)).
        intros k Hk. destruct (FT k Hk) as (_ & (O1 & _) & _). destruct (O1 j Hj) as (_ & _ & B & _). exact B.
    + intros d Hd. split.
      * apply (mean_vt Q Ns HNs (fun k => rowof (Model_Output.o_Fb (out m k)) (t d)) (fun k => rowof (Model_Output.o_Fb (out' m k)) d)).
        intros k Hk. destruct (FT k Hk) as (_ & (_ & O2) & _). apply (O2 d Hd).
      * apply (mean_vt Q Ns HNs (fun k => rowof (Model_Output.o_DFb (out m k)) (t d)) (fun k => rowof (Model_Output.o_DFb (out' m k)) d)).
        intros k Hk. destruct (FT k Hk) as (_ & (_ & O2) & _). apply (O2 d Hd).
Qed.
End Runs.
End Renumber.
