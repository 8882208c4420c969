(** Renumbered and turned runs stay so. *)
From Coq Require Import Reals List Arith Bool Lia Lra.
From Verif Require Import Base Py Model_Pack Model_Mob Model_Layout Model_Minf Model_Grand Model_Close Model_R2B Model_GrandP Model_Step
  Model_Output Model_Frame Model_Inputs Model_Sim
  Spec_Pack Spec_Layout Spec_Minf Spec_Convert Spec_Output Spec_Rotate Spec_Step Spec_Frame Spec_Posdef Spec_Run Spec_Turn Spec_Renumber
  Proof_Step Proof_Step2 Proof_Frame Proof_Frame2 Proof_Run2 Proof_Rotate1 Proof_Rotate2 Proof_Rotate8 Proof_Turn1 Proof_Turn2 Proof_Turn3 Proof_Turn4
  Proof_Renumber1 Proof_Renumber2.
Import ListNotations.
Local Open Scope R_scope.

Section Renumber.
Variable Q : mat.
Hypothesis HQ : orthogonal Q.
Variables s t : nat -> nat.
Variables Ns Nd : nat.
Hypothesis Hs : permutes Ns s.
Hypothesis Ht : permutes Nd t.
Notation n := (11 * Ns + 6 * Nd)%nat.
Hypothesis HNs : (0 < Ns)%nat.

(** The strain the dumbbells see. *)
Definition strain0 (o o' : outputs) : Prop :=
  Nd = 0%nat \/ mat_turned Q (matof (Model_Output.o_Ea o) 0) (matof (Model_Output.o_Ea o') 0).
Lemma strain_first fm input p tm i f R0 o o' : one_strain s Ns Nd fm input -> input p tm = Ok (i, f) -> answers Ns Nd fm i R0 o ->
  outputs_renumbered Q s t Ns Nd o o' -> strain0 o o'.
Proof.
  intros [E|[E|[E1 E2]]] Ei HA (O & _); [left; exact E|right|right]; destruct (O 0%nat HNs) as (_ & _ & _ & _ & _ & T).
  - rewrite E in T. exact T.
  - replace (matof (Model_Output.o_Ea o) 0) with (matof (Model_Output.o_Ea o) (s 0%nat)); [exact T|].
    pose proof (proj1 Hs 0%nat HNs) as H0. destruct HA as (_ & SH & _ & K). unfold of_shape in SH.
    destruct SH as (_ & _ & _ & _ & _ & _ & _ & _ & _ & (L & _) & _).
    assert (KE : keeps 0 Ns (i_Ea i) (Model_Output.o_Ea o)) by (destruct fm; try contradiction; tauto).
    pose proof (KE (s 0%nat) ltac:(lia)) as A. pose proof (KE 0%nat ltac:(lia)) as B. rewrite (E2 p tm i f Ei (s 0%nat) H0) in A. rewrite A in B.
    rewrite !(nth_error_nth' (Model_Output.o_Ea o) []) in B by lia. unfold matof. injection B as ->. reflexivity.
Qed.

Section Step.
Variable inv3 : mat -> mat.
Hypothesis Hinv3 : inverts inv3.
Variable g : settings.
Hypothesis Hbox : no_box_g g.
Hypothesis H2d : g_fully_2d g = false \/ keeps_y Q.

Lemma flattened b v v' : b = false \/ keeps_y Q -> vec_turned Q v v' ->
  vec_turned Q (fun l => if (b && Nat.eqb l 1)%bool then 0 else v l) (fun l => if (b && Nat.eqb l 1)%bool then 0 else v' l).
Proof.
  intros HB H. destruct b; cbn [andb]; [|exact H]. destruct HB as [HB|(Y0 & Y1 & Y2 & Y3)]; [discriminate|].
  intros l Hl. unfold rot, mvec, rsum. cbn [Nat.eqb].
  destruct (Nat.eqb_spec l 1) as [->|N].
  - rewrite Y2, Y3. ring.
  - rewrite (H l Hl). unfold rot, mvec, rsum. idx3 Hl; try lia; rewrite ?Y0, ?Y1; ring.
Qed.

Lemma speed_renumbered f o p f' o' p' j : flow_turned Q f f' -> outputs_renumbered Q s t Ns Nd o o' -> config_renumbered Q s t Ns Nd p p' -> (j < Ns)%nat ->
  vec_turned Q (sphere_speed g f o p (s j)) (sphere_speed g f' o' p' j).
Proof.
  intros (F1 & F2 & F3 & _) (O1 & _) (_ & _ & C1 & _) Hj. destruct (O1 j Hj) as (_ & _ & _ & U & _ & E). destruct (C1 j Hj) as [C _].
  unfold sphere_speed.
  apply (flattened (g_fully_2d g) (fun l => rowof (Model_Output.o_Ua o) (s j) l + _ l) (fun l => rowof (Model_Output.o_Ua o') j l + _ l) H2d).
  apply vt_add; [exact U|]. apply flow_at_turned; auto.
Qed.
Lemma spin_renumbered f o f' o' j : flow_turned Q f f' -> outputs_renumbered Q s t Ns Nd o o' -> (j < Ns)%nat ->
  pseudo_turned Q (sphere_spin f o (s j)) (sphere_spin f' o' j).
Proof.
  intros (F1 & F2 & F3 & _) (O1 & _) Hj. destruct (O1 j Hj) as (_ & _ & _ & _ & W & _). unfold sphere_spin. apply pt_add; assumption.
Qed.
Lemma bead_flow_renumbered f o f' o' x x' : flow_turned Q f f' -> mat_turned Q (matof (Model_Output.o_Ea o) 0) (matof (Model_Output.o_Ea o') 0) ->
  vec_turned Q x x' -> vec_turned Q (bead_flow f o x) (bead_flow f' o' x').
Proof. intros (F1 & F2 & F3 & _) E X. unfold bead_flow. apply flow_at_turned; auto. Qed.

Variable m : nat.
Variables f f' : flow.
Variables o o' : outputs.
Variables V V' W W' : nat -> vec.
Variables p p' q q' : config.
Hypothesis HF : flow_turned Q f f'.
Hypothesis HO : outputs_renumbered Q s t Ns Nd o o'.
Hypothesis HE : strain0 o o'.
Hypothesis HP : config_renumbered Q s t Ns Nd p p'.
Hypothesis HV : (0 < m)%nat -> forall j, (j < Ns)%nat -> vec_turned Q (V (s j)) (V' j) /\ pseudo_turned Q (W (s j)) (W' j).
Hypothesis HA : oriented Ns p.
Hypothesis HA' : oriented Ns p'.
Hypothesis HM : moved_on inv3 Ns Nd g m f o V W p q.
Hypothesis HM' : moved_on inv3 Ns Nd g m f' o' V' W' p' q'.

Lemma step_renumbered : config_renumbered Q s t Ns Nd q q'.
Proof.
  destruct HM as (Z1 & Z2 & M1 & M2). destruct HM' as (Z1' & Z2' & M1' & M2').
  pose proof HP as (Y1 & Y2 & PS & PD). pose proof (proj1 Hs) as S1. pose proof (proj1 Ht) as T1.
  set (first := match g_scheme g with euler => true | _ => Nat.eqb m 0 end) in *.
  assert (FM : first = false -> (0 < m)%nat).
  { unfold first. destruct (g_scheme g); try discriminate; destruct (Nat.eqb_spec m 0); intros; try discriminate; lia. }
  assert (SP : forall j, (j < Ns)%nat -> vec_turned Q (fun l => if first then sphere_speed g f o p (s j) l else 3 / 2 * sphere_speed g f o p (s j) l - 1 / 2 * V (s j) l)
                     (fun l => if first then sphere_speed g f' o' p' j l else 3 / 2 * sphere_speed g f' o' p' j l - 1 / 2 * V' j l)).
  { intros j Hj. pose proof (speed_renumbered _ _ _ _ _ _ j HF HO HP Hj) as S. destruct first; [exact S|].
    apply (vt_sub Q (fun l => 3 / 2 * sphere_speed g f o p (s j) l) (fun l => 1 / 2 * V (s j) l)); apply vt_scal; [exact S|apply HV; auto]. }
  assert (SW : forall j, (j < Ns)%nat -> pseudo_turned Q (fun l => if first then sphere_spin f o (s j) l else 3 / 2 * sphere_spin f o (s j) l - 1 / 2 * W (s j) l)
                     (fun l => if first then sphere_spin f' o' j l else 3 / 2 * sphere_spin f' o' j l - 1 / 2 * W' j l)).
  { intros j Hj. pose proof (spin_renumbered _ _ _ _ j HF HO Hj) as S. destruct first; [exact S|].
    apply (pt_ext Q _ (fun l => 3 / 2 * sphere_spin f o (s j) l + - (1 / 2) * W (s j) l) _ (fun l => 3 / 2 * sphere_spin f' o' j l + - (1 / 2) * W' j l));
      try (intros; ring). apply pt_add; apply pt_scal; [exact S|apply HV; auto]. }
  split; [intros j; rewrite Z1, Z1'; apply Y1|]. split; [intros j; rewrite Z2, Z2'; apply Y2|]. split.
  - intros j Hj. pose proof (S1 j Hj) as Hsj. destruct (PS j Hj) as [PX PR].
    destruct (M1 (s j) Hsj) as (x & L & X & T). destruct (M1' j Hj) as (x' & L' & X' & T').
    assert (XT : vec_turned Q x x').
    { apply (vt_ext Q _ _ _ _ X X'). apply vt_add; [exact PX|]. apply vt_scal. apply SP. exact Hj. }
    split.
    + apply (vt_ext Q _ _ _ _ (landed_at inv3 g Hbox _ _ _ L) (landed_at inv3 g Hbox _ _ _ L')). exact XT.
    + intros k Hk. specialize (T k Hinv3 (armed Ns p (s j) k HA Hsj Hk)). specialize (T' k Hinv3 (armed Ns p' j k HA' Hj Hk)).
      match type of T with forall l, _ -> _ = ?r l => match type of T' with forall l, _ -> _ = ?r' l =>
        apply (vt_ext Q _ (fun l => x l + r l) _ (fun l => x' l + r' l)) end end.
      * intros l Hl. rewrite <- (T l Hl). unfold vsub. ring.
      * intros l Hl. rewrite <- (T' l Hl). unfold vsub. ring.
      * apply vt_add; [exact XT|]. apply (rodrigues_turned Q HQ); [apply SW; exact Hj|]. apply vt_sub; [apply PR; assumption|exact PX].
  - intros d Hd. pose proof (T1 d Hd) as Htd. destruct HE as [HE'|HE']; [lia|].
    destruct (M2 (t d) Htd) as ((x & L & X) & S). destruct (M2' d Hd) as ((x' & L' & X') & S').
    destruct (PD d Hd) as [D1 D2]. destruct HO as (_ & O2). destruct (O2 d Hd) as (_ & _ & U & H).
    destruct (beads_turned Q _ _ _ _ D1 D2) as [B1 B2].
    pose proof (bead_flow_renumbered _ _ _ _ _ _ HF HE' B1) as F1. pose proof (bead_flow_renumbered _ _ _ _ _ _ HF HE' B2) as F2.
    split.
    + apply (vt_ext Q _ _ _ _ (landed_at inv3 g Hbox _ _ _ L) (landed_at inv3 g Hbox _ _ _ L')). apply (vt_ext Q _ _ _ _ X X').
      apply vt_add; [exact D1|]. apply vt_scal. unfold centre_speed. apply vt_add; [exact U|].
      set (b1 := bead_flow f o (bead_minus (c_dpos p (t d)) (c_ddx p (t d)))) in *. set (b2 := bead_flow f o (bead_plus (c_dpos p (t d)) (c_ddx p (t d)))) in *.
      set (b1' := bead_flow f' o' (bead_minus (c_dpos p' d) (c_ddx p' d))) in *. set (b2' := bead_flow f' o' (bead_plus (c_dpos p' d) (c_ddx p' d))) in *.
      apply (vt_ext Q _ (fun l => / 2 * (b1 l + b2 l)) _ (fun l => / 2 * (b1' l + b2' l))); try (intros; field).
      apply vt_scal, vt_add; assumption.
    + apply (vt_ext Q _ _ _ _ S S'). apply vt_add; [exact D2|]. apply vt_scal. unfold stretch_speed. apply vt_add; [apply vt_scal; exact H|].
      apply (vt_sub Q (bead_flow f o _) (bead_flow f o _)); assumption.
Qed.
End Step.

Section Runs.
Variable inv : nat -> mat -> mat.
Variable inv3 : mat -> mat.
Variable solve : nat -> mat -> list R -> list R.
Variable sc : nat -> nat -> R -> nat -> R.
Variable table : list R.
Variable h : nat.
Variable stale : nat -> nat -> R.
Variable fm : form.
Variables bb minf_only : bool.
Variable cf : R.
Variable g : settings.
Variables input input' : config -> R -> res (inputs * flow).
Variables p0 p0' : config.
Notation N := (g_num_frames g).
Notation posed inp p := (posed_run inv inv3 solve sc table h stale Ns Nd fm bb minf_only cf g inp p).
Notation reach inp p := (reach inv inv3 solve sc table h stale Ns Nd fm bb minf_only cf g inp p).
Hypothesis Hcf : 0 < cf.
Hypothesis Hinv : inverts_posdef inv.
Hypothesis Hsolve : solves_posdef solve.
Hypothesis Hinv3 : inverts inv3.
Hypothesis Hbox : no_box_g g.
Hypothesis H2d : g_fully_2d g = false \/ keeps_y Q.
Hypothesis Hstart : g_start g = 0%nat.
Hypothesis Hscheme : g_scheme g = euler \/ g_scheme g = ab2.
Hypothesis HI : input_renumbered Q s t Ns Nd input input'.
Hypothesis HE : one_strain s Ns Nd fm input.
Hypothesis H0 : config_renumbered Q s t Ns Nd p0 p0'.
Hypothesis HA : oriented Ns p0.
Hypothesis HP : posed input p0.
Hypothesis HP' : posed input' p0'.
Hypothesis HR : minf_only = false -> forall m p, (m < N)%nat -> reach input p0 m p -> reciprocal_pairs sc table cf Ns Nd p.

Lemma start_oriented : oriented Ns p0'.
Proof.
  destruct H0 as (_ & _ & S & _). intros j k Hj Hk. destruct (S j Hj) as [S1 S2].
  pose proof (armed Ns p0 (s j) k HA (proj1 Hs j Hj) Hk) as A.
  destruct (nz_turned Q HQ _ (vsub (c_srot p0' j k) (c_spos p0' j)) (vt_sub Q _ _ _ _ (S2 k Hk) S1) A) as (l & Hl & E).
  exists l. split; [exact Hl|]. unfold vsub in E. lra.
Qed.

Section Frames.
Variables pos pos' : nat -> config.
Hypothesis Hr : forall m, (m <= N)%nat -> reach input p0 m (pos m).
Hypothesis Hr' : forall m, (m <= N)%nat -> reach input' p0' m (pos' m).

Lemma far_renumbers m L L' : (m < N)%nat -> (forall k, (k <= m)%nat -> config_renumbered Q s t Ns Nd (pos k) (pos' k)) ->
  far_resistance h stale Ns Nd bb g input pos m L -> far_resistance h stale Ns Nd bb g input' pos' m L' -> follows Q s t Ns Nd L L'.
Proof.
  intros Hm HT. unfold far_resistance. destruct (g_use_drag g) eqn:ED.
  - intros (i & f & E & _ & ->) (i' & f' & E' & _ & ->).
    destruct (HI _ _ _ _ _ _ _ (HT m (le_n m)) E E') as [_ (_ & _ & _ & Mu & _)]. rewrite Mu.
    apply drag_renumbered; try assumption. apply HT; lia.
  - intros (k & i & f & M & D & E & F & I) (k' & i' & f' & M' & D' & E' & F' & I').
    pose proof (latest_due_unique _ _ _ _ _ D D') as <-.
    assert (Hk : (k <= m)%nat) by (destruct D as ((_ & D) & _); lia).
    destruct (HI _ _ _ _ _ _ _ (HT k Hk) E E') as [_ (_ & _ & _ & Mu & Ub & Ub')].
    rewrite (proj1 F Ub) in I. rewrite (proj1 F' Ub') in I'. rewrite Mu in I'.
    refine (follows_inv Q s t Ns Nd Hs Ht _ _ L L' I I' _).
    apply far_renumbered; try assumption; [apply HT; exact Hk|].
    destruct HP as (_ & _ & _ & _ & HD). apply (HD (or_introl ED) k); [lia|apply Hr; lia].
Qed.
Lemma near_renumbers m f f' i i' N0 N0' : (m < N)%nat -> config_renumbered Q s t Ns Nd (pos m) (pos' m) ->
  input (pos m) (INR m) = Ok (i, f) -> input' (pos' m) (INR m) = Ok (i', f') ->
  near_field inv3 sc table Ns Nd bb minf_only cf (pos m) f N0 -> near_field inv3 sc table Ns Nd bb minf_only cf (pos' m) f' N0' -> follows Q s t Ns Nd N0 N0'.
Proof.
  intros Hm HT E E'. destruct (HI _ _ _ _ _ _ _ HT E E') as [_ (_ & _ & _ & Mu & Ub & Ub')].
  assert (HD : minf_only = false -> distinct_beads (Ns + 2 * Nd) (bead_positions (posdata_of Ns Nd (pos m))) (bead_sizes (posdata_of Ns Nd (pos m)))).
  { intros EM. destruct HP as (_ & _ & _ & _ & HD). apply (HD (or_intror EM) m); [lia|apply Hr; lia]. }
  assert (HRm : minf_only = false -> reciprocal_pairs sc table cf Ns Nd (pos m)).
  { intros EM. apply (HR EM m); [exact Hm|apply Hr; lia]. }
  unfold near_field. clear HP HP' HR. destruct minf_only.
  - intros -> ->. apply follows_zero.
  - intros [A _] [A' _]. specialize (A Ub). specialize (A' Ub'). rewrite Mu in A'.
    exact (near_renumbered Q HQ s t Ns Nd Hs Ht (pos m) (pos' m) HT (HD eq_refl) sc table bb cf (f_mu f) N0 N0' Hcf (HRm eq_refl) A A').
Qed.

Lemma frame_renumbered m f o f' o' : (m < N)%nat -> (forall k, (k <= m)%nat -> config_renumbered Q s t Ns Nd (pos k) (pos' k)) ->
  solved inv3 sc table h stale Ns Nd fm bb minf_only cf g input pos m f o ->
  solved inv3 sc table h stale Ns Nd fm bb minf_only cf g input' pos' m f' o' ->
  flow_turned Q f f' /\ outputs_renumbered Q s t Ns Nd o o' /\ strain0 o o'.
Proof.
  intros Hm HT (i & L & N0 & E & F & G & A) (i' & L' & N0' & E' & F' & G' & A').
  destruct (HI _ _ _ _ _ _ _ (HT m (le_n m)) E E') as [IT FT]. split; [exact FT|].
  assert (O : outputs_renumbered Q s t Ns Nd o o').
  { refine (answers_renumbered Q HQ s t Ns Nd Hs Ht fm i i' _ _ o o' IT A A' _ _).
    - apply follows_add; [exact (far_renumbers m L L' Hm HT F F')|].
      exact (near_renumbers m f f' i i' N0 N0' Hm (HT m (le_n m)) E E' G G').
    - destruct HP' as (_ & _ & _ & HG & _). apply (HG m pos' i' f' L' N0' Hm); try assumption. intros k Hk. apply Hr'. lia. }
  split; [exact O|]. exact (strain_first fm input _ _ i f _ o o' HE E A O).
Qed.
End Frames.

Theorem runs_renumbered a fs a' fs' :
  (0 < g_save_pos g)%nat -> (0 < g_save_forces g)%nat ->
  (g_save_after g mod g_save_pos g = 0)%nat -> (g_save_after g mod g_save_forces g = 0)%nat ->
  full_simulation inv inv3 solve sc table h stale Ns Nd fm false bb minf_only cf g input p0 = Ok (Some (a, fs)) ->
  full_simulation inv inv3 solve sc table h stale Ns Nd fm false bb minf_only cf g input' p0' = Ok (Some (a', fs')) ->
  Forall2 (snapshot_renumbered Q s t Ns Nd) a a' /\ Forall2 (forces_renumbered Q s t Ns Nd) fs fs'.
Proof.
  intros S1 S2 S3 S4 E E'. pose proof HP as (Q1 & Q2 & Q3 & Q4 & _). pose proof HP' as (R1 & R2 & R3 & R4 & _).
  destruct (whole_run inv inv3 solve sc table h stale Ns Nd fm false bb minf_only cf g input p0 Hinv Hsolve HNs eq_refl Hstart Hscheme Q1 Q2 Q3 Q4 a fs S1 S2 S3 S4 E)
    as (pos & fl & out & (P0 & Rc) & M & -> & ->).
  destruct (whole_run inv inv3 solve sc table h stale Ns Nd fm false bb minf_only cf g input' p0' Hinv Hsolve HNs eq_refl Hstart Hscheme R1 R2 R3 R4 a' fs' S1 S2 S3 S4 E')
    as (pos' & fl' & out' & (P0' & Rc') & M' & -> & ->).
  assert (INV : forall m, (m <= N)%nat -> (forall k, (k <= m)%nat -> config_renumbered Q s t Ns Nd (pos k) (pos' k)) /\ oriented Ns (pos m) /\ oriented Ns (pos' m)).
  { induction m as [|m IH]; intros Hm.
    - split; [|rewrite P0, P0'; split; [exact HA|exact start_oriented]].
      intros k Hk. replace k with 0%nat by lia. rewrite P0, P0'. exact H0.
    - destruct (IH ltac:(lia)) as (HT & A1 & A2). destruct (M m Hm) as [Sv Mv]. destruct (M' m Hm) as [Sv' Mv'].
      destruct (frame_renumbered pos pos' Rc Rc' m _ _ _ _ Hm HT Sv Sv') as (FT & OT & ST).
      split; [|split; [exact (step_oriented Ns Nd inv3 Hinv3 g Hbox m _ _ _ _ _ _ A1 Mv)|exact (step_oriented Ns Nd inv3 Hinv3 g Hbox m _ _ _ _ _ _ A2 Mv')]].
      intros k Hk. destruct (Nat.eq_dec k (S m)) as [->|]; [|apply HT; lia].
      refine (step_renumbered inv3 Hinv3 g Hbox H2d m _ _ _ _ _ _ _ _ _ _ _ _ FT OT ST (HT m (le_n m)) _ A1 A2 Mv Mv').
      intros Hm0 j Hj. destruct (M (m - 1)%nat ltac:(lia)) as [Pv _]. destruct (M' (m - 1)%nat ltac:(lia)) as [Pv' _].
      destruct (frame_renumbered pos pos' Rc Rc' (m - 1) _ _ _ _ ltac:(lia) ltac:(intros; apply HT; lia) Pv Pv') as (FT1 & OT1 & _).
      split; [|apply spin_renumbered; assumption].
      apply (speed_renumbered g H2d); try assumption. apply HT. lia. }
  assert (SN : forall m, (m <= N)%nat -> snapshot_renumbered Q s t Ns Nd (snap Ns (pos m)) (snap Ns (pos' m))).
  { intros m Hm. destruct (INV m Hm) as (HT & _). destruct (HT m (le_n m)) as (_ & _ & C1 & C2). split.
    - intros j Hj. cbn [snap n_pos n_rot]. unfold append_rows. pose proof (proj1 Hs j Hj).
      destruct (Nat.ltb_spec j Ns); [|lia]. destruct (Nat.ltb_spec (s j) Ns); [|lia]. apply C1; assumption.
    - intros d Hd. cbn [snap n_pos n_dx]. unfold append_rows.
      destruct (Nat.ltb_spec (Ns + d) Ns); [lia|]. destruct (Nat.ltb_spec (Ns + t d) Ns); [lia|].
      replace (Ns + d - Ns)%nat with d by lia. replace (Ns + t d - Ns)%nat with (t d) by lia. apply C2; assumption. }
  split.
  - apply Forall2_app.
    + apply Forall2_map. intros m Hm. apply SN. unfold due_frames in Hm. apply filter_In in Hm. destruct Hm as [Hm _]. apply in_seq in Hm. lia.
    + destruct (save_due _ _ _); constructor; [apply SN; lia|constructor].
  - apply Forall2_map. intros m Hm. unfold due_frames in Hm. apply filter_In in Hm. destruct Hm as [Hm _]. apply in_seq in Hm.
    destruct (INV m ltac:(lia)) as (HT & _). destruct (M m ltac:(lia)) as [Sv _]. destruct (M' m ltac:(lia)) as [Sv' _].
    destruct (frame_renumbered pos pos' Rc Rc' m _ _ _ _ ltac:(lia) HT Sv Sv') as (_ & (O1 & O2) & _). split.
    + intros j Hj. destruct (O1 j Hj) as (A & _ & B & _). split; assumption.
    + intros d Hd. destruct (O2 d Hd) as (A & B & _). split; assumption.
Qed.
End Runs.
End Renumber.
