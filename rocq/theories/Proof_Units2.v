(** Runs in other units. *)
From Coq Require Import Reals List Arith Bool Lia Lra Classical.
From Verif Require Import Base Py Model_Pack Model_Mob Model_Layout Model_Minf Model_Grand Model_Close Model_R2B Model_GrandP Model_Step
  Model_Output Model_Frame Model_Inputs Model_Sim
  Spec_Pack Spec_Layout Spec_Minf Spec_Convert Spec_Output Spec_Rotate Spec_Step Spec_Frame Spec_Posdef Spec_Run Spec_Run4 Spec_Turn Spec_Turn4 Spec_Units
  Proof_Step Proof_Step2 Proof_Frame Proof_Frame2 Proof_Run2 Proof_Run4 Proof_Minf2 Proof_Turn3 Proof_Turn4 Proof_Turn6 Proof_Rescale1 Proof_Units1.
Import ListNotations.
Local Open Scope R_scope.

Section Units.
Variables lam ups kap : R.
Variable org : vec.
Hypothesis Hl : 0 < lam.
Hypothesis Hu : 0 < ups.
Hypothesis Hk : 0 < kap.
Variables Ns Nd : nat.
Notation moved_pt := (point_moved lam org).
Notation rate := (rate_unit lam ups).
Notation phi := (force_unit lam ups kap).

Lemma ts_add s u v u' v' : vec_times s u u' -> vec_times s v v' -> vec_times s (fun l => u l + v l) (fun l => u' l + v' l).
Proof. intros A B l L. rewrite (A l L), (B l L). ring. Qed.
Lemma ts_scal s c v v' : vec_times s v v' -> vec_times s (fun l => c * v l) (fun l => c * v' l).
Proof. intros A l L. rewrite (A l L). ring. Qed.
Lemma pt_sub x y x' y' : moved_pt x x' -> moved_pt y y' -> vec_times lam (vsub x y) (vsub x' y').
Proof. intros A B l L. unfold vsub. rewrite (A l L), (B l L). ring. Qed.
Lemma pt_step x x' v v' t t' : t' * ups = lam * t -> moved_pt x x' -> vec_times ups v v' -> moved_pt (fun l => x l + t * v l) (fun l => x' l + t' * v' l).
Proof. intros T A B l L. rewrite (A l L), (B l L). transitivity (lam * x l + org l + t' * ups * v l); [ring|]. rewrite T. ring. Qed.
Lemma rate_pos : 0 < rate.
Proof. unfold rate_unit. apply Rdiv_lt_0_compat; assumption. Qed.
Lemma rate_lam : rate * lam = ups.
Proof. unfold rate_unit. field. lra. Qed.

Lemma cross_times s t u v u' v' : vec_times s u u' -> vec_times t v v' -> vec_times (s * t) (cross u v) (cross u' v').
Proof. intros A B l L. unfold cross, v3. idx3 L; cbv iota beta; rewrite !A, !B by lia; ring. Qed.
Lemma strain_times s t A A' v v' : mat_times s A A' -> vec_times t v v' -> vec_times (s * t) (mvec 3 A v) (mvec 3 A' v').
Proof. intros HA HB l L. unfold mvec. rewrite <- rsum_scal_l. apply rsum_ext. intros c Hc. rewrite (HA l c L Hc), (HB c Hc). ring. Qed.
Variable calm : bool.
Lemma flow_at_scaled U W E c x U' W' E' c' x' : vec_times ups U U' -> vec_times rate W W' -> mat_times rate E E' ->
  (if calm then forall l, (l < 3)%nat -> W l = 0 else moved_pt c c') -> (calm = true -> forall a b, (a < 3)%nat -> (b < 3)%nat -> E a b = 0) ->
  moved_pt x x' -> vec_times ups (linear_flow U W E c x) (linear_flow U' W' E' c' x').
Proof.
  intros A B C D Z F. destruct calm.
  - specialize (Z eq_refl). intros l L. unfold linear_flow. rewrite (A l L).
    assert (W0 : forall l, (l < 3)%nat -> W' l = 0) by (intros k Hk0; rewrite (B k Hk0), (D k Hk0); ring).
    assert (C1 : cross W (vsub x c) l = 0) by (unfold cross, v3; idx3 L; cbv iota beta; rewrite !D by lia; ring).
    assert (C2 : cross W' (vsub x' c') l = 0) by (unfold cross, v3; idx3 L; cbv iota beta; rewrite !W0 by lia; ring).
    assert (E1 : mvec 3 E (vsub x c) l = 0) by (unfold mvec; apply rsum_zero; intros k Hk0; rewrite (Z l k L Hk0); ring).
    assert (E2 : mvec 3 E' (vsub x' c') l = 0) by (unfold mvec; apply rsum_zero; intros k Hk0; rewrite (C l k L Hk0), (Z l k L Hk0); ring).
    rewrite C1, C2, E1, E2. ring.
  - clear Z. pose proof (pt_sub _ _ _ _ F D) as X. unfold linear_flow. apply ts_add; [apply ts_add; [exact A|]|]; rewrite <- rate_lam.
    + apply cross_times; assumption.
    + apply strain_times; assumption.
Qed.

Lemma norm_times s w w' : 0 < s -> vec_times s w w' -> norm w' = s * norm w.
Proof. intros Hs H. rewrite (norm_ext3 w' (vscal s w)) by exact H. apply Proof_Rescale1.norm_vscal. exact Hs. Qed.
Lemma norm_comp w l : norm w = 0 -> (l < 3)%nat -> w l = 0.
Proof.
  intros E L. unfold norm in E. apply sqrt_eq_0 in E; [|nra]. idx3 L; nra.
Qed.
Lemma rodrigues_times s w w' v v' t t' : 0 < s -> vec_times s w w' -> vec_times lam v v' -> t' * s = t ->
  vec_times lam (rodrigues w (norm w * t) v) (rodrigues w' (norm w' * t') v').
Proof.
  intros Hs A B T. unfold rodrigues. cbv zeta. rewrite (norm_times s w w' Hs A).
  replace (s * norm w * t') with (norm w * t) by (rewrite <- T; ring). set (th := norm w * t). clearbody th.
  assert (K : vec_times 1 (vscal (/ norm w) w) (vscal (/ (s * norm w)) w')).
  { intros l L. unfold vscal. rewrite (A l L). destruct (Req_dec (norm w) 0) as [Z|Z].
    - rewrite (norm_comp w l Z L). ring.
    - field. split; lra. }
  set (k := vscal (/ norm w) w) in *. set (k' := vscal (/ (s * norm w)) w') in *. clearbody k k'.
  apply ts_add; [apply ts_add|].
  - apply ts_scal. exact B.
  - apply ts_scal. intros l L. rewrite (cross_times 1 lam k v k' v' K B l L). ring.
  - intros l L. unfold dot3. rewrite !(K l L), !(K 0%nat), !(K 1%nat), !(K 2%nat), !(B 0%nat), !(B 1%nat), !(B 2%nat) by lia. ring.
Qed.
Lemma nz_times s v v' : 0 < s -> vec_times s v v' -> (exists l, (l < 3)%nat /\ v l <> 0) -> exists l, (l < 3)%nat /\ v' l <> 0.
Proof. intros Hs A (l & L & E). exists l. split; [exact L|]. rewrite (A l L). apply Rmult_integral_contrapositive_currified; [lra|exact E]. Qed.
Lemma scaled_oriented p p' : config_scaled lam org Ns Nd p p' -> oriented Ns p -> oriented Ns p'.
Proof.
  intros (_ & _ & S & T & _) HA j k Hj Hk0.
  destruct (nz_times lam _ (vsub (c_srot p' j k) (c_spos p' j)) Hl (pt_sub _ _ _ _ (T j k Hj Hk0) (S j Hj)) (armed Ns p j k HA Hj Hk0)) as (l & L & E).
  exists l. split; [exact L|]. unfold vsub in E. lra.
Qed.

(** ** One step *)
Variable inv3 : mat -> mat.
Hypothesis Hinv3 : inverts inv3.
Variable g : settings.
Variable dt' : R.
Hypothesis Hdt : dt' * ups = lam * g_dt g.
Hypothesis Hbox : no_box_g g.
Hypothesis HNs : (0 < Ns)%nat.
Notation g' := (retimed dt' g).
Lemma Hbox' : no_box_g g'.
Proof. exact Hbox. Qed.

Lemma moved_scaled ta t t' f U W B D p q f' U' W' B' D' p' q' : t' * ups = lam * t ->
  (forall j, (j < Ns)%nat -> vec_times ups (U j) (U' j) /\ vec_times rate (W j) (W' j)) ->
  (forall d, (d < Nd)%nat -> vec_times ups (B d) (B' d) /\ vec_times ups (D d) (D' d)) ->
  config_scaled lam org Ns Nd p p' -> oriented Ns p ->
  moved_by inv3 Ns Nd g ta t f U W B D p q -> moved_by inv3 Ns Nd g' ta t' f' U' W' B' D' p' q' -> config_scaled lam org Ns Nd q q'.
Proof.
  intros T SP DP HC HA (Z1 & Z2 & M1 & M2) (Z1' & Z2' & M1' & M2'). pose proof (scaled_oriented p p' HC HA) as HA'.
  destruct HC as (Y1 & Y2 & PS & PR & PD).
  assert (Trate : t' * rate = t) by (unfold rate_unit, Rdiv; rewrite <- Rmult_assoc, T; field; lra).
  assert (X0 : forall j, (j < Ns)%nat -> forall x x', (forall l, (l < 3)%nat -> x l = c_spos p j l + t * U j l) ->
     (forall l, (l < 3)%nat -> x' l = c_spos p' j l + t' * U' j l) -> moved_pt x x').
  { intros j Hj x x' X X' l L. rewrite (X l L), (X' l L). apply (pt_step _ _ _ _ t t' T (PS j Hj) (proj1 (SP j Hj)) l L). }
  split; [rewrite Z1', Z1, Y1; reflexivity|]. split; [rewrite Z2', Z2, Y2; reflexivity|]. split; [|split].
  - intros j Hj. destruct (M1 j Hj) as (x & L & X & _). destruct (M1' j Hj) as (x' & L' & X' & _). intros l Hl0.
    rewrite (landed_at inv3 g Hbox _ _ _ L l Hl0), (landed_at inv3 g' Hbox' _ _ _ L' l Hl0). apply (X0 j Hj x x' X X' l Hl0).
  - intros j k Hj Hk0. destruct (M1 j Hj) as (x & L & X & TT). destruct (M1' j Hj) as (x' & L' & X' & TT').
    specialize (TT k Hinv3 (armed Ns p j k HA Hj Hk0)). specialize (TT' k Hinv3 (armed Ns p' j k HA' Hj Hk0)).
    pose proof (rodrigues_times rate (W j) (W' j) _ _ t t' rate_pos (proj2 (SP j Hj)) (pt_sub _ _ _ _ (PR j k Hj Hk0) (PS j Hj)) Trate) as RR.
    intros l Hl0. specialize (RR l Hl0). rewrite <- (TT l Hl0), <- (TT' l Hl0) in RR. unfold vsub in RR.
    rewrite (centre_of inv3 g Hbox ta _ _ _ L l Hl0), (centre_of inv3 g' Hbox' ta _ _ _ L' l Hl0), (X0 j Hj x x' X X' l Hl0) in RR. lra.
  - intros d Hd. destruct (M2 d Hd) as ((x & L & X) & S). destruct (M2' d Hd) as ((x' & L' & X') & S').
    destruct (PD d Hd) as [D1 D2]. destruct (DP d Hd) as [E1 E2]. split; intros l Hl0.
    + rewrite (landed_at inv3 g Hbox _ _ _ L l Hl0), (landed_at inv3 g' Hbox' _ _ _ L' l Hl0), (X l Hl0), (X' l Hl0).
      apply (pt_step _ _ _ _ t t' T D1 E1 l Hl0).
    + rewrite (S l Hl0), (S' l Hl0), (D2 l Hl0), (E2 l Hl0). transitivity (lam * c_ddx p d l + t' * ups * D d l); [ring|]. rewrite T. ring.
Qed.
Lemma moved_on_by gg m f o V W p q : moved_on inv3 Ns Nd gg m f o V W p q ->
  let first := match g_scheme gg with euler => true | _ => Nat.eqb m 0 end in
  moved_by inv3 Ns Nd gg false (g_dt gg) f
    (fun j l => if first then sphere_speed gg f o p j l else 3 / 2 * sphere_speed gg f o p j l - 1 / 2 * V j l)
    (fun j l => if first then sphere_spin f o j l else 3 / 2 * sphere_spin f o j l - 1 / 2 * W j l)
    (centre_speed f o p) (stretch_speed f o p) p q.
Proof. intros H. exact H. Qed.

Definition oscaled (o o' : outputs) : Prop := outputs_scaled lam ups kap Ns Nd o o' /\ (calm = true -> strainless Ns o).
Definition matz (A : mat) : Prop := calm = true -> forall a b, (a < 3)%nat -> (b < 3)%nat -> A a b = 0.
Notation fscaled := (flow_scaled lam ups kap org calm).
Notation cscaled := (config_scaled lam org Ns Nd).
Lemma stage_spheres f o p f' o' p' j : fscaled f f' -> oscaled o o' -> cscaled p p' -> (j < Ns)%nat ->
  vec_times ups (stage_speed f o p j) (stage_speed f' o' p' j) /\ vec_times rate (sphere_spin f o j) (sphere_spin f' o' j).
Proof.
  intros (F1 & F2 & _ & _ & _ & _ & F3) [(O1 & _) OZ] (_ & _ & C1 & _) Hj. destruct (O1 j Hj) as (_ & _ & _ & U & W & E). split.
  - unfold stage_speed. apply ts_add; [exact U|]. apply flow_at_scaled; auto. intros HZ a b Ha Hb. apply (OZ HZ); assumption.
  - unfold sphere_spin. apply ts_add; assumption.
Qed.
Lemma speed_scaled f o p f' o' p' j : fscaled f f' -> oscaled o o' -> cscaled p p' -> (j < Ns)%nat ->
  vec_times ups (sphere_speed g f o p j) (sphere_speed g' f' o' p' j).
Proof.
  intros F O C Hj l L. unfold sphere_speed. cbn [retimed g_fully_2d]. destruct (g_fully_2d g && Nat.eqb l 1)%bool; [ring|].
  exact (proj1 (stage_spheres f o p f' o' p' j F O C Hj) l L).
Qed.
Lemma beads_scaled x d x' d' : moved_pt x x' -> vec_times lam d d' -> moved_pt (bead_minus x d) (bead_minus x' d') /\ moved_pt (bead_plus x d) (bead_plus x' d').
Proof. intros A B. split; intros l L; unfold bead_minus, bead_plus; rewrite (A l L), (B l L); field. Qed.
Lemma stage_dumbbells f o A p f' o' A' p' d : fscaled f f' -> oscaled o o' -> mat_times rate A A' -> matz A -> cscaled p p' -> (d < Nd)%nat ->
  vec_times ups (stage_centre f o A p d) (stage_centre f' o' A' p' d) /\ vec_times ups (stage_stretch f o A p d) (stage_stretch f' o' A' p' d).
Proof.
  intros (F1 & F2 & _ & _ & _ & _ & F3) [(_ & O2) _] HA HZ (_ & _ & _ & _ & PD) Hd. destruct (O2 d Hd) as (_ & _ & U & H). destruct (PD d Hd) as [D1 D2].
  destruct (beads_scaled _ _ _ _ D1 D2) as [B1 B2].
  assert (G : forall x x', moved_pt x x' -> vec_times ups (flow_with f A x) (flow_with f' A' x'))
    by (intros x x' X; unfold flow_with; apply flow_at_scaled; assumption).
  pose proof (G _ _ B1) as G1. pose proof (G _ _ B2) as G2. unfold stage_centre, stage_stretch.
  split; intros l L; rewrite (G1 l L), (G2 l L); [rewrite (U l L)|rewrite (H l L)]; field.
Qed.
Lemma frame_dumbbells f o p f' o' p' d : fscaled f f' -> oscaled o o' -> cscaled p p' -> (d < Nd)%nat ->
  vec_times ups (centre_speed f o p d) (centre_speed f' o' p' d) /\ vec_times ups (stretch_speed f o p d) (stretch_speed f' o' p' d).
Proof.
  intros F O C Hd. pose proof O as [(O1 & O2) OZ]. destruct (O1 0%nat HNs) as (_ & _ & _ & _ & _ & E).
  refine (stage_dumbbells f o _ p f' o' _ p' d F O E _ C Hd). intros HZ a b Ha Hb. apply (OZ HZ); assumption.
Qed.

(** ** Whole runs *)
Variable inv : nat -> mat -> mat.
Variable solve : nat -> mat -> list R -> list R.
Variable sc : nat -> nat -> R -> nat -> R.
Variable table : list R.
Variable h : nat.
Variable stale : nat -> nat -> R.
Variable fm : form.
Variables bb minf_only : bool.
Variable cf : R.
Variables input input' : config -> R -> res (inputs * flow).
Variables p0 p0' : config.
Notation n := (11 * Ns + 6 * Nd)%nat.
Notation N := (g_num_frames g).
Notation rch gg inp p := (Proof_Run2.reached inv inv3 solve sc table h stale Ns Nd fm false bb minf_only cf gg inp p).
Hypothesis Hcf : 0 < cf.
Hypothesis Hinv : inverts_posdef inv.
Hypothesis Hsolve : solves_posdef solve.
Hypothesis Hstart : g_start g = 0%nat.
Hypothesis HI : input_scaled lam ups kap org Ns Nd calm fm input input'.
Hypothesis H0 : cscaled p0 p0'.
Hypothesis HA : oriented Ns p0.

Notation rscaled := (resist_scaled lam kap Ns Nd).
Notation both c := (apart_both lam Ns Nd c).

Lemma far_of_units c c' t L L' : cscaled c c' -> (g_use_drag g = false -> both c) ->
  far_of h stale Ns Nd bb g input c t L -> far_of h stale Ns Nd bb g' input' c' t L' -> rscaled L L'.
Proof.
  intros HT HD. unfold far_of. cbn [retimed g_use_drag]. destruct (g_use_drag g) eqn:ED.
  - intros (i & f & E & _ & ->) (i' & f' & E' & _ & ->).
    destruct (HI _ _ _ _ _ _ _ HT E E') as (_ & (_ & _ & Mu & _) & _). rewrite Mu. exact (drag_units lam kap org Ns Nd c c' HT (f_mu f)).
  - intros (i & f & M & E & F & I) (i' & f' & M' & E' & F' & I').
    destruct (HI _ _ _ _ _ _ _ HT E E') as (_ & (_ & _ & Mu & Mp & Ub & Ub' & _) & _).
    rewrite (proj1 F Ub) in I. rewrite (proj1 F' Ub') in I'. rewrite Mu in I'.
    exact (far_units lam kap org Hl Hk Ns Nd c c' HT (HD eq_refl) bb (f_mu f) L L' ltac:(lra) I I').
Qed.
Lemma near_same_units c c' t f f' i i' N0 N0' : cscaled c c' -> (minf_only = false -> both c) ->
  input c t = Ok (i, f) -> input' c' t = Ok (i', f') ->
  near_field inv3 sc table Ns Nd bb minf_only cf c f N0 -> near_field inv3 sc table Ns Nd bb minf_only cf c' f' N0' -> rscaled N0 N0'.
Proof.
  intros HT HD E E'. destruct (HI _ _ _ _ _ _ _ HT E E') as (_ & (_ & _ & Mu & _ & Ub & Ub' & _) & _).
  unfold near_field. destruct minf_only.
  - intros -> -> r s _ _. unfold mzero. ring.
  - intros [A _] [A' _]. specialize (A Ub). specialize (A' Ub'). rewrite Mu in A'.
    exact (near_units lam kap org Hl Ns Nd c c' HT (HD eq_refl) sc table bb cf (f_mu f) N0 N0' Hcf A A').
Qed.
Lemma far_same_units pos pos' m L L' : (forall k, (k <= m)%nat -> cscaled (pos k) (pos' k)) ->
  (g_use_drag g = false -> forall k, (k <= m)%nat -> both (pos k)) ->
  far_resistance h stale Ns Nd bb g input pos m L -> far_resistance h stale Ns Nd bb g' input' pos' m L' -> rscaled L L'.
Proof.
  intros HT HD F F'. unfold far_resistance in F, F'. cbn [retimed g_use_drag g_invert_every] in F, F'.
  destruct (g_use_drag g) eqn:ED.
  - refine (far_of_units (pos m) (pos' m) (INR m) _ _ (HT m (le_n m)) _ _ _); [congruence| |]; unfold far_of; cbn [retimed g_use_drag]; rewrite ED; assumption.
  - destruct F as (k & i & f & M & D & E & F & I). destruct F' as (k' & i' & f' & M' & D' & E' & F' & I').
    pose proof (latest_due_unique _ _ _ _ _ D D') as <-.
    assert (Hk0 : (k <= m)%nat) by (destruct D as ((_ & D) & _); lia).
    refine (far_of_units (pos k) (pos' k) (INR k) _ _ (HT k Hk0) (fun _ => HD eq_refl k Hk0) _ _); unfold far_of; cbn [retimed g_use_drag]; rewrite ED.
    + exists i, f, M. auto.
    + exists i', f', M'. auto.
Qed.

Lemma snap_scaled p p' : cscaled p p' -> snapshot_scaled lam org Ns Nd (snap Ns p) (snap Ns p').
Proof.
  intros (_ & _ & C1 & C2 & C3). split; [|split].
  - intros j Hj. cbn [snap n_pos]. unfold append_rows. destruct (Nat.ltb_spec j Ns); [apply C1; assumption|]. apply C3. lia.
  - exact C2.
  - intros d Hd. apply (C3 d Hd).
Qed.

Section Two.
Hypothesis Hscheme : g_scheme g = euler \/ g_scheme g = ab2.
Hypothesis HP : posed_run inv inv3 solve sc table h stale Ns Nd fm bb minf_only cf g input p0.
Hypothesis HP' : posed_run inv inv3 solve sc table h stale Ns Nd fm bb minf_only cf g' input' p0'.
Hypothesis HS : spread_run lam inv inv3 solve sc table h stale Ns Nd fm bb minf_only cf g input p0.

Lemma frame_scaled pos pos' m f o f' o' : (forall m, (m <= N)%nat -> rch g input p0 m (pos m)) -> (forall m, (m <= N)%nat -> rch g' input' p0' m (pos' m)) ->
  (m < N)%nat -> (forall k, (k <= m)%nat -> cscaled (pos k) (pos' k)) ->
  solved inv3 sc table h stale Ns Nd fm bb minf_only cf g input pos m f o ->
  solved inv3 sc table h stale Ns Nd fm bb minf_only cf g' input' pos' m f' o' -> fscaled f f' /\ oscaled o o'.
Proof.
  intros Hr Hr' Hm HT (i & L & N0 & E & F & G & A) (i' & L' & N0' & E' & F' & G' & A').
  destruct (HI _ _ _ _ _ _ _ (HT m (le_n m)) E E') as (IT & FT & NZ). split; [exact FT|]. split; [|intros HZ; exact (answers_strainless Ns Nd fm i _ _ (NZ HZ) A)].
  refine (answers_scaled lam ups kap Hl Ns Nd fm i i' _ _ o o' IT A A' _ _).
  - apply resist_add.
    + apply (far_same_units pos pos' m L L' HT); try assumption. intros ED k Hk0. apply (HS (or_introl ED) k); [lia|apply Hr; lia].
    + refine (near_same_units _ _ _ _ _ i i' N0 N0' (HT m (le_n m)) _ E E' G G'). intros EM. apply (HS (or_intror EM) m); [lia|apply Hr; lia].
  - destruct HP' as (_ & _ & _ & HG & _). apply (HG m pos' i' f' L' N0' Hm); try assumption. intros k Hk0. apply Hr'. lia.
Qed.

Theorem runs_scaled s fs s' fs' :
  (0 < g_save_pos g)%nat -> (0 < g_save_forces g)%nat ->
  (g_save_after g mod g_save_pos g = 0)%nat -> (g_save_after g mod g_save_forces g = 0)%nat ->
  full_simulation inv inv3 solve sc table h stale Ns Nd fm false bb minf_only cf g input p0 = Ok (Some (s, fs)) ->
  full_simulation inv inv3 solve sc table h stale Ns Nd fm false bb minf_only cf g' input' p0' = Ok (Some (s', fs')) ->
  Forall2 (snapshot_scaled lam org Ns Nd) s s' /\ Forall2 (forces_scaled lam ups kap Ns Nd) fs fs'.
Proof.
  intros S1 S2 S3 S4 E E'. pose proof HP as (Q1 & Q2 & Q3 & Q4 & _). pose proof HP' as (R1 & R2 & R3 & R4 & _).
  destruct (whole_run inv inv3 solve sc table h stale Ns Nd fm false bb minf_only cf g input p0 Hinv Hsolve HNs eq_refl Hstart Hscheme Q1 Q2 Q3 Q4 s fs S1 S2 S3 S4 E)
    as (pos & fl & out & (P0 & Rc) & M & -> & ->).
  destruct (whole_run inv inv3 solve sc table h stale Ns Nd fm false bb minf_only cf g' input' p0' Hinv Hsolve HNs eq_refl Hstart Hscheme R1 R2 R3 R4 s' fs' S1 S2 S3 S4 E')
    as (pos' & fl' & out' & (P0' & Rc') & M' & -> & ->).
  cbn [retimed g_num_frames g_save_pos g_save_forces g_save_after] in *.
  assert (INV : forall m, (m <= N)%nat -> (forall k, (k <= m)%nat -> cscaled (pos k) (pos' k)) /\ oriented Ns (pos m)).
  { induction m as [|m IH]; intros Hm.
    - split; [|rewrite P0; exact HA]. intros k Hk0. replace k with 0%nat by lia. rewrite P0, P0'. exact H0.
    - destruct (IH ltac:(lia)) as (HT & A1). destruct (M m Hm) as [Sv Mv]. destruct (M' m Hm) as [Sv' Mv'].
      destruct (frame_scaled pos pos' m _ _ _ _ Rc Rc' Hm HT Sv Sv') as [FT OT].
      split; [|exact (step_oriented Ns Nd inv3 Hinv3 g Hbox m _ _ _ _ _ _ A1 Mv)].
      intros k Hk0. destruct (Nat.eq_dec k (S m)) as [->|]; [|apply HT; lia].
      pose proof (moved_on_by g m _ _ _ _ _ _ Mv) as Mb. pose proof (moved_on_by g' m _ _ _ _ _ _ Mv') as Mb'. cbv zeta in Mb, Mb'.
      cbn [retimed g_scheme g_dt] in Mb'.
      refine (moved_scaled _ _ _ _ _ _ _ _ _ _ _ _ _ _ _ _ _ Hdt _ _ (HT m (le_n m)) A1 Mb Mb').
      + intros j Hj. pose proof (speed_scaled _ _ _ _ _ _ j FT OT (HT m (le_n m)) Hj) as SP. destruct (stage_spheres _ _ _ _ _ _ j FT OT (HT m (le_n m)) Hj) as [_ SW].
        destruct (match g_scheme g with euler => true | _ => Nat.eqb m 0 end) eqn:EF; [split; assumption|].
        assert (Hm0 : (0 < m)%nat) by (destruct (g_scheme g); try discriminate; destruct m; try discriminate; lia).
        destruct (M (m - 1)%nat ltac:(lia)) as [Pv _]. destruct (M' (m - 1)%nat ltac:(lia)) as [Pv' _].
        destruct (frame_scaled pos pos' (m - 1) _ _ _ _ Rc Rc' ltac:(lia) ltac:(intros; apply HT; lia) Pv Pv') as [FT1 OT1].
        pose proof (speed_scaled _ _ _ _ _ _ j FT1 OT1 (HT (m - 1)%nat ltac:(lia)) Hj) as SP1.
        destruct (stage_spheres _ _ _ _ _ _ j FT1 OT1 (HT (m - 1)%nat ltac:(lia)) Hj) as [_ SW1].
        split; intros l L; [rewrite (SP l L), (SP1 l L)|rewrite (SW l L), (SW1 l L)]; ring.
      + intros d Hd. apply frame_dumbbells; auto. }
  split.
  - apply Forall2_app.
    + apply Forall2_map. intros m Hm. apply snap_scaled. unfold due_frames in Hm. apply filter_In in Hm. destruct Hm as [Hm _]. apply in_seq in Hm.
      destruct (INV m ltac:(lia)) as (HT & _). apply HT. lia.
    + destruct (save_due _ _ _); constructor; [|constructor]. apply snap_scaled. destruct (INV N ltac:(lia)) as (HT & _). apply HT. lia.
  - apply Forall2_map. intros m Hm. unfold due_frames in Hm. apply filter_In in Hm. destruct Hm as [Hm _]. apply in_seq in Hm.
    destruct (INV m ltac:(lia)) as (HT & _). destruct (M m ltac:(lia)) as [Sv _]. destruct (M' m ltac:(lia)) as [Sv' _].
    destruct (frame_scaled pos pos' m _ _ _ _ Rc Rc' ltac:(lia) HT Sv Sv') as [_ [(O1 & O2) _]]. split.
    + intros j Hj. destruct (O1 j Hj) as (A & _ & B & _). split; assumption.
    + intros d Hd. destruct (O2 d Hd) as (A & B & _). split; assumption.
Qed.
End Two.

(** ** Runge-Kutta *)
Lemma mean_ts s (a a' : nat -> vec) : (forall k, (k < 4)%nat -> vec_times s (a k) (a' k)) ->
  vec_times s (fun l => mean4 (fun k => a k l)) (fun l => mean4 (fun k => a' k l)).
Proof. intros H l L. unfold mean4. rewrite !(fun k Hk0 => H k Hk0 l L) by lia. ring. Qed.
Lemma mean_ms s (a a' : nat -> mat) : (forall k, (k < 4)%nat -> mat_times s (a k) (a' k)) ->
  mat_times s (fun i j => mean4 (fun k => a k i j)) (fun i j => mean4 (fun k => a' k i j)).
Proof. intros H i j Hi Hj. unfold mean4. rewrite !(fun k Hk0 => H k Hk0 i j Hi Hj) by lia. ring. Qed.

Section Four.
Hypothesis Hscheme : g_scheme g = rk4.
Hypothesis HP : posed_run4 inv inv3 solve sc table h stale Ns Nd fm bb minf_only cf g input p0.
Hypothesis HP' : posed_run4 inv inv3 solve sc table h stale Ns Nd fm bb minf_only cf g' input' p0'.
Hypothesis HSp : spread_run4 lam inv inv3 solve sc table h stale Ns Nd fm bb minf_only cf g input p0.
Notation stg gg inp := (stages inv3 sc table h stale Ns Nd fm bb minf_only cf gg inp).

Lemma stages_less gg inp pos m K K' q L fl o : (K' <= K)%nat -> stg gg inp pos m K q L fl o -> stg gg inp pos m K' q L fl o.
Proof. intros HK (A & B & C). split; [exact A|]. split; intros k Hk0; [apply B; lia|intros H3; apply C; lia]. Qed.

Section Frames.
Variables pos pos' : nat -> config.
Hypothesis Hr : forall m, (m <= N)%nat -> rch g input p0 m (pos m).
Hypothesis Hr' : forall m, (m <= N)%nat -> rch g' input' p0' m (pos' m).
Variable q q' : nat -> nat -> config.
Variable L L' : nat -> nat -> mat.
Variable fl fl' : nat -> nat -> flow.
Variable o o' : nat -> nat -> outputs.
Hypothesis HS : forall m, (m < N)%nat -> stg g input pos m 4 (q m) (L m) (fl m) (o m).
Hypothesis HS' : forall m, (m < N)%nat -> stg g' input' pos' m 4 (q' m) (L' m) (fl' m) (o' m).
Notation frames_ok m := (forall k, (k <= m)%nat -> cscaled (pos k) (pos' k)).

Lemma stage_both m k : (m < N)%nat -> (k < 4)%nat -> g_use_drag g = false \/ minf_only = false -> both (q m k).
Proof.
  intros Hm Hk0 HD. refine (HSp HD m pos k (q m) (L m) (fl m) (o m) Hm Hk0 _ _).
  - intros k0 Hk1. apply Hr. lia.
  - apply (stages_less g input pos m 4); [lia|apply HS; exact Hm].
Qed.
Lemma first_far_units m : (m < N)%nat -> frames_ok m -> rscaled (L m 0%nat) (L' m 0%nat).
Proof.
  intros Hm HT. destruct (HS m Hm) as (_ & B2 & _). destruct (HS' m Hm) as (_ & B2' & _).
  destruct (B2 0%nat ltac:(lia)) as [F _]. destruct (B2' 0%nat ltac:(lia)) as [F' _]. unfold stage_far in F, F'.
  refine (far_same_units pos pos' m _ _ HT _ F F'). intros ED k Hk0. destruct (HS k ltac:(lia)) as (B & _). rewrite <- B. apply stage_both; [lia|lia|left; exact ED].
Qed.
Lemma later_far_units m k : (m < N)%nat -> (k < 4)%nat -> frames_ok m -> cscaled (q m k) (q' m k) -> rscaled (L m k) (L' m k).
Proof.
  intros Hm Hk0 HT HC. pose proof (first_far_units m Hm HT) as H1. destruct k as [|k]; [exact H1|].
  destruct (HS m Hm) as (_ & B2 & _). destruct (HS' m Hm) as (_ & B2' & _).
  destruct (B2 (S k) Hk0) as [[F1 F2] _]. destruct (B2' (S k) Hk0) as [[F1' F2'] _]. cbn [retimed g_use_drag g_rk4_each g_invert_every] in F1', F2'.
  destruct (classic (g_use_drag g = true \/ (g_rk4_each g = true /\ inversion_due 0 (g_invert_every g) m))) as [C|C].
  - refine (far_of_units _ _ _ _ _ HC _ (F1 C) (F1' C)). intros ED. apply stage_both; auto.
  - assert (C1 : g_use_drag g = false) by (destruct (g_use_drag g); tauto).
    assert (C2 : g_rk4_each g = false \/ ~ inversion_due 0 (g_invert_every g) m) by (destruct (g_rk4_each g); tauto).
    rewrite (F2 C1 C2), (F2' C1 C2). exact H1.
Qed.
Lemma stage_scaled m k : (m < N)%nat -> (k < 4)%nat -> frames_ok m -> cscaled (q m k) (q' m k) -> fscaled (fl m k) (fl' m k) /\ oscaled (o m k) (o' m k).
Proof.
  intros Hm Hk0 HT HC. pose proof (later_far_units m k Hm Hk0 HT HC) as HL.
  pose proof (HS m Hm) as (_ & B2 & _). pose proof (HS' m Hm) as (_ & B2' & _).
  destruct (B2 k Hk0) as [F (i & N0 & E & G & A)]. destruct (B2' k Hk0) as [F' (i' & N0' & E' & G' & A')].
  destruct (HI _ _ _ _ _ _ _ HC E E') as (IT & FT & NZ). split; [exact FT|]. split; [|intros HZ; exact (answers_strainless Ns Nd fm i _ _ (NZ HZ) A)].
  refine (answers_scaled lam ups kap Hl Ns Nd fm i i' _ _ _ _ IT A A' _ _).
  - apply resist_add; [exact HL|]. refine (near_same_units _ _ _ _ _ i i' N0 N0' HC _ E E' G G'). intros EM. apply stage_both; auto.
  - destruct HP' as (_ & HG & _).
    refine (proj2 (proj2 (HG m pos' k (q' m) (L' m) (fl' m) (o' m) Hm Hk0 _ _ i' _ E')) _ N0' F' G').
    + intros k0 Hk1. apply Hr'. lia.
    + apply (stages_less g' input' pos' m 4); [lia|apply HS'; exact Hm].
Qed.
Lemma step_times k : stage_step dt' k * ups = lam * stage_step (g_dt g) k.
Proof. destruct k as [|[|k]]; cbn [stage_step]; lra. Qed.
Lemma stages_scaled m : (m < N)%nat -> frames_ok m -> oriented Ns (pos m) ->
  forall k, (k < 4)%nat -> forall j, (j <= k)%nat -> cscaled (q m j) (q' m j).
Proof.
  intros Hm HT A1. pose proof (HS m Hm) as (B & _ & M). pose proof (HS' m Hm) as (B' & _ & M').
  induction k as [|k IH]; intros Hk0 j Hj.
  - replace j with 0%nat by lia. rewrite B, B'. apply HT. lia.
  - destruct (Nat.eq_dec j (S k)) as [->|]; [|apply IH; lia].
    specialize (M k ltac:(lia) ltac:(lia)). specialize (M' k ltac:(lia) ltac:(lia)). cbv zeta in M, M'. cbn [retimed g_dt] in M'.
    destruct (stage_scaled m k Hm ltac:(lia) HT (IH ltac:(lia) k (le_n k))) as [FT OT].
    assert (SL : (strain_stage k <= k)%nat) by (destruct k as [|[|k]]; cbn; lia).
    destruct (stage_scaled m (strain_stage k) Hm ltac:(lia) HT (IH ltac:(lia) _ SL)) as [_ [(OE & _) OZ]].
    destruct (OE 0%nat HNs) as (_ & _ & _ & _ & _ & EE).
    refine (moved_scaled _ _ _ _ _ _ _ _ _ _ _ _ _ _ _ _ _ (step_times k) _ _ (HT m (le_n m)) A1 M M').
    + intros i Hi. apply stage_spheres; auto.
    + intros i Hi. apply stage_dumbbells; auto. intros HZ a b Ha Hb. apply (OZ HZ); assumption.
Qed.
Lemma frame_scaled4 m : (m < N)%nat -> frames_ok m -> oriented Ns (pos m) ->
  forall k, (k < 4)%nat -> fscaled (fl m k) (fl' m k) /\ oscaled (o m k) (o' m k).
Proof. intros Hm HT A1 k Hk0. apply stage_scaled; auto. apply (stages_scaled m Hm HT A1 k Hk0 k (le_n k)). Qed.
End Frames.

Theorem runs_scaled4 s fs s' fs' :
  (0 < g_save_pos g)%nat -> (0 < g_save_forces g)%nat ->
  (g_save_after g mod g_save_pos g = 0)%nat -> (g_save_after g mod g_save_forces g = 0)%nat ->
  full_simulation inv inv3 solve sc table h stale Ns Nd fm false bb minf_only cf g input p0 = Ok (Some (s, fs)) ->
  full_simulation inv inv3 solve sc table h stale Ns Nd fm false bb minf_only cf g' input' p0' = Ok (Some (s', fs')) ->
  Forall2 (snapshot_scaled lam org Ns Nd) s s' /\ Forall2 (forces_scaled lam ups kap Ns Nd) fs fs'.
Proof.
  intros S1 S2 S3 S4 E E'. pose proof HP as (Q1 & Q2 & _). pose proof HP' as (R1 & R2 & _).
  destruct (whole_run_reached inv inv3 solve sc table h stale Ns Nd fm bb minf_only cf g input p0 Hinv Hsolve HNs Hstart Hscheme Q1 Q2 s fs S1 S2 S3 S4 E)
    as (pos & q & L & fl & out & (P0 & Rc) & M & -> & ->).
  destruct (whole_run_reached inv inv3 solve sc table h stale Ns Nd fm bb minf_only cf g' input' p0' Hinv Hsolve HNs Hstart Hscheme R1 R2 s' fs' S1 S2 S3 S4 E')
    as (pos' & q' & L' & fl' & out' & (P0' & Rc') & M' & -> & ->).
  cbn [retimed g_num_frames g_save_pos g_save_forces g_save_after] in *.
  pose proof (fun m Hm => proj1 (M m Hm)) as MS. pose proof (fun m Hm => proj1 (M' m Hm)) as MS'.
  pose proof (frame_scaled4 pos pos' Rc Rc' q q' L L' fl fl' out out' MS MS') as FT.
  assert (INV : forall m, (m <= N)%nat -> (forall k, (k <= m)%nat -> cscaled (pos k) (pos' k)) /\ oriented Ns (pos m)).
  { induction m as [|m IH]; intros Hm.
    - split; [|rewrite P0; exact HA]. intros k Hk0. replace k with 0%nat by lia. rewrite P0, P0'. exact H0.
    - destruct (IH ltac:(lia)) as (HT & A1). destruct (M m Hm) as [_ Mv]. destruct (M' m Hm) as [_ Mv'].
      unfold advanced in Mv, Mv'. cbv zeta in Mv, Mv'. cbn [retimed g_dt g_fully_2d] in Mv'. specialize (FT m Hm HT A1).
      split; [|exact (moved_oriented Ns Nd inv3 Hinv3 g Hbox _ _ _ _ _ _ _ _ _ A1 Mv)].
      intros k Hk0. destruct (Nat.eq_dec k (S m)) as [->|]; [|apply HT; lia].
      refine (moved_scaled _ _ _ _ _ _ _ _ _ _ _ _ _ _ _ _ _ Hdt _ _ (HT m (le_n m)) A1 Mv Mv').
      + intros j Hj. cbn beta. split.
        * intros l Ll. destruct (g_fully_2d g && Nat.eqb l 1)%bool; [ring|].
          apply (mean_ts ups (fun k => stage_speed (fl m k) (out m k) (pos m) j) (fun k => stage_speed (fl' m k) (out' m k) (pos' m) j)); [|exact Ll].
          intros i Hi. destruct (FT i Hi). apply stage_spheres; auto.
        * apply (mean_ts rate (fun k => sphere_spin (fl m k) (out m k) j) (fun k => sphere_spin (fl' m k) (out' m k) j)).
          intros i Hi. destruct (FT i Hi). apply (stage_spheres _ _ (pos m) _ _ (pos' m)); auto.
      + assert (EE : forall i, (i < 4)%nat -> mat_times rate (matof (Model_Output.o_Ea (out m (strain_stage i))) 0) (matof (Model_Output.o_Ea (out' m (strain_stage i))) 0)).
        { intros i Hi. assert (SL : (strain_stage i < 4)%nat) by (destruct i as [|[|i]]; cbn; lia).
          destruct (FT _ SL) as [_ [(OE & _) _]]. apply (OE 0%nat HNs). }
        assert (EZ : forall i, (i < 4)%nat -> matz (matof (Model_Output.o_Ea (out m (strain_stage i))) 0)).
        { intros i Hi HZ a b Ha Hb. assert (SL : (strain_stage i < 4)%nat) by (destruct i as [|[|i]]; cbn; lia).
          destruct (FT _ SL) as [_ [_ OZ]]. apply (OZ HZ); assumption. }
        intros d Hd. cbn beta. split.
        * apply (mean_ts ups (fun k => stage_centre (fl m k) (out m k) (matof (Model_Output.o_Ea (out m (strain_stage k))) 0) (pos m) d)
            (fun k => stage_centre (fl' m k) (out' m k) (matof (Model_Output.o_Ea (out' m (strain_stage k))) 0) (pos' m) d)).
          intros i Hi. destruct (FT i Hi). apply stage_dumbbells; auto.
        * apply (mean_ts ups (fun k => stage_stretch (fl m k) (out m k) (matof (Model_Output.o_Ea (out m (strain_stage k))) 0) (pos m) d)
            (fun k => stage_stretch (fl' m k) (out' m k) (matof (Model_Output.o_Ea (out' m (strain_stage k))) 0) (pos' m) d)).
          intros i Hi. destruct (FT i Hi). apply stage_dumbbells; auto. }
  split.
  - apply Forall2_app.
    + apply Forall2_map. intros m Hm. apply snap_scaled. unfold due_frames in Hm. apply filter_In in Hm. destruct Hm as [Hm _]. apply in_seq in Hm.
      destruct (INV m ltac:(lia)) as (HT & _). apply HT. lia.
    + destruct (save_due _ _ _); constructor; [|constructor]. apply snap_scaled. destruct (INV N ltac:(lia)) as (HT & _). apply HT. lia.
  - apply Forall2_map. intros m Hm. unfold due_frames in Hm. apply filter_In in Hm. destruct Hm as [Hm _]. apply in_seq in Hm.
    destruct (INV m ltac:(lia)) as (HT & A1). specialize (FT m ltac:(lia) HT A1). unfold mean_forces, forces_scaled. cbn [n_Fa n_Fb n_DFb n_Sa]. split.
    + intros j Hj. split.
      * apply (mean_ts phi (fun k => rowof (Model_Output.o_Fa (out m k)) j) (fun k => rowof (Model_Output.o_Fa (out' m k)) j)).
        intros k Hk0. destruct (FT k Hk0) as [_ [(O1 & _) _]]. apply (O1 j Hj).
      * apply (mean_ms _ (fun k => matof (Model_Output.o_Sa (out m k)) j) (fun k => matof (Model_Output.o_Sa (out' m k)) j)).
        intros k Hk0. destruct (FT k Hk0) as [_ [(O1 & _) _]]. destruct (O1 j Hj) as (_ & _ & B & _). exact B.
    + intros d Hd. split.
      * apply (mean_ts phi (fun k => rowof (Model_Output.o_Fb (out m k)) d) (fun k => rowof (Model_Output.o_Fb (out' m k)) d)).
        intros k Hk0. destruct (FT k Hk0) as [_ [(_ & O2) _]]. apply (O2 d Hd).
      * apply (mean_ts phi (fun k => rowof (Model_Output.o_DFb (out m k)) d) (fun k => rowof (Model_Output.o_DFb (out' m k)) d)).
        intros k Hk0. destruct (FT k Hk0) as [_ [(_ & O2) _]]. apply (O2 d Hd).
Qed.
End Four.
End Units.
