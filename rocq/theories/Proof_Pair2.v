(** Runs with two equal spheres pulled alike. *)
From Coq Require Import Reals List Arith ZArith Bool Lia Lra Classical.
From Verif Require Import Base Py Model_Pack Model_Mob Model_Layout Model_Minf Model_Grand Model_Close Model_R2B Model_GrandP Model_Step
  Model_Output Model_Frame Model_Inputs Model_Sim
  Spec_Pack Spec_Convert Spec_Output Spec_Layout Spec_Minf Spec_Rotate Spec_Close Spec_R2B Spec_Step Spec_Frame Spec_Posdef Spec_Run Spec_Run4
  Spec_Turn Spec_Turn4 Spec_Renumber Spec_Work Spec_Pair
  Proof_Posdef Proof_Frame Proof_Run2 Proof_Run4 Proof_Turn1 Proof_Turn2 Proof_Turn3 Proof_Renumber1 Proof_Work Proof_Work2 Proof_Work3 Proof_Pair.
Import ListNotations.
Local Open Scope R_scope.

Section Runs.
Variable inv : nat -> mat -> mat.
Variable inv3 : mat -> mat.
Variable solve : nat -> mat -> list R -> list R.
Variable sc : nat -> nat -> R -> nat -> R.
Variable table : list R.
Variable h : nat.
Variable stale : nat -> nat -> R.
Variable fm : form.
Variables bb minf_only : bool.
Variable cf : R.
Variable g : settings.
Variable input : config -> R -> res (inputs * flow).
Variable p0 : config.
Variable mu : R.
Variable F : list R.
Notation N := (g_num_frames g).
Hypothesis Hcf : 0 < cf.
Hypothesis Hinv : inverts_posdef inv.
Hypothesis Hsolve : solves_posdef solve.
Hypothesis Hstart : g_start g = 0%nat.
Hypothesis Hbox : no_box_g g.
Hypothesis HI : pulled_alike fm mu F input.
Hypothesis Hsz : c_ssizes p0 0%nat = c_ssizes p0 1%nat.
Notation paired := (paired (c_ssizes p0) (c_dsizes p0) (vsub (c_spos p0 1%nat) (c_spos p0 0%nat))).
Notation distinct c := (distinct_beads 2 (bead_positions (posdata_of 2 0 c)) (bead_sizes (posdata_of 2 0 c))).

Lemma paired_start : paired p0.
Proof. split; [reflexivity|]. split; [reflexivity|]. intros l Hl. reflexivity. Qed.
Lemma input_alike p t i f : input p t = Ok (i, f) -> alike fm F i f /\ unbounded f /\ f_mu f = mu.
Proof. intros E. destruct (HI p t i f E) as (A & B & C & D & G). split; [|split; assumption]. split; [exact A|split; assumption]. Qed.

(** Matrices of arrangements that differ by a translation. *)
Definition far_pair (L : mat) : Prop :=
  if g_use_drag g then exists p, paired p /\ L = drag_Minfinity_inverse (posdata_of 2 0 p) mu
  else exists p, paired p /\ distinct p /\ is_inv 22 (generate_Minfinity bb (posdata_of 2 0 p) mu) L.
Definition near_pair (N0 : mat) : Prop :=
  if minf_only then N0 = mzero
  else exists p, paired p /\ distinct p /\ generate_R2Bexact_free sc table bb (posdata_of 2 0 p) cf mu = Some N0.
Lemma far_folw L L' : far_pair L -> far_pair L' -> folw L L'.
Proof.
  unfold far_pair. destruct (g_use_drag g).
  - intros (p & P & ->) (p' & P' & ->). apply (drag_paired _ _ Hsz _ p p' mu P P').
  - intros (p & P & D & I) (p' & P' & D' & I').
    refine (follows_inv inversion flip2 (fun d => d) 2 0 flip2_permutes none_permutes _ _ L L' I I' _).
    apply (far_paired _ _ Hsz _ p p' bb mu P P' D).
Qed.
Lemma near_folw N0 N0' : near_pair N0 -> near_pair N0' -> folw N0 N0'.
Proof.
  unfold near_pair. destruct minf_only.
  - intros -> ->. apply follows_zero.
  - intros (p & P & D & I) (p' & P' & D' & I'). exact (near_paired _ _ Hsz _ p p' sc table bb cf mu N0 N0' Hcf P P' D I I').
Qed.

Definition solved_pair (f : flow) (o : outputs) : Prop :=
  exists i p t L N0, input p t = Ok (i, f) /\ far_pair L /\ near_pair N0 /\ pos_def 22 (madd L N0) /\ answers 2 0 fm i (madd L N0) o.
Lemma solved_speeds f o f' o' j : solved_pair f o -> solved_pair f' o' -> (j < 2)%nat ->
  (forall l, (l < 3)%nat -> rowof (oUa o') j l = rowof (oUa o) (flip2 j) l /\ rowof (oOa o') j l = - rowof (oOa o) (flip2 j) l) /\
  (forall a b, (a < 3)%nat -> (b < 3)%nat -> matof (oSa o') j a b = - matof (oSa o) (flip2 j) a b).
Proof.
  intros (i & p & t & L & N0 & E & A & B & C & D) (i' & p' & t' & L' & N0' & E' & A' & B' & C' & D').
  refine (pair_speeds fm i i' f f' F (madd L N0) (madd L' N0') o o' (proj1 (input_alike _ _ _ _ E)) (proj1 (input_alike _ _ _ _ E')) D D' _ C' j).
  apply follows_add; [apply far_folw|apply near_folw]; assumption.
Qed.
(** All speeds are those of the first sphere in the reference solution. *)
Lemma all_speeds f o f' o' j l : solved_pair f o -> solved_pair f' o' -> (j < 2)%nat -> (l < 3)%nat -> rowof (oUa o') j l = rowof (oUa o) 0%nat l.
Proof.
  intros S S' Hj Hl. destruct j as [|[|j]]; [| |lia].
  - rewrite (proj1 (proj1 (solved_speeds f o f' o' 0%nat S S' ltac:(lia)) l Hl)). cbn [flip2].
    rewrite (proj1 (proj1 (solved_speeds f o f o 1%nat S S ltac:(lia)) l Hl)). reflexivity.
  - rewrite (proj1 (proj1 (solved_speeds f o f' o' 1%nat S S' ltac:(lia)) l Hl)). reflexivity.
Qed.
Lemma all_stresslets f o f' o' a b : solved_pair f o -> solved_pair f' o' -> (a < 3)%nat -> (b < 3)%nat ->
  matof (oSa o') 0%nat a b = matof (oSa o) 0%nat a b /\ matof (oSa o') 1%nat a b = - matof (oSa o) 0%nat a b.
Proof.
  intros S S' Ha Hb. split.
  - rewrite (proj2 (solved_speeds f o f' o' 0%nat S S' ltac:(lia)) a b Ha Hb). cbn [flip2].
    rewrite (proj2 (solved_speeds f o f o 1%nat S S ltac:(lia)) a b Ha Hb). cbn [flip2]. ring.
  - rewrite (proj2 (solved_speeds f o f' o' 1%nat S S' ltac:(lia)) a b Ha Hb). reflexivity.
Qed.
(** No flow is added. *)
Lemma pair_still f o j x l : solved_pair f o -> (j < 2)%nat -> (l < 3)%nat ->
  linear_flow (f_U f) (f_O f) (matof (oEa o) j) (f_centre f) x l = 0.
Proof.
  intros (i & p & t & L & N0 & E & _ & _ & _ & D) Hj Hl. destruct (input_alike _ _ _ _ E) as [A _].
  apply still_flow; [apply (proj1 A)| |exact Hl]. intros a b Ha Hb. apply (quiet_matof 2 0 fm); try assumption; [apply D|].
  exact (quiet_answers 2 0 fm i f (madd L N0) o (alike_fm fm F i f A) (proj1 A) D).
Qed.

Lemma far_of_pair q t L : paired q -> (g_use_drag g = false -> distinct q) -> far_of h stale 2 0 bb g input q t L -> far_pair L.
Proof.
  intros P D. unfold far_of, far_pair. destruct (g_use_drag g).
  - intros (i & f & E & U & ->). destruct (input_alike _ _ _ _ E) as (_ & _ & M). exists q. rewrite M. split; [exact P|reflexivity].
  - intros (i & f & M & E & FM & I). destruct (input_alike _ _ _ _ E) as (_ & U & Mu). exists q. split; [exact P|]. split; [apply D; reflexivity|].
    rewrite (proj1 FM U), Mu in I. exact I.
Qed.
Lemma far_res_pair pos m L : (forall k, (k <= m)%nat -> paired (pos k) /\ (g_use_drag g = false -> distinct (pos k))) ->
  far_resistance h stale 2 0 bb g input pos m L -> far_pair L.
Proof.
  intros P. unfold far_resistance. intros H. destruct (g_use_drag g) eqn:ED.
  - apply (far_of_pair (pos m) (INR m)); [apply P; lia|rewrite ED; discriminate|]. unfold far_of. rewrite ED. exact H.
  - destruct H as (k & i & f & M & D & E & FM & I). assert (Hk : (k <= m)%nat) by (destruct D as ((_ & D) & _); lia).
    apply (far_of_pair (pos k) (INR k)); [apply P; exact Hk|intros _; apply P; [exact Hk|reflexivity]|]. unfold far_of. rewrite ED. exists i, f, M. auto.
Qed.
Lemma near_field_pair q t i f N0 : paired q -> (minf_only = false -> distinct q) -> input q t = Ok (i, f) ->
  near_field inv3 sc table 2 0 bb minf_only cf q f N0 -> near_pair N0.
Proof.
  intros P D E. destruct (input_alike _ _ _ _ E) as (_ & U & Mu). unfold near_field, near_pair. destruct minf_only; [exact (fun x => x)|].
  intros [A _]. specialize (A U). rewrite Mu in A. exists q. split; [exact P|]. split; [apply D; reflexivity|exact A].
Qed.

Lemma paired_carried p U q : paired p -> c_ssizes q = c_ssizes p -> c_dsizes q = c_dsizes p ->
  (forall j l, (j < 2)%nat -> (l < 3)%nat -> c_spos q j l = c_spos p j l + U l) -> paired q.
Proof.
  intros (A & B & C) S1 S2 X. split; [congruence|]. split; [congruence|]. intros l Hl. rewrite !X by lia. rewrite <- (C l Hl). ring.
Qed.

Hypothesis S1 : (0 < g_save_pos g)%nat.
Hypothesis S2 : (0 < g_save_forces g)%nat.
Hypothesis S3 : (g_save_after g mod g_save_pos g = 0)%nat.
Hypothesis S4 : (g_save_after g mod g_save_forces g = 0)%nat.
Variables (s : list snapshot) (fs : list fsnapshot).
Hypothesis E : full_simulation inv inv3 solve sc table h stale 2 0 fm false bb minf_only cf g input p0 = Ok (Some (s, fs)).

(** What the saved rows look like. *)
Definition straight (U : vec) (S : mat) : Prop := exists (pos : nat -> snapshot) (frc : nat -> fsnapshot),
  (forall m, (m <= N)%nat -> carried p0 U (INR m * g_dt g) (pos m)) /\
  (forall m, (m < N)%nat -> opposite_stresslets S (frc m)) /\
  s = map pos (due_frames (g_save_pos g) (g_save_after g) N) ++ (if save_due (g_save_pos g) (g_save_after g) (N - 1) then [pos N] else []) /\
  fs = map frc (due_frames (g_save_forces g) (g_save_after g) N).
(** They are the solution in some frame of the run. *)
Definition worked_out (U : vec) (S : mat) : Prop := exists f o, solved_pair f o /\
  (forall l, U l = if (g_fully_2d g && Nat.eqb l 1)%bool then 0 else rowof (oUa o) 0%nat l) /\ S = matof (oSa o) 0%nat.
Lemma snap_sphere p j : (j < 2)%nat -> n_pos (snap 2 p) j = c_spos p j.
Proof. intros Hj. cbn [snap n_pos]. unfold append_rows. destruct (Nat.ltb_spec j 2); [reflexivity|lia]. Qed.

Lemma solved_euler : g_scheme g = euler \/ g_scheme g = ab2 ->
  posed_run inv inv3 solve sc table h stale 2 0 fm bb minf_only cf g input p0 -> exists U S, straight U S /\ ((0 < N)%nat -> worked_out U S).
Proof.
  intros Hsch (Hq & Hw & Hf & Hg & HD).
  destruct (whole_run inv inv3 solve sc table h stale 2 0 fm false bb minf_only cf g input p0 Hinv Hsolve ltac:(lia) eq_refl Hstart Hsch Hq Hw Hf Hg
    s fs S1 S2 S3 S4 E) as (pos & fl & out & (P0 & PR) & P1 & P2 & P3).
  set (U := fun l => if (g_fully_2d g && Nat.eqb l 1)%bool then 0 else rowof (oUa (out 0%nat)) 0%nat l).
  assert (SV : forall m, (m < N)%nat -> (forall k, (k <= m)%nat -> paired (pos k)) -> solved_pair (fl m) (out m)).
  { intros m Hm HP. destruct (P1 m Hm) as [(i & L & N0 & A1 & A2 & A3 & A4) _]. exists i, (pos m), (INR m), L, N0.
    split; [exact A1|]. split; [|split; [|split; [|exact A4]]].
    - apply (far_res_pair pos m); [|exact A2]. intros k Hk. split; [apply HP; exact Hk|]. intros ED. apply (HD (or_introl ED) k); [lia|apply PR; lia].
    - apply (near_field_pair (pos m) (INR m) i (fl m)); [apply HP; lia| |exact A1|exact A3]. intros EM. apply (HD (or_intror EM) m); [lia|apply PR; lia].
    - refine (Hg m pos i (fl m) L N0 Hm _ A1 A2 A3). intros k Hk. apply PR. lia. }
  assert (INV : forall m, (m <= N)%nat -> forall k, (k <= m)%nat -> paired (pos k) /\
            forall j l, (j < 2)%nat -> (l < 3)%nat -> c_spos (pos k) j l = c_spos p0 j l + INR k * g_dt g * U l).
  { induction m as [|m IH]; intros Hm k Hk.
    - replace k with 0%nat by lia. rewrite P0. split; [exact paired_start|]. intros j l Hj Hl. cbn [INR]. ring.
    - destruct (Nat.eq_dec k (S m)) as [->|]; [|apply IH; lia]. specialize (IH ltac:(lia)).
      assert (SVk : forall k, (k <= m)%nat -> solved_pair (fl k) (out k)) by (intros k' Hk'; apply SV; [lia|intros; apply IH; lia]).
      assert (SP : forall k j l, (k <= m)%nat -> (j < 2)%nat -> (l < 3)%nat -> sphere_speed g (fl k) (out k) (pos k) j l = U l).
      { intros k' j l Hk' Hj Hl. unfold sphere_speed, U. destruct (g_fully_2d g && Nat.eqb l 1)%bool; [reflexivity|].
        rewrite (pair_still _ _ j _ l (SVk k' Hk') Hj Hl), (all_speeds _ _ _ _ j l (SVk 0%nat ltac:(lia)) (SVk k' Hk') Hj Hl). ring. }
      destruct (P1 m Hm) as [_ (Z1 & Z2 & M1 & _)]. cbv zeta in M1.
      assert (X : forall j l, (j < 2)%nat -> (l < 3)%nat -> c_spos (pos (S m)) j l = c_spos (pos m) j l + g_dt g * U l).
      { intros j l Hj Hl. destruct (M1 j Hj) as (x & L & X & _). rewrite (landed_at inv3 g Hbox _ _ _ L l Hl), (X l Hl).
        rewrite !SP by (assumption || lia). destruct (match g_scheme g with euler => true | _ => Nat.eqb m 0 end); [reflexivity|field]. }
      destruct (IH m (le_n m)) as [PM XM]. split.
      + apply (paired_carried (pos m) (fun l => g_dt g * U l)); assumption.
      + intros j l Hj Hl. rewrite X, XM by assumption. rewrite S_INR. ring. }
  exists U, (matof (oSa (out 0%nat)) 0). split.
  2:{ intros HN. exists (fl 0%nat), (out 0%nat). split; [|split; [intros l; reflexivity|reflexivity]]. apply SV; [exact HN|]. intros k Hk. apply (INV k); lia. }
  exists (fun m => snap 2 (pos m)), (fun m => forces_of (out m)).
  split; [|split; [|split; assumption]].
  - intros m Hm j l Hj Hl. rewrite snap_sphere by exact Hj. apply (INV m Hm m (le_n m)); assumption.
  - intros m Hm a b Ha Hb. cbn [forces_of n_Sa].
    assert (SVk : forall k, (k <= m)%nat -> solved_pair (fl k) (out k)) by (intros k' Hk'; apply SV; [lia|intros; apply (INV k'); lia]).
    apply (all_stresslets (fl 0%nat) (out 0%nat) (fl m) (out m)); try assumption; apply SVk; lia.
Qed.

Lemma solved_rk4 : g_scheme g = rk4 ->
  posed_run4 inv inv3 solve sc table h stale 2 0 fm bb minf_only cf g input p0 -> exists U S, straight U S /\ ((0 < N)%nat -> worked_out U S).
Proof.
  intros Hsch (Hq & Hp & HD).
  destruct (whole_run_reached inv inv3 solve sc table h stale 2 0 fm bb minf_only cf g input p0 Hinv Hsolve ltac:(lia) Hstart Hsch Hq Hp
    s fs S1 S2 S3 S4 E) as (pos & q & L & fl & out & (P0 & PR) & P1 & P2 & P3).
  set (U1 := rowof (oUa (out 0%nat 0%nat)) 0%nat).
  set (U := fun l => if (g_fully_2d g && Nat.eqb l 1)%bool then 0 else U1 l).
  assert (DQ : forall m k, (m < N)%nat -> (k < 4)%nat -> g_use_drag g = false \/ minf_only = false -> distinct (q m k)).
  { intros m k Hm Hk HO. destruct (P1 m Hm) as [(Q0 & Q1 & Q2) _].
    apply (HD HO m pos k (q m) (L m) (fl m) (out m) Hm Hk).
    - intros a Ha. apply PR. lia.
    - split; [exact Q0|]. split; [intros a Ha; apply Q1; lia|intros a Ha Ha'; apply Q2; lia]. }
  assert (SV : forall m k, (m < N)%nat -> (k < 4)%nat -> (forall a, (a <= m)%nat -> paired (pos a)) -> (forall a, (a <= k)%nat -> paired (q m a)) ->
     solved_pair (fl m k) (out m k)).
  { intros m k Hm Hk HP HQ. destruct (P1 m Hm) as [(Q0 & Q1 & Q2) _]. destruct (Q1 k Hk) as [SF (i & N0 & A1 & A2 & A3)].
    assert (F0 : far_pair (L m 0%nat)).
    { destruct (Q1 0%nat ltac:(lia)) as [SF0 _]. cbn [stage_far] in SF0. apply (far_res_pair pos m); [|exact SF0].
      intros a Ha. split; [apply HP; exact Ha|]. intros ED.
      destruct (P1 a ltac:(lia)) as [(Q0a & _) _]. rewrite <- Q0a. apply DQ; [lia|lia|left; exact ED]. }
    exists i, (q m k), (stage_time m k), (L m k), N0. split; [exact A1|]. split; [|split; [|split; [|exact A3]]].
    - destruct k as [|k]; [exact F0|]. cbn [stage_far] in SF. destruct SF as [SF1 SF2].
      destruct (classic (g_use_drag g = true \/ g_rk4_each g = true /\ inversion_due 0 (g_invert_every g) m)) as [C|C].
      + apply (far_of_pair (q m (S k)) (stage_time m (S k))); [apply HQ; lia|intros ED; apply DQ; [exact Hm|exact Hk|left; exact ED]|exact (SF1 C)].
      + rewrite SF2; [exact F0|destruct (g_use_drag g); [exfalso; apply C; left; reflexivity|reflexivity]|].
        destruct (g_rk4_each g); [right|left; reflexivity]. intros D. apply C. right. split; [reflexivity|exact D].
    - apply (near_field_pair (q m k) (stage_time m k) i (fl m k)); [apply HQ; lia| |exact A1|exact A2]. intros EM. apply DQ; [exact Hm|exact Hk|right; exact EM].
    - refine (proj2 (proj2 (Hp m pos k (q m) (L m) (fl m) (out m) Hm Hk _ _ i (fl m k) A1)) (L m k) N0 SF A2).
      + intros a Ha. apply PR. lia.
      + split; [exact Q0|]. split; [intros a Ha; apply Q1; lia|intros a Ha Ha'; apply Q2; lia]. }
  (* the stages of a frame *)
  assert (ST : forall m, (m < N)%nat -> (forall a, (a <= m)%nat -> paired (pos a)) -> forall k, (k < 4)%nat -> forall a, (a <= k)%nat -> paired (q m a)).
  { intros m Hm HP. destruct (P1 m Hm) as [(Q0 & Q1 & Q2) _]. induction k as [|k IH]; intros Hk a Ha.
    - replace a with 0%nat by lia. rewrite Q0. apply HP. lia.
    - destruct (Nat.eq_dec a (S k)) as [->|]; [|apply IH; lia]. specialize (IH ltac:(lia)).
      pose proof (SV m k Hm ltac:(lia) HP IH) as SK. destruct (Q2 k ltac:(lia) ltac:(lia)) as (Z1 & Z2 & M1 & _).
      apply (paired_carried (pos m) (fun l => stage_step (g_dt g) k * rowof (oUa (out m k)) 0%nat l)); [apply HP; lia|exact Z1|exact Z2|].
      intros j l Hj Hl. destruct (M1 j Hj) as (x & LX & X & _). rewrite (landed_at inv3 g Hbox _ _ _ LX l Hl), (X l Hl).
      unfold stage_speed. rewrite (pair_still _ _ j _ l SK Hj Hl), (all_speeds _ _ _ _ j l SK SK Hj Hl). ring. }
  assert (INV : forall m, (m <= N)%nat -> forall k, (k <= m)%nat -> paired (pos k) /\
            forall j l, (j < 2)%nat -> (l < 3)%nat -> c_spos (pos k) j l = c_spos p0 j l + INR k * g_dt g * U l).
  { induction m as [|m IH]; intros Hm k Hk.
    - replace k with 0%nat by lia. rewrite P0. split; [exact paired_start|]. intros j l Hj Hl. cbn [INR]. ring.
    - destruct (Nat.eq_dec k (S m)) as [->|]; [|apply IH; lia]. specialize (IH ltac:(lia)).
      assert (SVk : forall k a, (k <= m)%nat -> (a < 4)%nat -> solved_pair (fl k a) (out k a)).
      { intros k' a Hk' Ha. apply SV; [lia|exact Ha|intros; apply IH; lia|]. intros b Hb. apply (ST k' ltac:(lia)) with (k := a); [intros; apply IH; lia|exact Ha|exact Hb]. }
      assert (SP : forall a j l, (a < 4)%nat -> (j < 2)%nat -> (l < 3)%nat -> stage_speed (fl m a) (out m a) (pos m) j l = U1 l).
      { intros a j l Ha Hj Hl. unfold stage_speed.
        rewrite (pair_still _ _ j _ l (SVk m a ltac:(lia) Ha) Hj Hl), (all_speeds _ _ _ _ j l (SVk 0%nat 0%nat ltac:(lia) ltac:(lia)) (SVk m a ltac:(lia) Ha) Hj Hl).
        unfold U1. ring. }
      destruct (P1 m Hm) as [_ (Z1 & Z2 & M1 & _)]. cbv zeta in M1.
      assert (X : forall j l, (j < 2)%nat -> (l < 3)%nat -> c_spos (pos (S m)) j l = c_spos (pos m) j l + g_dt g * U l).
      { intros j l Hj Hl. destruct (M1 j Hj) as (x & LX & X & _). rewrite (landed_at inv3 g Hbox _ _ _ LX l Hl), (X l Hl).
        unfold U, mean4. destruct (g_fully_2d g && Nat.eqb l 1)%bool; [reflexivity|]. rewrite !SP by (assumption || lia). field. }
      destruct (IH m (le_n m)) as [PM XM]. split.
      + apply (paired_carried (pos m) (fun l => g_dt g * U l)); assumption.
      + intros j l Hj Hl. rewrite X, XM by assumption. rewrite S_INR. ring. }
  exists U, (matof (oSa (out 0%nat 0%nat)) 0). split.
  2:{ intros HN. exists (fl 0%nat 0%nat), (out 0%nat 0%nat). split; [|split; [intros l; reflexivity|reflexivity]].
      apply SV; [exact HN|lia|intros k Hk; apply (INV k); lia|].
      intros b Hb. apply (ST 0%nat HN) with (k := 0%nat); [intros k Hk; apply (INV k); lia|lia|exact Hb]. }
  exists (fun m => snap 2 (pos m)), (fun m => mean_forces (out m)).
  split; [|split; [|split; assumption]].
  - intros m Hm j l Hj Hl. rewrite snap_sphere by exact Hj. apply (INV m Hm m (le_n m)); assumption.
  - intros m Hm a b Ha Hb. cbn [mean_forces n_Sa].
    assert (SVk : forall k a, (k <= m)%nat -> (a < 4)%nat -> solved_pair (fl k a) (out k a)).
    { intros k' c Hk' Hc. apply SV; [lia|exact Hc|intros; apply (INV k'); lia|]. intros d Hd. apply (ST k' ltac:(lia)) with (k := c); [intros; apply (INV k'); lia|exact Hc|exact Hd]. }
    assert (T : forall k, (k < 4)%nat -> matof (oSa (out m k)) 0%nat a b = matof (oSa (out 0%nat 0%nat)) 0%nat a b /\ matof (oSa (out m k)) 1%nat a b = - matof (oSa (out 0%nat 0%nat)) 0%nat a b).
    { intros k Hk. apply (all_stresslets (fl 0%nat 0%nat) (out 0%nat 0%nat) (fl m k) (out m k)); try assumption; apply SVk; lia. }
    pose proof (fun k Hk => proj1 (T k Hk)) as T1. pose proof (fun k Hk => proj2 (T k Hk)) as T2.
    unfold mean4. rewrite !T1, !T2 by lia. split; field.
Qed.
Lemma straight_euler : g_scheme g = euler \/ g_scheme g = ab2 ->
  posed_run inv inv3 solve sc table h stale 2 0 fm bb minf_only cf g input p0 -> exists U S, straight U S.
Proof. intros H1 H2. destruct (solved_euler H1 H2) as (U & S & A & _). exists U, S. exact A. Qed.
Lemma straight_rk4 : g_scheme g = rk4 ->
  posed_run4 inv inv3 solve sc table h stale 2 0 fm bb minf_only cf g input p0 -> exists U S, straight U S.
Proof. intros H1 H2. destruct (solved_rk4 H1 H2) as (U & S & A & _). exists U, S. exact A. Qed.
End Runs.
