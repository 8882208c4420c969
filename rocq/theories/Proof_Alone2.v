(** One sphere in a linear flow: Runge-Kutta. *)
From Coq Require Import Reals List Arith ZArith Bool Lia Lra Classical.
From Verif Require Import Base Py Model_Pack Model_Mob Model_Layout Model_Minf Model_Grand Model_Close Model_R2B Model_GrandP Model_Step
  Model_Output Model_Frame Model_Inputs Model_Sim
  Spec_Pack Spec_Convert Spec_Output Spec_Layout Spec_Minf Spec_Rotate Spec_Step Spec_Frame Spec_Posdef Spec_Run Spec_Run4
  Spec_Turn Spec_Turn4 Spec_Push Spec_Alone
  Proof_Posdef Proof_Posdef2 Proof_Frame Proof_Run Proof_Run2 Proof_Run4 Proof_Runs2 Proof_Turn2 Proof_Turn3 Proof_Turn5 Proof_Work3 Proof_Two4 Proof_Two6 Proof_Alone.
Import ListNotations.
Local Open Scope R_scope.

Section Runs4.
Variable inv : nat -> mat -> mat.
Variable inv3 : mat -> mat.
Variable solve : nat -> mat -> list R -> list R.
Variable sc : nat -> nat -> R -> nat -> R.
Variable table : list R.
Variable h : nat.
Variable stale : nat -> nat -> R.
Variables bb mo : bool.
Variable cf : R.
Variable g : settings.
Variable inp : R -> inputs.
Variable fl : R -> flow.
Variable p0 : config.
Variable mu : R.
Notation N := (g_num_frames g).
Notation input := (fun (_ : config) t => Ok (inp t, fl t)).
Notation a0 := (c_ssizes p0 0%nat).
Hypothesis Hcf : 0 < cf.
Hypothesis Hinv : inverts_posdef inv.
Hypothesis Hsolve : solves_posdef solve.
Hypothesis Hd : g_use_drag g = false.
Hypothesis Hstart : g_start g = 0%nat.
Hypothesis Hbox : no_box_g g.
Hypothesis S1 : (0 < g_save_pos g)%nat.
Hypothesis S2 : (0 < g_save_forces g)%nat.
Hypothesis S3 : (g_save_after g mod g_save_pos g = 0)%nat.
Hypothesis S4 : (g_save_after g mod g_save_forces g = 0)%nat.
Hypothesis Hmu : 0 < mu.
Hypothesis HI : forall t, well_posed 1 0 fte (inp t) /\ symmetric_traceless (strain_given (i_Ea (inp t)) 0) /\ f_mu (fl t) = mu /\ unbounded (fl t).
Hypothesis Ha : 0 < a0.
Hypothesis Hsch : g_scheme g = rk4.
Variables (s : list snapshot) (fs : list fsnapshot).
Hypothesis E : full_simulation inv inv3 solve sc table h stale 1 0 fte false bb mo cf g input p0 = Ok (Some (s, fs)).
Notation frames := (run_frames inv3 1 0 (far_inverse inv h stale 1 0 bb g input) (solve_rest inv inv3 solve sc table h stale 1 0 fte false bb mo cf g input) g (fresh p0)).
Notation reach := (fun m p => exists st, frames (seq 0 m) = Ok st /\ s_pos st = p).
Notation sized p := (c_ssizes p = c_ssizes p0).
Notation stages' := (stages inv3 sc table h stale 1 0 fte bb mo cf g input).

Lemma quiet4 m st : frames (seq 0 m) = Ok st -> s_error st = false.
Proof. intros Est. exact (no_flag inv3 1 0 _ _ g (fresh p0) (or_intror eq_refl) eq_refl _ st Est). Qed.
Lemma PD4 p : sized p -> pos_def (11 * 1 + 6 * 0) (generate_Minfinity bb (posdata_of 1 0 p) mu).
Proof. intros Hp. apply room_posdef; [|exact Hmu]. apply lone_room. rewrite Hp. exact Ha. Qed.

Lemma stage_sizes pos m K q L f o : sized (pos m) -> stages' pos m K q L f o -> forall k, (k <= K)%nat -> (k <= 3)%nat -> sized (q k).
Proof.
  intros Hp (H0 & _ & H2). induction k as [|k IH]; intros Hk Hk3; [rewrite H0; exact Hp|].
  destruct (H2 k ltac:(lia) ltac:(lia)) as (Q & _). rewrite Q. exact Hp.
Qed.
Lemma first_inverse pos m L : (forall k, (k <= m)%nat -> sized (pos k)) -> far_resistance h stale 1 0 bb g input pos m L ->
  exists p, sized p /\ is_inv (11 * 1 + 6 * 0) (generate_Minfinity bb (posdata_of 1 0 p) mu) L.
Proof.
  intros Hp A. unfold far_resistance in A. rewrite Hd in A. destruct A as (k & i' & f' & M & LD & E' & FM & IV).
  injection E' as <- <-. destruct (HI (INR k)) as (_ & _ & Mu & U). rewrite (proj1 FM U), Mu in IV. exists (pos k). split; [apply Hp, LD|exact IV].
Qed.
Lemma stage_inverse pos m K q L f o k LK : (forall k, (k <= m)%nat -> sized (pos k)) -> stages' pos m K q L f o -> (k <= K)%nat -> (k <= 3)%nat ->
  stage_far h stale 1 0 bb g input pos m k (q k) (L 0%nat) LK ->
  exists p, sized p /\ is_inv (11 * 1 + 6 * 0) (generate_Minfinity bb (posdata_of 1 0 p) mu) LK.
Proof.
  intros Hp HS Hk Hk3 SF. destruct k as [|k]; [exact (first_inverse pos m LK Hp SF)|].
  assert (F0 : exists p, sized p /\ is_inv (11 * 1 + 6 * 0) (generate_Minfinity bb (posdata_of 1 0 p) mu) (L 0%nat)).
  { destruct HS as (_ & H1 & _). destruct (H1 0%nat ltac:(lia)) as [A _]. exact (first_inverse pos m _ Hp A). }
  cbn [stage_far] in SF. destruct SF as [SA SB].
  destruct (classic (g_rk4_each g = true /\ inversion_due 0 (g_invert_every g) m)) as [C|C].
  - specialize (SA (or_intror C)). unfold far_of in SA. rewrite Hd in SA. destruct SA as (i' & f' & M & E' & FM & IV).
    injection E' as _ Ef. assert (MU : f_mu f' = mu /\ unbounded f') by (rewrite <- Ef; split; apply HI). destruct MU as [Mu U]. rewrite (proj1 FM U), Mu in IV. exists (q (S k)). split; [|exact IV].
    exact (stage_sizes pos m K q L f o (Hp m (le_n m)) HS (S k) Hk Hk3).
  - assert (C' : g_rk4_each g = false \/ ~ inversion_due 0 (g_invert_every g) m).
    { destruct (g_rk4_each g); [right; tauto|left; reflexivity]. }
    rewrite (SB Hd C'). exact F0.
Qed.
Lemma near4 p t N0 : sized p -> near_field inv3 sc table 1 0 bb mo cf p (fl t) N0 ->
  forall a b, (a < 11 * 1 + 6 * 0)%nat -> (b < 11 * 1 + 6 * 0)%nat -> N0 a b = 0.
Proof. intros Hp B. destruct (HI t) as (_ & _ & _ & U). intros a b Hra Hrb. unfold near_field in B. destruct mo; [subst N0; reflexivity|].
  apply (lone_near sc table bb p cf (f_mu (fl t)) N0 a b Hcf); [rewrite Hp; exact Ha|exact (proj1 B U)|exact Hra|exact Hrb].
Qed.

Lemma posed4 : posed_stages inv3 sc table h stale 1 0 fte bb mo cf g input reach.
Proof.
  intros m pos K q L f o Hm HK Hr HS i f0 Ei. injection Ei as <- <-.
  assert (Hp : forall k, (k <= m)%nat -> sized (pos k)).
  { intros k Hk. destruct (Hr k Hk) as (st & Es & <-). exact (proj1 (sizes_kept4 inv inv3 solve sc table h stale 1 0 fte bb mo cf g input p0 (Nat.lt_0_succ 0) Hstart Hsch (fun k sk _ Ek => quiet4 k sk Ek) k st ltac:(lia) Es)). }
  pose proof (stage_sizes pos m K q L f o (Hp m (le_n m)) HS K (le_n K) ltac:(lia)) as HQ.
  destruct (HI (stage_time m K)) as (WP & _ & Mu & U).
  split; [exact WP|]. split.
  - intros _ M FM. rewrite (proj1 FM U), Mu. apply PD4, HQ.
  - intros LK N0 SF NF. destruct (stage_inverse pos m K q L f o K LK Hp HS (le_n K) ltac:(lia) SF) as (p & P1 & P2).
    apply (pos_def_ext (11 * 1 + 6 * 0) LK); [intros a b Hra Hrb; rewrite (near4 (q K) _ N0 HQ NF a b Hra Hrb); ring|].
    exact (pos_def_inv (11 * 1 + 6 * 0) _ LK (PD4 p P1) P2).
Qed.

Theorem lone_run4 : exists (pos : nat -> config) (frc : nat -> fsnapshot),
  pos 0%nat = p0 /\
  (forall m, (m < N)%nat ->
     let time := stage_time m in
     let arm := fun p k => vsub (c_srot p 0%nat k) (c_spos p 0%nat) in
     let w := fun l => mean4 (fun k => lone_spin mu a0 (inp (time k)) (fl (time k)) l) in
     (forall l, (l < 3)%nat -> c_spos (pos (S m)) 0%nat l = c_spos (pos m) 0%nat l + g_dt g *
        (if (g_fully_2d g && Nat.eqb l 1)%bool then 0 else mean4 (fun k => lone_velocity mu a0 (inp (time k)) (fl (time k)) (c_spos (pos m) 0%nat) l))) /\
     (forall k, inverts inv3 -> (exists l, (l < 3)%nat /\ arm (pos m) k l <> 0) ->
        forall l, (l < 3)%nat -> arm (pos (S m)) k l = rodrigues w (norm w * g_dt g) (arm (pos m) k) l) /\
     (forall l, (l < 3)%nat -> n_Fa (frc m) 0%nat l = mean4 (fun k => load (i_Fa (inp (time k))) 0 l)) /\
     (forall k l, (k < 3)%nat -> (l < 3)%nat -> n_Sa (frc m) 0%nat k l = 20 / 3 * PI * mu * a0 ^ 3 * mean4 (fun j => strain_given (i_Ea (inp (time j))) 0 k l))) /\
  s = map (fun m => snap 1 (pos m)) (due_frames (g_save_pos g) (g_save_after g) N)
      ++ (if save_due (g_save_pos g) (g_save_after g) (N - 1) then [snap 1 (pos N)] else []) /\
  fs = map frc (due_frames (g_save_forces g) (g_save_after g) N).
Proof.
  destruct (whole_run4 inv inv3 solve sc table h stale 1 0 fte bb mo cf g input p0 Hinv Hsolve (Nat.lt_0_succ 0) Hstart Hsch (fun k sk _ Ek => quiet4 k sk Ek) posed4 s fs S1 S2 S3 S4 E)
    as (pos & q & L & f & out & P0 & PM & PS & PF).
  exists pos, (fun m => mean_forces (out m)). split; [exact P0|]. split; [|split; [exact PS|exact PF]].
  assert (Hp : forall m, (m <= N)%nat -> sized (pos m)).
  { induction m as [|m IH]; intros Hm; [rewrite P0; reflexivity|]. destruct (PM m ltac:(lia)) as (_ & AD). destruct AD as (Q & _). rewrite Q. apply IH. lia. }
  intros m Hm time arm w. destruct (PM m Hm) as (HS & AD).
  assert (ST : forall k, (k < 4)%nat -> f m k = fl (time k) /\
    (forall l, (l < 3)%nat -> rowof (Model_Output.o_Ua (out m k)) 0 l = load (i_Fa (inp (time k))) 0 l / (6 * PI * mu * a0)) /\
    (forall l, (l < 3)%nat -> rowof (Model_Output.o_Oa (out m k)) 0 l = load (i_Ta (inp (time k))) 0 l / (8 * PI * mu * a0 ^ 3)) /\
    (forall b c, matof (Model_Output.o_Ea (out m k)) 0 b c = strain_given (i_Ea (inp (time k))) 0 b c) /\ (forall l, rowof (Model_Output.o_Fa (out m k)) 0 l = load (i_Fa (inp (time k))) 0 l) /\
    (forall b c, (b < 3)%nat -> (c < 3)%nat -> matof (Model_Output.o_Sa (out m k)) 0 b c = 20 / 3 * PI * mu * a0 ^ 3 * strain_given (i_Ea (inp (time k))) 0 b c)).
  { intros k Hk. pose proof HS as (_ & H1 & _). destruct (H1 k Hk) as (SF & i & N0 & Ei & NF & AN). injection Ei as <- Ef.
    split; [symmetry; exact Ef|]. rewrite <- Ef in NF.
    assert (Hpm : forall k, (k <= m)%nat -> sized (pos k)) by (intros j Hj; apply Hp; lia).
    pose proof (stage_sizes pos m 4 (q m) (L m) (f m) (out m) (Hp m ltac:(lia)) HS k ltac:(lia) ltac:(lia)) as HQ.
    destruct (stage_inverse pos m 4 (q m) (L m) (f m) (out m) k (L m k) Hpm HS ltac:(lia) ltac:(lia) SF) as (p & P1 & P2).
    destruct (HI (stage_time m k)) as (_ & SY & _ & _).
    destruct (lone_answers bb p mu (inp (stage_time m k)) (L m k) (fun a b => L m k a b + N0 a b) (out m k) Hmu) as (B1 & B2 & B3 & B4 & B5); try assumption.
    - rewrite P1. exact Ha.
    - intros b c Hb Hc. rewrite (near4 (q m k) _ N0 HQ NF b c Hb Hc). ring.
    - rewrite P1 in B1, B2, B5. auto. }
  destruct AD as (_ & _ & M1 & _). destruct (M1 0%nat (Nat.lt_0_succ 0)) as (y & LX & X & XR).
  assert (EY : forall l, (l < 3)%nat -> c_spos (pos (S m)) 0%nat l = y l) by (intros l Hl; exact (landed_at inv3 g Hbox _ _ _ LX l Hl)).
  assert (MS : forall l, (l < 3)%nat -> mean4 (fun k => sphere_spin (f m k) (out m k) 0%nat l) = w l).
  { intros l Hl. unfold mean4, w, sphere_spin, lone_spin, mean4.
    destruct (ST 0%nat ltac:(lia)) as (-> & _ & B0 & _), (ST 1%nat ltac:(lia)) as (-> & _ & B1 & _), (ST 2%nat ltac:(lia)) as (-> & _ & B2 & _), (ST 3%nat ltac:(lia)) as (-> & _ & B3 & _).
    rewrite (B0 l Hl), (B1 l Hl), (B2 l Hl), (B3 l Hl). reflexivity. }
  split; [|split; [|split]].
  - intros l Hl. rewrite (EY l Hl), (X l Hl). f_equal. f_equal. destruct (g_fully_2d g && Nat.eqb l 1)%bool; [reflexivity|].
    assert (SP : forall k, (k < 4)%nat -> stage_speed (f m k) (out m k) (pos m) 0 l = lone_velocity mu a0 (inp (time k)) (fl (time k)) (c_spos (pos m) 0%nat) l).
    { intros k Hk. destruct (ST k Hk) as (-> & B1 & _ & B3 & _). unfold stage_speed, lone_velocity. rewrite (B1 l Hl). f_equal.
      unfold linear_flow, mvec. f_equal. apply rsum_ext. intros b Hb. rewrite B3. reflexivity. }
    unfold mean4. rewrite (SP 0%nat), (SP 1%nat), (SP 2%nat), (SP 3%nat) by lia. reflexivity.
  - intros k I3 Hne l Hl. pose proof (XR k I3 Hne l Hl) as Q. cbv iota in Q. unfold arm. rewrite Q.
    set (w' := fun l => mean4 (fun k => sphere_spin (f m k) (out m k) 0%nat l)).
    assert (EW : forall l, (l < 3)%nat -> w' l = w l) by exact MS.
    assert (NW : norm w' = norm w) by (unfold norm, dot3; rewrite !EW by lia; reflexivity).
    change (rodrigues w' (norm w' * g_dt g) (vsub (c_srot (pos m) 0%nat k) (c_spos (pos m) 0%nat)) l = rodrigues w (norm w * g_dt g) (vsub (c_srot (pos m) 0%nat k) (c_spos (pos m) 0%nat)) l).
    unfold rodrigues, dot3, cross, vscal. rewrite NW. rewrite !EW by lia. idx3 Hl; reflexivity.
  - intros l Hl. unfold mean_forces, mean4. cbn [n_Fa].
    destruct (ST 0%nat ltac:(lia)) as (_ & _ & _ & _ & -> & _), (ST 1%nat ltac:(lia)) as (_ & _ & _ & _ & -> & _), (ST 2%nat ltac:(lia)) as (_ & _ & _ & _ & -> & _), (ST 3%nat ltac:(lia)) as (_ & _ & _ & _ & -> & _). reflexivity.
  - intros k l Hk Hl. unfold mean_forces, mean4. cbn [n_Sa].
    destruct (ST 0%nat ltac:(lia)) as (_ & _ & _ & _ & _ & B0), (ST 1%nat ltac:(lia)) as (_ & _ & _ & _ & _ & B1), (ST 2%nat ltac:(lia)) as (_ & _ & _ & _ & _ & B2), (ST 3%nat ltac:(lia)) as (_ & _ & _ & _ & _ & B3).
    rewrite (B0 k l Hk Hl), (B1 k l Hk Hl), (B2 k l Hk Hl), (B3 k l Hk Hl). ring.
Qed.
End Runs4.
