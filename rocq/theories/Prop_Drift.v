(** C95: the velocity of two equal spheres pulled alike, in closed form. *)
From Coq Require Import Reals List Arith ZArith Bool Lia Lra Psatz.
From Verif Require Import Base Py Model_Pack Model_Mob Model_Layout Model_Minf Model_Grand Model_Close Model_R2B Model_GrandP Model_Step
  Model_Output Model_Frame Model_Inputs Model_Sim Spec_Pack Spec_Layout Spec_Minf Spec_Convert Spec_Output Spec_Step Spec_Frame Spec_Posdef Spec_Run Spec_Run4
  Spec_Turn Spec_Turn4 Spec_Renumber Spec_Work Spec_Pair Spec_Two Spec_Drift
  Proof_Layout Proof_Minf Proof_Minf3 Proof_Minf4 Proof_MinfP8 Proof_Posdef Proof_Posdef2 Proof_Frame Proof_Run Proof_Run2 Spec_Runs Proof_Runs2 Proof_Runs3 Prop_Runs Prop_Run
  Prop_Turn Proof_Work3 Proof_Pair Proof_Pair2 Prop_Pair Proof_Two4 Proof_Two5 Proof_Two6 Prop_Two Proof_Drift1 Proof_Drift2.
From Verif Require Proof_Step Prop_Minf.
Import ListNotations.
Local Open Scope R_scope.

(** Two spheres of equal radius [a], overlapping or not, in a fluid of viscosity
    [mu], both always given the force [F] and nothing else, far field only or
    too far apart for the near field, any of the three schemes: in every
    completed run, both are displaced in frame
    [m] by m dt times [drift a mu x1 x2 F] (in the planar mode without the y
    component), whatever the arrangement of the inversions, and the stresslets
    saved in every frame are [pair_stresslet a x1 x2 F] and its opposite. *)
Theorem C95_pulled :
  forall inv inv3 solve sc table h stale fm bb minf_only cutoff_factor g input mu F p0 s fs,
    let N := g_num_frames g in
    let a := c_ssizes p0 0%nat in
    0 < cutoff_factor -> inverts_posdef inv -> solves_posdef solve ->
    g_scheme g = euler \/ g_scheme g = ab2 \/ g_scheme g = rk4 -> g_start g = 0%nat -> g_use_drag g = false -> no_box_g g ->
    (0 < g_save_pos g)%nat -> (0 < g_save_forces g)%nat ->
    (g_save_after g mod g_save_pos g = 0)%nat -> (g_save_after g mod g_save_forces g = 0)%nat ->
    pulled_alike fm mu F input -> (forall p t i f, input p t = Ok (i, f) -> well_posed 2 0 fm i) -> 0 < mu ->
    c_ssizes p0 1%nat = a -> 0 < a -> / 10 ^ 8 < norm (vsub (c_spos p0 1%nat) (c_spos p0 0%nat)) ->
    minf_only = true \/ 2 * cutoff_factor * a <= norm (vsub (c_spos p0 1%nat) (c_spos p0 0%nat)) ->
    full_simulation inv inv3 solve sc table h stale 2 0 fm false bb minf_only cutoff_factor g input p0 = Ok (Some (s, fs)) ->
    let U := fun l => if (g_fully_2d g && Nat.eqb l 1)%bool then 0 else drift a mu (c_spos p0 0%nat) (c_spos p0 1%nat) (fun k => nth k F 0) l in
    let S := pair_stresslet a (c_spos p0 0%nat) (c_spos p0 1%nat) (fun k => nth k F 0) in
    exists (pos : nat -> snapshot) (frc : nat -> fsnapshot),
      (forall m, (m <= N)%nat -> carried p0 U (INR m * g_dt g) (pos m)) /\
      (forall m, (m < N)%nat -> opposite_stresslets S (frc m)) /\
      s = map pos (due_frames (g_save_pos g) (g_save_after g) N) ++ (if save_due (g_save_pos g) (g_save_after g) (N - 1) then [pos N] else []) /\
      fs = map frc (due_frames (g_save_forces g) (g_save_after g) N).
Proof.
  intros inv inv3 solve sc table h stale fm bb mo cf g input mu F p0 s fs N a Hcf Hi Hs Hsch H0 Hd Hb S1 S2 S3 S4 HI HW Hmu Hsz Ha Hx Hsep E U T.
  assert (Hsz' : c_ssizes p0 0%nat = c_ssizes p0 1%nat) by (symmetry; exact Hsz).
  pose proof (pair_posed inv inv3 solve sc table h stale fm bb mo cf input p0 mu F Hcf Hi Hs HI Hsz' Hmu Ha Hx Hsep HW g Hd H0 Hb Hsch) as PP.
  assert (K : exists V S, straight g p0 s fs V S /\ ((0 < N)%nat -> worked_out sc table fm bb mo cf g input p0 mu V S)).
  { destruct PP as [[C P]|[C P]].
    - exact (solved_euler inv inv3 solve sc table h stale fm bb mo cf g input p0 mu F Hcf Hi Hs H0 Hb HI Hsz' S1 S2 S3 S4 s fs E C P).
    - exact (solved_rk4 inv inv3 solve sc table h stale fm bb mo cf g input p0 mu F Hcf Hi Hs H0 Hb HI Hsz' S1 S2 S3 S4 s fs E C P). }
  destruct K as (V & S & (pos & frc & A & A' & B & B') & WO). exists pos, frc. split; [|split; [|split; [exact B|exact B']]].
  2:{ intros m Hm k l Hk Hl. destruct (WO ltac:(fold N; lia)) as (f & o & SV & _ & ES). destruct (A' m Hm k l Hk Hl) as [X Y].
      pose proof (proj2 (solved_both sc table fm bb mo cf input p0 mu F g Hcf HI Hsz' Hmu Ha Hx Hsep Hd H0 f o SV) k l Hk Hl) as Z. rewrite ES in X, Y. rewrite Z in X, Y. split; [exact X|exact Y]. }
  intros m Hm j l Hj Hl. rewrite (A m Hm j l Hj Hl). destruct (Nat.eq_dec m 0) as [->|Nm]; [cbn [INR]; ring|].
  destruct (WO ltac:(fold N; lia)) as (f & o & SV & EV & _). rewrite EV. unfold U. destruct (g_fully_2d g && Nat.eqb l 1)%bool; [reflexivity|].
  rewrite (solved_velocity sc table fm bb mo cf input p0 mu F g Hcf HI Hsz' Hmu Ha Hx Hsep Hd H0 f o l SV Hl). reflexivity.
Qed.
Print Assumptions C95_pulled.

Lemma drift_pull a mu x1 x2 F F' l : (forall k, (k < 3)%nat -> F k = F' k) -> (l < 3)%nat -> drift a mu x1 x2 F l = drift a mu x1 x2 F' l.
Proof. intros H Hl. unfold drift, dot3. rewrite !H by lia. reflexivity. Qed.
Lemma stresslet_pull a x1 x2 F F' k l : (forall k, (k < 3)%nat -> F k = F' k) -> (k < 3)%nat -> (l < 3)%nat -> pair_stresslet a x1 x2 F k l = pair_stresslet a x1 x2 F' k l.
Proof. intros H Hk Hl. unfold pair_stresslet, dot3. rewrite !H by lia. reflexivity. Qed.

Lemma pair_completes inv inv3 solve sc table h stale fm bb mo cf g dt p0 :
  solves_shape solve -> fm = fte \/ fm = ufte -> usable g 0 -> c_ssizes p0 1%nat = c_ssizes p0 0%nat -> 0 < c_ssizes p0 0%nat -> mo = true \/ In 1 table ->
  exists s fs, full_simulation inv inv3 solve sc table h stale 2 0 fm false bb mo cf g (fun p t => input_ftsuoe 1 fm 2 0 p t dt) p0 = Ok (Some (s, fs)).
Proof.
  intros Hsh Hfm HU Hsz Ha Ht.
  destruct (C62_complete inv inv3 solve sc table h stale 2 0 fm false bb mo cf g (fun p t => input_ftsuoe 1 fm 2 0 p t dt) p0 [c_ssizes p0 0%nat] Hsh) as (s & fs & E & _).
  - intros i Hi'. left. assert (C : (i = 0 \/ i = 1)%nat) by lia. destruct C as [-> | ->]; [reflexivity|symmetry; exact Hsz].
  - intros i Hi'. lia.
  - destruct Ht as [-> |H1]; [left; reflexivity|right]. intros a b [<-|[]] [<-|[]]. exists 1. split; [exact H1|].
    replace (1 - c_ssizes p0 0%nat / c_ssizes p0 0%nat) with 0 by (field; lra). rewrite Rabs_R0.
    apply Rplus_le_le_0_compat; [|apply Rmult_le_pos; [|apply Rabs_pos]]; left; apply Rinv_0_lt_compat, pow_lt; lra.
  - reflexivity.
  - intros p t _ _. destruct (given_inputs 1 fm 2 0 p t dt ltac:(lia)) as (i & f & E & C & _).
    + unfold workable. cbn [Nat.eqb]. destruct Hfm as [-> | ->]; [left; discriminate|left; reflexivity].
    + exists i, f. split; [exact E|]. split; [exact C|]. left. rewrite (gravity_flow 2 0 fm p t dt i f E). exact free_default.
  - exact HU.
  - exists s, fs. exact E.
Qed.

(** Two equal spheres falling under gravity (input 1): with usable settings the
    run completes, and the path is [drift] of a unit force downwards. *)
Theorem C95_falling :
  forall inv inv3 solve sc table h stale fm bb minf_only cutoff_factor g dt p0,
    let N := g_num_frames g in
    let input := fun p t => input_ftsuoe 1 fm 2 0 p t dt in
    let a := c_ssizes p0 0%nat in
    let U := fun l => if (g_fully_2d g && Nat.eqb l 1)%bool then 0 else drift a 1 (c_spos p0 0%nat) (c_spos p0 1%nat) (v3 0 0 (-1)) l in
    0 < cutoff_factor -> inverts_posdef inv -> solves_posdef solve -> solves_shape solve -> fm = fte \/ fm = ufte ->
    usable g 0 -> g_use_drag g = false -> no_box_g g ->
    c_ssizes p0 1%nat = a -> 0 < a -> / 10 ^ 8 < norm (vsub (c_spos p0 1%nat) (c_spos p0 0%nat)) ->
    minf_only = true \/ (In 1 table /\ 2 * cutoff_factor * a <= norm (vsub (c_spos p0 1%nat) (c_spos p0 0%nat))) ->
    exists s fs, full_simulation inv inv3 solve sc table h stale 2 0 fm false bb minf_only cutoff_factor g input p0 = Ok (Some (s, fs)) /\
      exists (pos : nat -> snapshot) (frc : nat -> fsnapshot),
        (forall m, (m <= N)%nat -> carried p0 U (INR m * g_dt g) (pos m)) /\
        (forall m, (m < N)%nat -> opposite_stresslets (pair_stresslet a (c_spos p0 0%nat) (c_spos p0 1%nat) (v3 0 0 (-1))) (frc m)) /\
        s = map pos (due_frames (g_save_pos g) 0 N) ++ (if save_due (g_save_pos g) 0 (N - 1) then [pos N] else []) /\
        fs = map frc (due_frames (g_save_forces g) 0 N).
Proof.
  intros inv inv3 solve sc table h stale fm bb mo cf g dt p0 N input a U Hcf Hi Hs Hsh Hfm HU Hd Hb Hsz Ha Hx Hsep.
  destruct (pair_completes inv inv3 solve sc table h stale fm bb mo cf g dt p0 Hsh Hfm HU Hsz Ha) as (s & fs & E); [tauto|].
  exists s, fs. split; [exact E|]. pose proof HU as (SC & U1 & U2 & U3 & U4 & U5 & U6 & U7).
  assert (M0 : forall e, (0 < e)%nat -> (g_save_after g mod e = 0)%nat) by (intros e He; rewrite U7; apply Nat.mod_0_l; lia).
  destruct (C95_pulled inv inv3 solve sc table h stale fm bb mo cf g input 1 [0; 0; - (1)] p0 s fs) as (pos & frc & A & A' & B & B'); try assumption; try lra.
  - tauto.
  - apply M0, U5.
  - apply M0, U6.
  - exact (gravity_alike fm dt Hfm).
  - exact (gravity_posed fm dt Hfm).
  - tauto.
  - exists pos, frc. split; [|split; [|rewrite U7 in B, B'; split; [exact B|exact B']]].
    2:{ intros m Hm k l Hk Hl. destruct (A' m Hm k l Hk Hl) as [X Y]. fold a in X, Y.
        rewrite (stresslet_pull a _ _ (fun k => nth k [0; 0; - (1)] 0) (v3 0 0 (-1))) in X, Y; try assumption; try (intros n Hn; idx3 Hn; cbn [nth v3]; ring). split; assumption. }
    intros m Hm j l Hj Hl. rewrite (A m Hm j l Hj Hl). unfold U.
    destruct (g_fully_2d g && Nat.eqb l 1)%bool; [reflexivity|]. fold a. rewrite (drift_pull a 1 _ _ (fun k => nth k [0; 0; - (1)] 0) (v3 0 0 (-1))); [reflexivity| |exact Hl].
    intros k Hk. idx3 Hk; cbn [nth v3]; ring.
Qed.
Print Assumptions C95_falling.

(** What the gains are: for spheres no closer than touching, the pull along the
    line of centres speeds the pair up more than the pull across, both more than
    nothing, and at most by 3/4; far apart each moves as if alone. *)
Theorem C95_gains : forall u, 0 < u <= 1 / 2 ->
  1 + u <= along_gain u <= 1 + 3 / 2 * u /\ 1 + 3 / 4 * u <= across_gain u <= 1 + 3 / 4 * u + 1 / 2 * u ^ 3 /\ across_gain u < along_gain u.
Proof. intros u Hu. split; [exact (along_bounds u Hu)|]. split; [exact (across_bounds u Hu)|exact (gains_ordered u Hu)]. Qed.
Print Assumptions C95_gains.

(** The fall of the pair, any scheme: between 1 + 3/4 u and 1 + 3/2 u times as
    fast as one of the spheres alone, where u is the radius over the distance of
    the centres (half for overlapping spheres); and sideways in the direction in
    which the line of centres descends, straight down exactly if that line is
    vertical or horizontal. *)
Lemma towards_unit x1 x2 : / 10 ^ 8 < norm (vsub x2 x1) -> towards x1 x2 0%nat ^ 2 + towards x1 x2 1%nat ^ 2 + towards x1 x2 2%nat ^ 2 = 1.
Proof.
  intros H. assert (E : 0 < / 10 ^ 8) by (apply Rinv_0_lt_compat, pow_lt; lra). unfold towards. set (n := norm (vsub x2 x1)) in *.
  assert (Q : n * n = (x2 0%nat - x1 0%nat) ^ 2 + (x2 1%nat - x1 1%nat) ^ 2 + (x2 2%nat - x1 2%nat) ^ 2).
  { unfold n, norm, vsub. rewrite sqrt_sqrt; [ring|]. apply Rplus_le_le_0_compat; [apply Rplus_le_le_0_compat|]; apply Rle_0_sqr || apply pow2_ge_0. }
  transitivity (((x2 0%nat - x1 0%nat) ^ 2 + (x2 1%nat - x1 1%nat) ^ 2 + (x2 2%nat - x1 2%nat) ^ 2) / (n * n)); [field; lra|]. rewrite <- Q. field. lra.
Qed.
Theorem C95_speed :
  forall inv inv3 solve sc table h stale fm bb minf_only cutoff_factor g dt p0,
    let N := g_num_frames g in
    let input := fun p t => input_ftsuoe 1 fm 2 0 p t dt in
    let a := c_ssizes p0 0%nat in
    let x1 := c_spos p0 0%nat in
    let x2 := c_spos p0 1%nat in
    let u := a / Rmax (norm (vsub x1 x2)) (2001 / 1000 * a) in
    let alone := 1 / (6 * PI * a) in
    0 < cutoff_factor -> inverts_posdef inv -> solves_posdef solve -> solves_shape solve -> fm = fte \/ fm = ufte ->
    usable g 0 -> g_use_drag g = false -> no_box_g g ->
    c_ssizes p0 1%nat = a -> 0 < a -> / 10 ^ 8 < norm (vsub x2 x1) ->
    minf_only = true \/ (In 1 table /\ 2 * cutoff_factor * a <= norm (vsub x2 x1)) ->
    exists s fs, full_simulation inv inv3 solve sc table h stale 2 0 fm false bb minf_only cutoff_factor g input p0 = Ok (Some (s, fs)) /\
      exists (U : vec) (pos : nat -> snapshot),
        (forall m, (m <= N)%nat -> carried p0 U (INR m * g_dt g) (pos m)) /\
        s = map pos (due_frames (g_save_pos g) 0 N) ++ (if save_due (g_save_pos g) 0 (N - 1) then [pos N] else []) /\
        (1 + 3 / 4 * u) * alone <= - U 2%nat <= (1 + 3 / 2 * u) * alone /\
        (exists k, 0 < k <= 3 / 4 * u * alone /\ forall l, l = 0%nat \/ (l = 1%nat /\ g_fully_2d g = false) ->
           U l = - k * ((x2 2%nat - x1 2%nat) * (x2 l - x1 l)) / norm (vsub x2 x1) ^ 2).
Proof.
  intros inv inv3 solve sc table h stale fm bb mo cf g dt p0 N input a x1 x2 u alone Hcf Hi Hs Hsh Hfm HU Hd Hb Hsz Ha Hx Hsep.
  destruct (C95_falling inv inv3 solve sc table h stale fm bb mo cf g dt p0 Hcf Hi Hs Hsh Hfm HU Hd Hb Hsz Ha Hx Hsep) as (s & fs & E & pos & frc & A & _ & B & _).
  exists s, fs. split; [exact E|]. eexists. exists pos. split; [exact A|]. split; [exact B|]. clear A B E.
  assert (EU : a / used_separation x1 x2 a a = u) by (unfold u, used_separation; f_equal; f_equal; lra).
  pose proof (towards_unit x1 x2 Hx) as T1. pose proof PI_RGT_0 as HPI.
  assert (HN : 0 < norm (vsub x2 x1)) by (assert (0 < / 10 ^ 8) by (apply Rinv_0_lt_compat, pow_lt; lra); lra).
  assert (HAl : 0 < alone) by (apply Rdiv_lt_0_compat; [lra|]; apply Rmult_lt_0_compat; lra).
  assert (Hu : 0 < u <= 1 / 2).
  { assert (D : 2001 / 1000 * a <= Rmax (norm (vsub x1 x2)) (2001 / 1000 * a)) by apply Rmax_r. unfold u. split; [apply Rdiv_lt_0_compat; lra|].
    apply Rmult_le_reg_r with (Rmax (norm (vsub x1 x2)) (2001 / 1000 * a)); [lra|]. unfold Rdiv at 1. rewrite Rmult_assoc, Rinv_l by lra. lra. }
  destruct (C95_gains u Hu) as (G1 & G2 & G3).
  fold a x1 x2. unfold drift. rewrite EU. set (e := towards x1 x2) in *.
  assert (P : dot3 (v3 0 0 (-1)) e = - e 2%nat) by (unfold dot3; cbn [v3]; ring). rewrite P. clear P.
  assert (E2 : 0 <= e 2%nat ^ 2 <= 1) by (pose proof (pow2_ge_0 (e 0%nat)); pose proof (pow2_ge_0 (e 1%nat)); pose proof (pow2_ge_0 (e 2%nat)); lra).
  cbn [Nat.eqb]. rewrite Bool.andb_false_r. cbn [v3]. split.
  - replace (- ((across_gain u * (-1 - - e 2%nat * e 2%nat) + along_gain u * (- e 2%nat * e 2%nat)) / (6 * PI * 1 * a)))
      with ((across_gain u + (along_gain u - across_gain u) * e 2%nat ^ 2) * alone) by (unfold alone; field; lra).
    assert (K : 0 <= (along_gain u - across_gain u) * e 2%nat ^ 2 <= (along_gain u - across_gain u) * 1) by (split; [apply Rmult_le_pos; lra|apply Rmult_le_compat_l; lra]).
    split; apply Rmult_le_compat_r; lra.
  - exists ((along_gain u - across_gain u) * alone). split; [split; [apply Rmult_lt_0_compat; lra|apply Rmult_le_compat_r; lra]|].
    intros l Hl. assert (Hl' : (g_fully_2d g && Nat.eqb l 1)%bool = false /\ v3 0 0 (-1) l = 0).
    { destruct Hl as [-> |[-> ->]]; cbn; auto using Bool.andb_false_r. }
    destruct Hl' as [-> ->]. unfold e, towards, alone. field. lra.
Qed.
Print Assumptions C95_speed.

(** Instances with the settings the repository comes with: an inclined pair with
    near field; two overlapping spheres, one above the other, without. *)
Definition inclined_pair : config :=
  mkConfig (fun _ => 1) (fun j => v3 (3 * INR j) 0 (4 * INR j)) (fun j k => v3 1 0 (INR j)) (fun _ => 1) (fun _ => v3 0 0 0) (fun _ => v3 0 0 0).
Example C95_inclined_example sc dt num_frames : 0 < dt -> (0 < num_frames)%nat ->
  exists s fs, full_simulation pinv Proof_Step.inv3 psolve sc [1] 0 (fun _ _ => 0) 2 0 fte false true false 2
      (shipped_settings dt num_frames (v3 0 0 0) (v3 0 0 0)) (fun p t => input_ftsuoe 1 fte 2 0 p t dt) inclined_pair = Ok (Some (s, fs)) /\
    exists (U : vec) (pos : nat -> snapshot),
      (forall m, (m <= num_frames)%nat -> carried inclined_pair U (INR m * dt) (pos m)) /\ s = map pos (seq 0 (S num_frames)) /\
      (1 + 3 / 20) * (1 / (6 * PI)) <= - U 2%nat <= (1 + 3 / 10) * (1 / (6 * PI)) /\ U 0%nat < 0.
Proof.
  intros Hdt HN.
  assert (SH : solves_shape psolve) by (intros n A b _; unfold psolve; rewrite map_length, seq_length; reflexivity).
  assert (N5 : forall i, norm (vsub (c_spos inclined_pair i) (c_spos inclined_pair (1 - i))) = 5 \/ (1 < i)%nat).
  { intros i. destruct i as [|[|i]]; [left|left|right; lia]; unfold norm, vsub, inclined_pair, v3; cbn;
      (match goal with |- sqrt ?x = 5 => replace x with (5 * 5) by ring end); apply sqrt_square; lra. }
  destruct (C95_speed pinv Proof_Step.inv3 psolve sc [1] 0 (fun _ _ => 0) fte true false 2 (shipped_settings dt num_frames (v3 0 0 0) (v3 0 0 0)) dt inclined_pair)
    as (s & fs & E & U & pos & A & B & C & k & Hk & D); try assumption; try reflexivity; try lra.
  - exact pinv_ok.
  - exact psolve_ok.
  - left. reflexivity.
  - repeat split; cbn; auto; lia.
  - intros l Hl. reflexivity.
  - cbn. lra.
  - destruct (N5 1%nat) as [Q1|]; [|lia]. cbn [Nat.sub] in Q1. rewrite Q1. apply Rlt_trans with 1; [|lra]. rewrite <- Rinv_1. apply Rinv_lt_contravar; cbn; lra.
  - right. split; [left; reflexivity|]. destruct (N5 1%nat) as [Q1|]; [|lia]. cbn [Nat.sub] in Q1. rewrite Q1. cbn. lra.
  - exists s, fs. split; [exact E|]. exists U, pos. split; [exact A|]. split.
    + rewrite B. cbn [g_save_pos shipped_settings g_num_frames]. rewrite due_every. unfold save_due. rewrite Nat.mod_1_r. cbn [Nat.eqb Nat.leb andb]. rewrite seq_S, map_app. reflexivity.
    + destruct (N5 0%nat) as [Q0|]; [|lia]. destruct (N5 1%nat) as [Q1|]; [|lia]. cbn [Nat.sub] in Q0, Q1. rewrite Q0 in C, Hk. rewrite Q1 in D.
      assert (EU : c_ssizes inclined_pair 0%nat / Rmax 5 (2001 / 1000 * c_ssizes inclined_pair 0%nat) = 1 / 5) by (cbn [c_ssizes inclined_pair]; rewrite Rmax_left by lra; field).
      rewrite EU in C, Hk. cbn [c_ssizes inclined_pair] in C. rewrite Rmult_1_r in C. split; [lra|].
      rewrite (D 0%nat (or_introl eq_refl)). cbn [c_spos inclined_pair v3 INR]. lra.
Qed.
(** The overlapping pair of C92 falls straight down. *)
Example C95_overlapping_example sc dt num_frames : 0 < dt -> (0 < num_frames)%nat ->
  exists s fs, full_simulation pinv Proof_Step.inv3 psolve sc [] 0 (fun _ _ => 0) 2 0 fte false true true 2
      (shipped_settings dt num_frames (v3 0 0 0) (v3 0 0 0)) (fun p t => input_ftsuoe 1 fte 2 0 p t dt) overlapping_pair = Ok (Some (s, fs)) /\
    exists (U : vec) (pos : nat -> snapshot) (frc : nat -> fsnapshot),
      (forall m, (m <= num_frames)%nat -> carried overlapping_pair U (INR m * dt) (pos m)) /\
      fs = map frc (due_frames 1 0 num_frames) /\
      (forall m, (m < num_frames)%nat -> n_Sa (frc m) 1%nat 2%nat 2%nat < 0 < n_Sa (frc m) 0%nat 2%nat 2%nat) /\
      U 0%nat = 0 /\ U 1%nat = 0 /\ - U 2%nat = along_gain (1000 / 2001) / (6 * PI).
Proof.
  intros Hdt HN.
  assert (SH : solves_shape psolve) by (intros n A b _; unfold psolve; rewrite map_length, seq_length; reflexivity).
  assert (N1 : forall i, norm (vsub (c_spos overlapping_pair i) (c_spos overlapping_pair (1 - i))) = 1 \/ (1 < i)%nat).
  { intros i. destruct i as [|[|i]]; [left|left|right; lia]; unfold norm, vsub, overlapping_pair, v3; cbn;
      (match goal with |- sqrt ?x = 1 => replace x with 1 by ring end); apply sqrt_1. }
  destruct (N1 0%nat) as [Q0|]; [|lia]. destruct (N1 1%nat) as [Q1|]; [|lia]. cbn [Nat.sub] in Q0, Q1.
  destruct (C95_falling pinv Proof_Step.inv3 psolve sc [] 0 (fun _ _ => 0) fte true true 2 (shipped_settings dt num_frames (v3 0 0 0) (v3 0 0 0)) dt overlapping_pair)
    as (s & fs & E & pos & frc & A & A' & B & B'); try assumption; try reflexivity; try lra.
  - exact pinv_ok.
  - exact psolve_ok.
  - left. reflexivity.
  - repeat split; cbn; auto; lia.
  - intros l Hl. reflexivity.
  - cbn. lra.
  - exists s, fs. split; [exact E|]. eexists. exists pos, frc. split; [exact A|]. split; [exact B'|]. pose proof PI_RGT_0 as HPI.
    split.
    { intros m Hm. destruct (A' m Hm 2%nat 2%nat ltac:(lia) ltac:(lia)) as [X Y]. rewrite X, Y.
      unfold pair_stresslet, used_separation, towards, dot3. rewrite Q0, Q1. cbn [c_ssizes c_spos overlapping_pair v3 INR].
      rewrite Rmax_right by lra. replace (1 / (2001 / 1000 * ((1 + 1) / 2))) with (1000 / 2001) by field. unfold delta. cbn [Nat.eqb].
      match goal with |- - ?x < 0 < ?x => assert (0 < x); [|lra] end. lra. }
    cbn [shipped_settings g_fully_2d andb]. unfold drift, used_separation, towards, dot3. rewrite Q0, Q1. cbn [c_ssizes c_spos overlapping_pair v3 INR].
    rewrite Rmax_right by lra. replace (1 / (2001 / 1000 * ((1 + 1) / 2))) with (1000 / 2001) by field.
    split; [field; lra|]. split; [field; lra|]. field. lra.
Qed.
