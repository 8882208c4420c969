(** Two equal spheres pulled alike: the configurations met are paired; without
    near field, or too far apart for it, nothing has to be assumed of them. *)
From Coq Require Import Reals List Arith ZArith Bool Lia Lra Classical.
From Verif Require Import Base Py Model_Pack Model_Mob Model_Layout Model_Minf Model_Grand Model_Close Model_R2B Model_GrandP Model_Step
  Model_Output Model_Frame Model_Inputs Model_Sim
  Spec_Pack Spec_Convert Spec_Output Spec_Layout Spec_Minf Spec_Rotate Spec_Close Spec_R2B Spec_Step Spec_Frame Spec_Posdef Spec_Run Spec_Run4
  Spec_Turn Spec_Turn4 Spec_Renumber Spec_Work Spec_Pair Spec_Two
  Proof_Posdef Proof_Frame Proof_Run Proof_Run2 Proof_Run4 Proof_Output3 Proof_Runs2 Proof_Turn1 Proof_Turn2 Proof_Turn3 Proof_Renumber1 Proof_Work Proof_Work2 Proof_Work3 Proof_Pair
  Proof_Pair2 Proof_R2B4 Proof_Two4.
Import ListNotations.
Local Open Scope R_scope.

(** The run cut after [m] frames, with nothing saved. *)
Definition cut (m : nat) (g : settings) : settings :=
  mkSettings (g_scheme g) (g_dt g) m (g_start g) (g_invert_every g) (g_use_drag g) (g_rk4_each g) (g_fully_2d g) (g_explosion g) (g_box_bl g) (g_box_tr g)
    0 0 0 false 1.
Definition same_motion (st st' : state) : Prop :=
  s_pos st' = s_pos st /\ s_error st' = s_error st /\ s_minv st' = s_minv st /\ s_vel st' = s_vel st.
Lemma cut_frames inv inv3 solve sc table h stale Ns Nd fm ex bb mo cf g input m l : forall st st' s,
  same_motion st s ->
  run_frames inv3 Ns Nd (far_inverse inv h stale Ns Nd bb g input) (solve_rest inv inv3 solve sc table h stale Ns Nd fm ex bb mo cf g input) g st l = Ok st' ->
  exists s', run_frames inv3 Ns Nd (far_inverse inv h stale Ns Nd bb (cut m g) input) (solve_rest inv inv3 solve sc table h stale Ns Nd fm ex bb mo cf (cut m g) input) (cut m g) s l = Ok s'
    /\ same_motion st' s'.
Proof.
  induction l as [|k l IH]; intros st st' s S E; cbn [run_frames] in *.
  - injection E as <-. exists s. split; [reflexivity|exact S].
  - destruct (bind_ok _ _ _ E) as (st1 & E1 & E2). clear E.
    assert (G : exists s1, generate_frame inv3 Ns Nd (far_inverse inv h stale Ns Nd bb (cut m g) input)
       (solve_rest inv inv3 solve sc table h stale Ns Nd fm ex bb mo cf (cut m g) input) (cut m g) s k = Ok s1 /\ same_motion st1 s1).
    { destruct S as (P1 & P2 & P3 & P4). unfold generate_frame in *. rewrite P2. destruct (s_error st) eqn:Er.
      - injection E1 as <-. exists s. split; [reflexivity|]. repeat split; congruence.
      - change (regenerate_now (cut m g) k) with (regenerate_now g k).
        destruct (bind_ok _ _ _ E1) as (regen & R1 & R2). rewrite R1. cbn [bind]. cbn beta zeta in *.
        destruct (bind_ok _ _ _ R2) as (r & R3 & R4). clear R2 E1.
        change (g_start (cut m g)) with (g_start g). change (g_scheme (cut m g)) with (g_scheme g). rewrite P1, P3, P4.
        destruct (bind_ok _ _ _ R4) as (x1 & _ & R5). destruct (bind_ok _ _ _ R5) as (x2 & _ & R6). destruct (bind_ok _ _ _ R6) as (x3 & _ & R7). injection R7 as <-.
        exists (mkState (t_pos r) (t_error r) (t_minv r) (t_vel r) (s_saved s) (s_fsaved s) (s_tempfile s)). split; [|repeat split].
        lazymatch type of R3 with ?A = _ => lazymatch goal with |- bind ?B _ = _ => replace B with A; [rewrite R3; reflexivity|] end end.
        destruct g; reflexivity. }
    destruct G as (s1 & G1 & G2). rewrite G1. cbn [bind]. exact (IH st1 st' s1 G2 E2).
Qed.

Section Pair.
Variable inv : nat -> mat -> mat.
Variable inv3 : mat -> mat.
Variable solve : nat -> mat -> list R -> list R.
Variable sc : nat -> nat -> R -> nat -> R.
Variable table : list R.
Variable h : nat.
Variable stale : nat -> nat -> R.
Variable fm : form.
Variables bb mo : bool.
Variable cf : R.
Variable input : config -> R -> res (inputs * flow).
Variable p0 : config.
Variable mu : R.
Variable F : list R.
Hypothesis Hcf : 0 < cf.
Hypothesis Hinv : inverts_posdef inv.
Hypothesis Hsolve : solves_posdef solve.
Hypothesis HI : pulled_alike fm mu F input.
Hypothesis Hsz : c_ssizes p0 0%nat = c_ssizes p0 1%nat.
Hypothesis Hmu : 0 < mu.
Hypothesis Ha : 0 < c_ssizes p0 0%nat.
Hypothesis Hx : / 10 ^ 8 < norm (vsub (c_spos p0 1%nat) (c_spos p0 0%nat)).
(** The grand resistance matrix is positive definite. *)
Definition grand_posdef : Prop := forall g L N0, g_use_drag g = false -> far_pair bb g p0 mu L -> near_pair sc table bb mo cf p0 mu N0 -> pos_def 22 (madd L N0).
Hypothesis Hgrand : grand_posdef.
Hypothesis Hwp : forall p t i f, input p t = Ok (i, f) -> well_posed 2 0 fm i.
Notation paired := (paired (c_ssizes p0) (c_dsizes p0) (vsub (c_spos p0 1%nat) (c_spos p0 0%nat))).
Notation distinct c := (distinct_beads 2 (bead_positions (posdata_of 2 0 c)) (bead_sizes (posdata_of 2 0 c))).

Lemma paired_apart p : paired p -> forall b b', (b < 2)%nat -> (b' < 2)%nat -> b <> b' ->
  / 10 ^ 8 < norm (vsub (bead_positions (posdata_of 2 0 p) b) (bead_positions (posdata_of 2 0 p) b')).
Proof.
  intros (_ & _ & S) b b' Hb Hb' N.
  assert (K : norm (vsub (c_spos p 1%nat) (c_spos p 0%nat)) = norm (vsub (c_spos p0 1%nat) (c_spos p0 0%nat))).
  { unfold norm. f_equal. unfold vsub in *. rewrite !S by lia. reflexivity. }
  assert (C : (b = 0 /\ b' = 1)%nat \/ (b = 1 /\ b' = 0)%nat) by lia. destruct C as [[-> ->]|[-> ->]];
  cbn [posdata_of bead_positions num_spheres num_dumbbells sphere_positions Nat.ltb Nat.leb].
  - replace (norm (vsub (c_spos p 0%nat) (c_spos p 1%nat))) with (norm (vsub (c_spos p 1%nat) (c_spos p 0%nat))).
    + rewrite K. exact Hx.
    + unfold norm, vsub. f_equal. ring.
  - rewrite K. exact Hx.
Qed.
Lemma paired_sizes p : paired p -> forall b, (b < 2)%nat -> 0 < bead_sizes (posdata_of 2 0 p) b.
Proof.
  intros (Z & _) b Hb. unfold bead_sizes, posdata_of. cbn [num_spheres num_dumbbells sphere_sizes]. destruct (Nat.ltb_spec b 2); [|lia]. rewrite Z.
  destruct b as [|[|b]]; [exact Ha|rewrite <- Hsz; exact Ha|lia].
Qed.
Lemma paired_distinct p : paired p -> distinct p.
Proof.
  intros P. split; [exact (paired_sizes p P)|]. intros b b' Hb Hb' N. apply Rlt_trans with (2 := paired_apart p P b b' Hb Hb' N). unfold tiny. lra.
Qed.
Lemma paired_posdef p : paired p -> pos_def 22 (generate_Minfinity bb (posdata_of 2 0 p) mu).
Proof.
  intros P. apply (uncrowded_far bb (posdata_of 2 0 p) mu Hmu).
  - exact (paired_sizes p P).
  - exact (paired_apart p P).
  - apply two_uncrowded; apply (paired_sizes p P); lia.
Qed.

Section Run.
Variable g : settings.
Notation N := (g_num_frames g).
Notation frames := (run_frames inv3 2 0 (far_inverse inv h stale 2 0 bb g input) (solve_rest inv inv3 solve sc table h stale 2 0 fm false bb mo cf g input) g (fresh p0)).
Notation reach := (reached inv inv3 solve sc table h stale 2 0 fm false bb mo cf g input p0).
Notation trj := (traj inv inv3 solve sc table h stale 2 0 fm false bb mo cf g input p0).
Notation solvedp := (solved_pair sc table fm bb mo cf g input p0 mu).
Notation farp := (far_pair bb g p0 mu).
Hypothesis Hd : g_use_drag g = false.
Hypothesis Hstart : g_start g = 0%nat.
Hypothesis Hbox : no_box_g g.

Lemma farp_posdef L : farp L -> pos_def 22 L.
Proof.
  unfold far_pair. rewrite Hd. intros (p & P & _ & I). exact (pos_def_inv 22 _ L (paired_posdef p P) I).
Qed.
Notation nearp := (near_pair sc table bb mo cf p0 mu).
Lemma farp_grand L N0 : farp L -> nearp N0 -> pos_def 22 (madd L N0).
Proof. exact (Hgrand g L N0 Hd). Qed.
Lemma nearp_of q t i f N0 : paired q -> input q t = Ok (i, f) -> near_field inv3 sc table 2 0 bb mo cf q f N0 -> nearp N0.
Proof. intros P E. apply (near_field_pair inv3 sc table fm bb mo cf input p0 mu F HI q t i f N0 P); [|exact E]. intros _. apply paired_distinct, P. Qed.
Lemma farp_res pos m L : (forall k, (k <= m)%nat -> paired (pos k)) -> far_resistance h stale 2 0 bb g input pos m L -> farp L.
Proof.
  intros P. apply (far_res_pair h stale fm bb g input p0 mu F Hstart HI pos m L). intros k Hk. split; [apply P; exact Hk|]. intros _. apply paired_distinct, P, Hk.
Qed.
Lemma solvedp_of pos m f o : (forall k, (k <= m)%nat -> paired (pos k)) -> solved inv3 sc table h stale 2 0 fm bb mo cf g input pos m f o -> solvedp f o.
Proof.
  intros P (i & L & N0 & A1 & A2 & A3 & A4). exists i, (pos m), (INR m), L, N0. pose proof (farp_res pos m L P A2) as FL.
  pose proof (nearp_of (pos m) (INR m) i f N0 (P m (le_n m)) A1 A3) as NL.
  split; [exact A1|]. split; [exact FL|]. split; [exact NL|]. split; [|exact A4]. apply farp_grand; [exact FL|exact NL].
Qed.
Lemma speed_same f o j l : solvedp f o -> (j < 2)%nat -> (l < 3)%nat -> rowof (Model_Output.o_Ua o) j l = rowof (Model_Output.o_Ua o) 0%nat l.
Proof. intros S Hj Hl. exact (all_speeds sc table fm bb mo cf g input p0 mu F Hcf Hstart HI Hsz f o f o j l S S Hj Hl). Qed.
Lemma still_same f o j x l : solvedp f o -> (j < 2)%nat -> (l < 3)%nat -> linear_flow (f_U f) (f_O f) (matof (Model_Output.o_Ea o) j) (f_centre f) x l = 0.
Proof. exact (pair_still sc table fm bb mo cf g input p0 mu F HI f o j x l). Qed.

(** Conditions of C65, if the configurations met are paired. *)
Lemma posed_paired : (forall k p, (k < N)%nat -> reach k p -> paired p) ->
  posed_run inv inv3 solve sc table h stale 2 0 fm bb mo cf g input p0.
Proof.
  intros HP. split; [|split; [|split; [|split]]].
  - intros m st _ Est. exact (no_flag inv3 2 0 _ _ g (fresh p0) (or_intror eq_refl) eq_refl _ st Est).
  - intros m p i f _ _ E. exact (Hwp p _ i f E).
  - intros m p i f M Hm _ R E FM. destruct (HI p _ i f E) as (_ & U & Mu & _). rewrite (proj1 FM U), Mu. apply paired_posdef. exact (HP m p Hm R).
  - intros m pos i f L N0 Hm R E A B. apply farp_grand; [|exact (nearp_of (pos m) (INR m) i f N0 (HP m _ Hm (R m (le_n m))) E B)]. apply (farp_res pos m); [|exact A]. intros k Hk. apply (HP k); [lia|]. apply R, Hk.
  - intros _ m p Hm R. apply paired_distinct. exact (HP m p Hm R).
Qed.
Lemma frames_euler st : g_scheme g = euler \/ g_scheme g = ab2 -> (forall k p, (k < N)%nat -> reach k p -> paired p) ->
  (0 < N)%nat -> frames (seq 0 N) = Ok st -> paired (s_pos st).
Proof.
  intros Hsch HP HN E. destruct (posed_paired HP) as (Hq & Hw & Hf & Hg & _).
  pose proof (frame_solved inv inv3 solve sc table h stale 2 0 fm false bb mo cf g input p0 Hinv Hsolve ltac:(lia) eq_refl Hstart Hsch Hq Hw Hf Hg) as FS.
  set (m := (N - 1)%nat). assert (HN' : N = S m) by lia. rewrite HN' in E.
  assert (RP : forall k, (k <= m)%nat -> paired (trj k)).
  { intros k Hk. apply (HP k); [lia|]. exact (frames_reached inv inv3 solve sc table h stale 2 0 fm bb mo cf g input p0 (S m) st E k ltac:(lia)). }
  destruct (FS m st ltac:(lia) E) as (f & o & S1 & S2 & S3 & _).
  pose proof (solvedp_of trj m f o RP S1) as SV.
  (* speeds of the frame before *)
  assert (VW : exists V W : nat -> vec, (forall l, (l < 3)%nat -> V 1%nat l = V 0%nat l) /\
     forall st0, (0 < m)%nat -> frames (seq 0 m) = Ok st0 -> forall j l, (j < 2)%nat -> (l < 3)%nat -> v_U (s_vel st0) j l = V j l /\ v_O (s_vel st0) j l = W j l).
  { destruct m as [|m']; [exists (fun _ _ => 0), (fun _ _ => 0); split; [reflexivity|intros; lia]|].
    destruct (frames_prefix _ _ _ _ _ _ _ _ (S (S m')) (S m') _ E ltac:(lia)) as (st0 & E0).
    destruct (FS m' st0 ltac:(lia) E0) as (f0 & o0 & T1 & T2 & _).
    exists (sphere_speed g f0 o0 (trj m')), (sphere_spin f0 o0). split.
    - intros l Hl. pose proof (solvedp_of trj m' f0 o0 ltac:(intros; apply RP; lia) T1) as SV0.
      unfold sphere_speed. destruct (g_fully_2d g && Nat.eqb l 1)%bool; [reflexivity|].
      rewrite !(still_same f0 o0) by (assumption || lia). rewrite (speed_same f0 o0 1%nat l SV0) by (assumption || lia). reflexivity.
    - intros st1 _ E1 j l Hj _. rewrite E0 in E1. injection E1 as <-. apply T2. exact Hj. }
  destruct VW as (V & W & HV & HVW). destruct (S3 V W HVW) as (Z1 & Z2 & M1 & _). cbv zeta in M1.
  assert (ET : trj (S m) = s_pos st) by (apply (traj_reached inv inv3 solve sc table h stale 2 0 fm false bb mo cf g input p0 (S m) st E)). rewrite <- ET.
  set (first := match g_scheme g with euler => true | _ => Nat.eqb m 0 end) in *.
  set (U := fun l => if (g_fully_2d g && Nat.eqb l 1)%bool then 0 else rowof (Model_Output.o_Ua o) 0%nat l).
  apply (paired_carried g p0 Hstart (trj m) (fun l => g_dt g * (if first then U l else 3 / 2 * U l - 1 / 2 * V 0%nat l))); [apply RP; lia|exact Z1|exact Z2|].
  intros j l Hj Hl. destruct (M1 j Hj) as (x & L & X & _). rewrite (landed_at inv3 g Hbox _ _ _ L l Hl), (X l Hl).
  assert (SP : sphere_speed g f o (trj m) j l = U l).
  { unfold sphere_speed, U. destruct (g_fully_2d g && Nat.eqb l 1)%bool; [reflexivity|].
    rewrite (still_same f o j _ l SV Hj Hl), (speed_same f o j l SV Hj Hl). ring. }
  rewrite SP. replace (V j l) with (V 0%nat l) by (destruct j as [|[|j]]; [reflexivity|symmetry; apply HV, Hl|lia]). reflexivity.
Qed.

Lemma stage_farp pos m K q L0 L : (forall k, (k <= m)%nat -> paired (pos k)) -> paired q -> farp L0 ->
  stage_far h stale 2 0 bb g input pos m K q L0 L -> farp L.
Proof.
  intros HP HQ F0 SF. destruct K as [|K]; [exact (farp_res pos m L HP SF)|]. cbn [stage_far] in SF. destruct SF as [SF1 SF2].
  destruct (classic (g_use_drag g = true \/ g_rk4_each g = true /\ inversion_due 0 (g_invert_every g) m)) as [C|C].
  - apply (far_of_pair h stale fm bb g input p0 mu F HI q (stage_time m (S K))); [exact HQ|intros _; apply paired_distinct, HQ|exact (SF1 C)].
  - rewrite SF2; [exact F0|exact Hd|]. destruct (g_rk4_each g); [right|left; reflexivity]. intros D. apply C. right. split; [reflexivity|exact D].
Qed.
(** Stages of the Runge-Kutta scheme. *)
Lemma stage_pair pos m K q L fl o : (forall k, (k <= m)%nat -> paired (pos k)) -> (forall a, (a <= K)%nat -> paired (q a)) ->
  stages inv3 sc table h stale 2 0 fm bb mo cf g input pos m (S K) q L fl o -> solvedp (fl K) (o K).
Proof.
  intros HP HQ (Q0 & Q1 & _). destruct (Q1 K ltac:(lia)) as [SF (i & N0 & A1 & A2 & A3)].
  assert (F0 : farp (L 0%nat)).
  { destruct (Q1 0%nat ltac:(lia)) as [SF0 _]. cbn [stage_far] in SF0. exact (farp_res pos m (L 0%nat) HP SF0). }
  assert (FK : farp (L K)) by exact (stage_farp pos m K (q K) (L 0%nat) (L K) HP (HQ K (le_n K)) F0 SF).
  exists i, (q K), (stage_time m K), (L K), N0. pose proof (nearp_of (q K) (stage_time m K) i (fl K) N0 (HQ K (le_n K)) A1 A2) as NK.
  split; [exact A1|]. split; [exact FK|]. split; [exact NK|]. split; [|exact A3]. apply farp_grand; [exact FK|exact NK].
Qed.
Lemma stages_less pos m K K' q L fl o : (K' <= K)%nat -> stages inv3 sc table h stale 2 0 fm bb mo cf g input pos m K q L fl o ->
  stages inv3 sc table h stale 2 0 fm bb mo cf g input pos m K' q L fl o.
Proof. intros HK (Q0 & Q1 & Q2). split; [exact Q0|]. split; [intros k Hk; apply Q1; lia|intros k Hk Hk'; apply Q2; lia]. Qed.
Lemma stages_paired pos m K q L fl o : (forall k, (k <= m)%nat -> paired (pos k)) -> (K < 4)%nat ->
  stages inv3 sc table h stale 2 0 fm bb mo cf g input pos m K q L fl o -> forall a, (a <= K)%nat -> paired (q a).
Proof.
  intros HP. induction K as [|K IH]; intros HK HS a Ha'.
  - destruct HS as (Q0 & _). replace a with 0%nat by lia. rewrite Q0. apply HP. lia.
  - pose proof (IH ltac:(lia) (stages_less pos m (S K) K q L fl o ltac:(lia) HS)) as IHq.
    destruct (Nat.eq_dec a (S K)) as [->|]; [|apply IHq; lia].
    pose proof (stage_pair pos m K q L fl o HP IHq HS) as SK. destruct HS as (Q0 & Q1 & Q2).
    destruct (Q2 K ltac:(lia) ltac:(lia)) as (Z1 & Z2 & M1 & _).
    apply (paired_carried g p0 Hstart (pos m) (fun l => stage_step (g_dt g) K * rowof (Model_Output.o_Ua (o K)) 0%nat l)); [apply HP; lia|exact Z1|exact Z2|].
    intros j l Hj Hl. destruct (M1 j Hj) as (x & LX & X & _). rewrite (landed_at inv3 g Hbox _ _ _ LX l Hl), (X l Hl).
    unfold stage_speed. rewrite (still_same _ _ j _ l SK Hj Hl), (speed_same _ _ j l SK Hj Hl). ring.
Qed.
Lemma posed4_paired : (forall k p, (k < N)%nat -> reach k p -> paired p) ->
  posed_run4 inv inv3 solve sc table h stale 2 0 fm bb mo cf g input p0.
Proof.
  intros HP. split; [|split].
  - intros m st _ Est. exact (no_flag inv3 2 0 _ _ g (fresh p0) (or_intror eq_refl) eq_refl _ st Est).
  - intros m pos K q L fl o Hm HK R HS i f E.
    assert (PP : forall k, (k <= m)%nat -> paired (pos k)) by (intros k Hk; apply (HP k); [lia|apply R, Hk]).
    pose proof (stages_paired pos m K q L fl o PP HK HS) as PQ. destruct (HI _ _ i f E) as (_ & U & Mu & _).
    split; [exact (Hwp _ _ i f E)|]. split.
    + intros _ M FM. rewrite (proj1 FM U), Mu. apply paired_posdef, PQ. lia.
    + intros LK N0 SF NF. apply farp_grand; [|exact (nearp_of (q K) (stage_time m K) i f N0 (PQ K (le_n K)) E NF)].
      destruct K as [|K]; [exact (farp_res pos m LK PP SF)|].
      apply (stage_farp pos m (S K) (q (S K)) (L 0%nat) LK PP (PQ _ (le_n _))); [|exact SF].
      destruct HS as (Q0 & Q1 & _). destruct (Q1 0%nat ltac:(lia)) as [SF0 _]. exact (farp_res pos m (L 0%nat) PP SF0).
  - intros _ m pos K q L fl o Hm HK R HS. apply paired_distinct.
    apply (stages_paired pos m K q L fl o); try assumption; [|lia]. intros k Hk. apply (HP k); [lia|apply R, Hk].
Qed.
Lemma frames_rk4 st : g_scheme g = rk4 -> (forall k p, (k < N)%nat -> reach k p -> paired p) ->
  (0 < N)%nat -> frames (seq 0 N) = Ok st -> paired (s_pos st).
Proof.
  intros Hsch HP HN E. destruct (posed4_paired HP) as (Hq & Hp & _).
  pose proof (frame_solved4 inv inv3 solve sc table h stale 2 0 fm bb mo cf g input p0 Hinv Hsolve ltac:(lia) Hstart Hsch Hq Hp) as FS.
  set (m := (N - 1)%nat). assert (HN' : N = S m) by lia. rewrite HN' in E.
  assert (RP : forall k, (k <= m)%nat -> paired (trj k)).
  { intros k Hk. apply (HP k); [lia|]. exact (frames_reached inv inv3 solve sc table h stale 2 0 fm bb mo cf g input p0 (S m) st E k ltac:(lia)). }
  destruct (FS m st ltac:(lia) E) as (q & L & fl & o & HS & (Z1 & Z2 & M1 & _) & _). cbv zeta in M1.
  assert (ET : trj (S m) = s_pos st) by (apply (traj_reached inv inv3 solve sc table h stale 2 0 fm false bb mo cf g input p0 (S m) st E)). rewrite <- ET.
  pose proof (stages_paired trj m 3 q L fl o RP ltac:(lia) (stages_less _ _ 4 3 _ _ _ _ ltac:(lia) HS)) as PQ.
  assert (SV : forall k, (k < 4)%nat -> solvedp (fl k) (o k)).
  { intros k Hk. apply (stage_pair trj m k q L fl o RP); [intros a Ha'; apply PQ; lia|]. apply (stages_less _ _ 4); [lia|exact HS]. }
  apply (paired_carried g p0 Hstart (trj m) (fun l => g_dt g * (if (g_fully_2d g && Nat.eqb l 1)%bool then 0 else mean4 (fun k => rowof (Model_Output.o_Ua (o k)) 0%nat l))));
    [apply RP; lia|exact Z1|exact Z2|].
  intros j l Hj Hl. destruct (M1 j Hj) as (x & LX & X & _). rewrite (landed_at inv3 g Hbox _ _ _ LX l Hl), (X l Hl).
  destruct (g_fully_2d g && Nat.eqb l 1)%bool; [reflexivity|]. unfold mean4, stage_speed.
  rewrite !(fun k Hk => still_same (fl k) (o k) j (c_spos (trj m) j) l (SV k Hk) Hj Hl) by lia.
  rewrite !(fun k Hk => speed_same (fl k) (o k) j l (SV k Hk) Hj Hl) by lia. ring.
Qed.
End Run.

(** All configurations met are paired. *)
Variable g : settings.
Notation frames := (run_frames inv3 2 0 (far_inverse inv h stale 2 0 bb g input) (solve_rest inv inv3 solve sc table h stale 2 0 fm false bb mo cf g input) g (fresh p0)).
Hypothesis Hd : g_use_drag g = false.
Hypothesis Hstart : g_start g = 0%nat.
Hypothesis Hbox : no_box_g g.
Hypothesis Hsch : g_scheme g = euler \/ g_scheme g = ab2 \/ g_scheme g = rk4.
Theorem always_paired_if m : forall st, frames (seq 0 m) = Ok st -> paired (s_pos st).
Proof.
  induction m as [m IH] using lt_wf_ind. intros st E. destruct (Nat.eq_dec m 0) as [->|Hm].
  - injection E as <-. exact (paired_start p0).
  - assert (M0 : same_motion (fresh p0) (fresh p0)) by (repeat split).
    destruct (cut_frames inv inv3 solve sc table h stale 2 0 fm false bb mo cf g input m (seq 0 m) (fresh p0) st (fresh p0) M0 E) as (st' & E' & (EP & _)).
    rewrite <- EP.
    assert (HP : forall k p, (k < m)%nat -> reached inv inv3 solve sc table h stale 2 0 fm false bb mo cf (cut m g) input p0 k p -> paired p).
    { intros k p Hk (s1 & E1 & <-). destruct (frames_prefix _ _ _ _ _ _ _ _ m k _ E ltac:(lia)) as (sk & Ek).
      destruct (cut_frames inv inv3 solve sc table h stale 2 0 fm false bb mo cf g input m (seq 0 k) (fresh p0) sk (fresh p0) M0 Ek) as (s2 & E2 & (EP2 & _)).
      rewrite E1 in E2. injection E2 as <-. rewrite EP2. exact (IH k Hk sk Ek). }
    destruct Hsch as [S|[S|S]].
    + apply (frames_euler (cut m g) Hd Hstart Hbox st'); [left; exact S|exact HP|cbn; lia|exact E'].
    + apply (frames_euler (cut m g) Hd Hstart Hbox st'); [right; exact S|exact HP|cbn; lia|exact E'].
    + apply (frames_rk4 (cut m g) Hd Hstart Hbox st'); [exact S|exact HP|cbn; lia|exact E'].
Qed.
Theorem pair_posed_if : (g_scheme g = euler \/ g_scheme g = ab2) /\ posed_run inv inv3 solve sc table h stale 2 0 fm bb mo cf g input p0 \/
  g_scheme g = rk4 /\ posed_run4 inv inv3 solve sc table h stale 2 0 fm bb mo cf g input p0.
Proof.
  assert (HP : forall k p, (k < g_num_frames g)%nat -> reached inv inv3 solve sc table h stale 2 0 fm false bb mo cf g input p0 k p -> paired p).
  { intros k p _ (st & E & <-). exact (always_paired_if k st E). }
  destruct Hsch as [S|[S|S]].
  - left. split; [left; exact S|]. exact (posed_paired g Hd Hstart HP).
  - left. split; [right; exact S|]. exact (posed_paired g Hd Hstart HP).
  - right. split; [exact S|]. exact (posed4_paired g Hd Hstart Hbox HP).
Qed.
End Pair.

(** No near field, or too far apart for it. *)
Section Apart.
Variable sc : nat -> nat -> R -> nat -> R.
Variable table : list R.
Variables bb mo : bool.
Variable cf : R.
Variable p0 : config.
Variable mu : R.
Hypothesis Hcf : 0 < cf.
Hypothesis Hsz : c_ssizes p0 0%nat = c_ssizes p0 1%nat.
Hypothesis Hmu : 0 < mu.
Hypothesis Ha : 0 < c_ssizes p0 0%nat.
Hypothesis Hx : / 10 ^ 8 < norm (vsub (c_spos p0 1%nat) (c_spos p0 0%nat)).
Hypothesis Hsep : mo = true \/ 2 * cf * c_ssizes p0 0%nat <= norm (vsub (c_spos p0 1%nat) (c_spos p0 0%nat)).
Lemma nearp_zero (g : settings) (Hstart : g_start g = 0%nat) N0 : near_pair sc table bb mo cf p0 mu N0 -> forall r c, (r < 22)%nat -> (c < 22)%nat -> N0 r c = 0.
Proof.
  clear Hstart. unfold near_pair. destruct Hsep as [-> |HS]; [intros ->; reflexivity|]. destruct mo; [intros ->; reflexivity|].
  intros (p & P & _ & G) r c Hr Hc. apply (gen_free_none sc table bb (posdata_of 2 0 p) cf mu N0 r c Hcf (paired_sizes p0 Hsz Ha p P) G); [|exact Hr|exact Hc].
  assert (K : norm (vsub (c_spos p 1%nat) (c_spos p 0%nat)) = norm (vsub (c_spos p0 1%nat) (c_spos p0 0%nat))).
  { destruct P as (_ & _ & S). unfold norm. f_equal. unfold vsub in *. rewrite !S by lia. reflexivity. }
  assert (K' : norm (vsub (c_spos p 0%nat) (c_spos p 1%nat)) = norm (vsub (c_spos p 1%nat) (c_spos p 0%nat))) by (unfold norm, vsub; f_equal; ring).
  intros b b' Hb Hb' Ne. destruct P as (Z & _). unfold scaled_distance, bead_sizes, bead_positions, posdata_of. cbn [num_spheres num_dumbbells sphere_sizes sphere_positions].
  assert (C : (b = 0 /\ b' = 1)%nat \/ (b = 1 /\ b' = 0)%nat) by (cbn in Hb, Hb'; lia).
  destruct C as [[-> ->]|[-> ->]]; cbn [Nat.ltb Nat.leb]; rewrite Z, ?K', K, <- Hsz; set (n := norm _) in *; set (a := c_ssizes p0 0%nat) in *;
    (apply Rmult_le_reg_r with a; [exact Ha|]; replace (2 * n / (a + a) * a) with n by (field; lra); exact HS).
Qed.
Lemma apart_grand : grand_posdef sc table bb mo cf p0 mu.
Proof.
  intros g L N0 Hd A B. apply (pos_def_ext 22 L); [|exact (farp_posdef bb p0 mu Hsz Hmu Ha Hx g Hd L A)].
  assert (Z : forall r c, (r < 22)%nat -> (c < 22)%nat -> N0 r c = 0).
  { apply (nearp_zero (mkSettings (g_scheme g) (g_dt g) 0 0 0 (g_use_drag g) (g_rk4_each g) (g_fully_2d g) (g_explosion g) (g_box_bl g) (g_box_tr g) 0 0 0 false 1) eq_refl N0 B). }
  intros i j Hi Hj. unfold madd. rewrite (Z i j Hi Hj). ring.
Qed.
End Apart.
Theorem always_paired inv inv3 solve sc table h stale fm bb mo cf input p0 mu F :
  0 < cf -> inverts_posdef inv -> solves_posdef solve -> pulled_alike fm mu F input ->
  c_ssizes p0 0%nat = c_ssizes p0 1%nat -> 0 < mu -> 0 < c_ssizes p0 0%nat -> / 10 ^ 8 < norm (vsub (c_spos p0 1%nat) (c_spos p0 0%nat)) ->
  mo = true \/ 2 * cf * c_ssizes p0 0%nat <= norm (vsub (c_spos p0 1%nat) (c_spos p0 0%nat)) ->
  (forall p t i f, input p t = Ok (i, f) -> well_posed 2 0 fm i) ->
  forall g, g_use_drag g = false -> g_start g = 0%nat -> no_box_g g -> g_scheme g = euler \/ g_scheme g = ab2 \/ g_scheme g = rk4 ->
  forall m st, run_frames inv3 2 0 (far_inverse inv h stale 2 0 bb g input) (solve_rest inv inv3 solve sc table h stale 2 0 fm false bb mo cf g input) g (fresh p0) (seq 0 m) = Ok st ->
  paired (c_ssizes p0) (c_dsizes p0) (vsub (c_spos p0 1%nat) (c_spos p0 0%nat)) (s_pos st).
Proof.
  intros Hcf Hi Hs HI Hsz Hmu Ha Hx Hsep Hwp g Hd H0 Hb Hsch.
  exact (always_paired_if inv inv3 solve sc table h stale fm bb mo cf input p0 mu F Hcf Hi Hs HI Hsz Hmu Ha Hx (apart_grand sc table bb mo cf p0 mu Hcf Hsz Hmu Ha Hx Hsep) Hwp g Hd H0 Hb Hsch).
Qed.
Theorem pair_posed inv inv3 solve sc table h stale fm bb mo cf input p0 mu F :
  0 < cf -> inverts_posdef inv -> solves_posdef solve -> pulled_alike fm mu F input ->
  c_ssizes p0 0%nat = c_ssizes p0 1%nat -> 0 < mu -> 0 < c_ssizes p0 0%nat -> / 10 ^ 8 < norm (vsub (c_spos p0 1%nat) (c_spos p0 0%nat)) ->
  mo = true \/ 2 * cf * c_ssizes p0 0%nat <= norm (vsub (c_spos p0 1%nat) (c_spos p0 0%nat)) ->
  (forall p t i f, input p t = Ok (i, f) -> well_posed 2 0 fm i) ->
  forall g, g_use_drag g = false -> g_start g = 0%nat -> no_box_g g -> g_scheme g = euler \/ g_scheme g = ab2 \/ g_scheme g = rk4 ->
  (g_scheme g = euler \/ g_scheme g = ab2) /\ posed_run inv inv3 solve sc table h stale 2 0 fm bb mo cf g input p0 \/
  g_scheme g = rk4 /\ posed_run4 inv inv3 solve sc table h stale 2 0 fm bb mo cf g input p0.
Proof.
  intros Hcf Hi Hs HI Hsz Hmu Ha Hx Hsep Hwp g Hd H0 Hb Hsch.
  exact (pair_posed_if inv inv3 solve sc table h stale fm bb mo cf input p0 mu F Hcf Hi Hs HI Hsz Hmu Ha Hx (apart_grand sc table bb mo cf p0 mu Hcf Hsz Hmu Ha Hx Hsep) Hwp g Hd H0 Hb Hsch).
Qed.
