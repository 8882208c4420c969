(** Spheres that are not crowded, far field only: runs, and how fast they fall. *)
From Coq Require Import Reals List Arith ZArith Bool Lia Lra.
From Verif Require Import Base Py Model_Pack Model_Mob Model_Layout Model_Minf Model_Grand Model_Close Model_R2B Model_GrandP Model_Step
  Model_Output Model_Frame Model_Inputs Model_Sim
  Spec_Pack Spec_Convert Spec_Output Spec_Layout Spec_Minf Spec_Rotate Spec_Step Spec_Frame Spec_Posdef Spec_Run Spec_Run4
  Spec_Turn Spec_Turn4 Spec_Renumber Spec_Work Spec_Two
  Proof_Minf3 Proof_Posdef Proof_Frame Proof_Run Proof_Run2 Proof_Output3 Proof_Runs2 Proof_Turn2 Proof_Turn3 Proof_Turn5 Proof_Work Proof_Work2 Proof_Work3 Proof_Two4.
From Verif Require Proof_Runs3 Spec_Runs Proof_Rotate5.
Import ListNotations.
Local Open Scope R_scope.
Notation room Ns Nd p := (roomy (Ns + 2 * Nd) (bead_positions (posdata_of Ns Nd p)) (bead_sizes (posdata_of Ns Nd p))).

Ltac pos_prod := repeat match goal with |- 0 < _ * _ => apply Rmult_lt_0_compat end; lra.
Lemma Rabs_between x b : Rabs x <= b -> - b <= x <= b.
Proof. unfold Rabs. destruct (Rcase_abs x); lra. Qed.
(** ** Power of forces and torques when the strain is prescribed *)
Lemma lone_nonneg n a mu v : 0 < mu -> (forall b, (b < n)%nat -> 0 < a b) -> 0 <= lone_power n a mu v.
Proof.
  intros Hmu Ha. apply rsum_nonneg. intros p Hp. pose proof (Ha p Hp) as A. pose proof PI_RGT_0 as HP.
  assert (A3 : 0 < a p ^ 3) by (apply pow_lt; exact A).
  assert (B1 : 0 < 6 * PI * mu * a p) by pos_prod.
  assert (B2 : 0 < 8 * PI * mu * a p ^ 3) by pos_prod.
  assert (B3 : 0 < 20 / 3 * PI * mu * a p ^ 3) by pos_prod.
  assert (Q : forall k f d, 0 < d -> 0 <= rsum k (fun i => f i ^ 2) / d).
  { intros k f d Hd. apply Rmult_le_pos; [apply rsum_nonneg; intros; apply pow2_ge_0|apply Rlt_le, Rinv_0_lt_compat, Hd]. }
  pose proof (Q 3%nat (fun i => v (3 * p + i)%nat) _ B1). pose proof (Q 3%nat (fun i => v (3 * n + 3 * p + i)%nat) _ B2).
  pose proof (Q 5%nat (fun i => v (6 * n + 5 * p + i)%nat) _ B3). lra.
Qed.
Definition no_stresslets (n : nat) (w : vec) : vec := fun r => if Nat.ltb r (6 * n) then w r else 0.
Lemma lone_less n a mu w : 0 < mu -> (forall b, (b < n)%nat -> 0 < a b) -> lone_power n a mu (no_stresslets n w) <= lone_power n a mu w.
Proof.
  intros Hmu Ha. apply Rminus_le. unfold lone_power. rewrite <- rsum_minus. apply Ropp_le_cancel. rewrite Ropp_0, <- rsum_opp.
  apply rsum_nonneg. intros p Hp. pose proof (Ha p Hp) as A. pose proof PI_RGT_0 as HP.
  assert (A3 : 0 < a p ^ 3) by (apply pow_lt; exact A).
  assert (B3 : 0 < 20 / 3 * PI * mu * a p ^ 3) by pos_prod.
  assert (Q : 0 <= rsum 5 (fun i => w (6 * n + 5 * p + i)%nat ^ 2) / (20 / 3 * PI * mu * a p ^ 3)).
  { apply Rmult_le_pos; [apply rsum_nonneg; intros; apply pow2_ge_0|apply Rlt_le, Rinv_0_lt_compat, B3]. }
  rewrite (rsum_ext 3 (fun i => no_stresslets n w (3 * p + i)%nat ^ 2) (fun i => w (3 * p + i)%nat ^ 2)).
  2:{ intros i Hi. unfold no_stresslets. destruct (Nat.ltb_spec (3 * p + i) (6 * n)); [reflexivity|lia]. }
  rewrite (rsum_ext 3 (fun i => no_stresslets n w (3 * n + 3 * p + i)%nat ^ 2) (fun i => w (3 * n + 3 * p + i)%nat ^ 2)).
  2:{ intros i Hi. unfold no_stresslets. destruct (Nat.ltb_spec (3 * n + 3 * p + i) (6 * n)); [reflexivity|lia]. }
  rewrite (rsum_zero 5 (fun i => no_stresslets n w (6 * n + 5 * p + i)%nat ^ 2)).
  2:{ intros i Hi. unfold no_stresslets. destruct (Nat.ltb_spec (6 * n + 5 * p + i) (6 * n)); [lia|ring]. }
  replace (0 / (20 / 3 * PI * mu * a p ^ 3)) with 0 by (unfold Rdiv; ring). lra.
Qed.
Lemma mvec_dot_sym n M x y : msym n M -> rsum n (fun r => x r * mvec n M y r) = rsum n (fun r => y r * mvec n M x r).
Proof.
  intros HM. unfold mvec.
  transitivity (rsum n (fun r => rsum n (fun c => x r * (M r c * y c)))); [apply rsum_ext; intros; symmetry; apply rsum_scal_l|].
  rewrite rsum_swap. apply rsum_ext. intros c Hc. rewrite <- rsum_scal_l. apply rsum_ext. intros r Hr. rewrite (HM r c Hr Hc). ring.
Qed.
Lemma mvec_minus n M x y r : mvec n M (fun c => x c - y c) r = mvec n M x r - mvec n M y r.
Proof. unfold mvec. rewrite <- rsum_minus. apply rsum_ext. intros c Hc. ring. Qed.

(** Forces, torques and stresslets [w] that move spheres with velocities [u]
    without strain. *)
Theorem driven_power bb p mu w u : num_dumbbells p = 0%nat ->
  let Ns := num_spheres p in
  0 < mu -> roomy Ns (bead_positions p) (bead_sizes p) ->
  linrel (11 * Ns) (generate_Minfinity bb p mu) w u ->
  (forall r, (6 * Ns <= r < 11 * Ns)%nat -> u r = 0) ->
  let alone := lone_power Ns (bead_sizes p) mu (no_stresslets Ns w) in
  1 / 10 * alone <= rsum (11 * Ns) (fun r => w r * u r) <= 19 / 10 * alone.
Proof.
  intros H0 Ns Hmu (Ha & Hx & HU) L Hz alone. set (n := (11 * Ns)%nat) in *. set (M := generate_Minfinity bb p mu) in *. set (v := no_stresslets Ns w) in *.
  assert (HM : msym n M).
  { intros r c Hr Hc. apply (gen_sym bb p mu); rewrite H0; unfold n, Ns in *; lia. }
  assert (EU : rsum n (fun r => w r * u r) = rsum n (fun r => w r * mvec n M w r)).
  { apply rsum_ext. intros r Hr. rewrite (L r Hr). reflexivity. }
  pose proof (spheres_power bb p mu w H0 Hmu Ha Hx HU) as Pw. fold Ns n M in Pw.
  pose proof (spheres_power bb p mu v H0 Hmu Ha Hx HU) as Pv. fold Ns n M in Pv. fold alone in Pv.
  pose proof (spheres_power bb p mu (fun r => w r - v r) H0 Hmu Ha Hx HU) as Pd. fold Ns n M in Pd.
  apply Rabs_between in Pw.
  apply Rabs_between in Pv. apply Rabs_between in Pd.
  pose proof (lone_less Ns (bead_sizes p) mu w Hmu Ha) as LL. fold v alone in LL.
  pose proof (lone_nonneg Ns (bead_sizes p) mu (fun r => w r - v r) Hmu Ha) as LN.
  assert (VU : rsum n (fun r => v r * mvec n M w r) = rsum n (fun r => w r * u r)).
  { apply rsum_ext. intros r Hr. unfold v, no_stresslets. destruct (Nat.ltb_spec r (6 * Ns)); [rewrite (L r Hr); reflexivity|].
    rewrite (Hz r) by (unfold n in *; lia). ring. }
  assert (ED : rsum n (fun r => (w r - v r) * mvec n M (fun c => w c - v c) r)
     = rsum n (fun r => v r * mvec n M v r) - rsum n (fun r => w r * u r)).
  { rewrite (rsum_ext n _ (fun r => (w r * mvec n M w r - w r * mvec n M v r) - (v r * mvec n M w r - v r * mvec n M v r))).
    2:{ intros r Hr. rewrite mvec_minus. ring. }
    rewrite !rsum_minus, (mvec_dot_sym n M w v HM), VU, <- EU. ring. }
  rewrite ED in Pd. rewrite EU in *. fold Ns in LL, LN. split; lra.
Qed.

(** ** Gravity *)
Lemma gravity_drift bb Ns fm q tq p tm dt i f L R0 o :
  (0 < Ns)%nat -> fm = fte \/ fm = ufte -> input_ftsuoe 1 fm Ns 0 p tm dt = Ok (i, f) ->
  room Ns 0 q -> tq = 1 ->
  is_inv (11 * Ns + 6 * 0) (generate_Minfinity bb (posdata_of Ns 0 q) tq) L ->
  (forall a b, (a < 11 * Ns + 6 * 0)%nat -> (b < 11 * Ns + 6 * 0)%nat -> R0 a b = L a b) ->
  answers Ns 0 fm i R0 o ->
  1 / 10 * lone_fall Ns (c_ssizes q) <= - rsum Ns (fun j => rowof (oUa o) j 2%nat) <= 19 / 10 * lone_fall Ns (c_ssizes q).
Proof.
  intros HN Hfm HI HR -> HL HE HA.
  pose proof (gravity_forced Ns 0 fm Hfm p tm dt i f HI) as FO.
  assert (F : fm <> fts) by (destruct Hfm as [-> | ->]; discriminate).
  pose proof (quiet_answers Ns 0 fm i f R0 o F FO HA) as Q.
  destruct (gravity_kept Ns 0 fm HN Hfm p tm dt i f HI R0 o HA) as [K _].
  destruct HA as ((L1 & L2 & L3) & (H1 & H2 & H3 & H4 & H5 & H6 & H7 & H8 & H9 & H10 & _) & _).
  set (u := lvec (grand (oUa o) (oOa o) (oEa o) (oUb o) (oHDb o))) in *.
  set (w := lvec (grand (oFa o) (o_Ta o) (oSa o) (oFb o) (oDFb o))) in *.
  set (n := (11 * Ns + 6 * 0)%nat) in *. assert (En : n = (11 * Ns)%nat) by (unfold n; lia).
  set (M := generate_Minfinity bb (posdata_of Ns 0 q) 1) in *.
  assert (GU : forall k b c, kvalid Ns 0 k b -> (c < ksize k)%nat -> u (kstart Ns k b + c)%nat = blk (oUa o) (oOa o) (oEa o) (oUb o) (oHDb o) Ns 0 k b c).
  { intros k b c Hk Hc. apply grand_at; try assumption. apply H10. }
  assert (GF : forall k b c, kvalid Ns 0 k b -> (c < ksize k)%nat -> w (kstart Ns k b + c)%nat = blk (oFa o) (o_Ta o) (oSa o) (oFb o) (oDFb o) Ns 0 k b c).
  { intros k b c Hk Hc. apply grand_at; try assumption. apply H9. }
  assert (LM : linrel n M w u).
  { pose proof (is_inv_mvec n M L w u HL) as [_ I]. intros r Hr. apply I; [|exact Hr]. intros k Hk. rewrite (L3 k Hk). apply rsum_ext. intros c Hc. rewrite HE by assumption. reflexivity. }
  assert (UE : forall r, (6 * Ns <= r < 11 * Ns)%nat -> u r = 0).
  { intros r Hr. set (t := (r - 6 * Ns)%nat). pose proof (Nat.div_mod t 5 ltac:(lia)) as D. pose proof (Nat.mod_upper_bound t 5 ltac:(lia)) as B.
    replace r with (kstart Ns KS (t / 5) + t mod 5)%nat by (cbn [kstart]; lia).
    assert (V : (t / 5 < Ns)%nat) by (apply Nat.div_lt_upper_bound; lia).
    rewrite (GU KS (t / 5)%nat (t mod 5)%nat V B). cbn [blk]. apply rsum_zero. intros a Ha. apply rsum_zero. intros b Hb.
    unfold matof. rewrite (proj2 Q (nth (t / 5) (oEa o) [])) by (apply nth_In; destruct H10; lia).
    unfold zeros33, zeros3. idx3 Ha; idx3 Hb; cbn [nth]; ring. }
  rewrite En in *.
  pose proof (driven_power bb (posdata_of Ns 0 q) 1 w u eq_refl ltac:(lra)) as P. cbn [num_spheres posdata_of] in P.
  replace (Ns + 2 * 0)%nat with Ns in HR by lia. specialize (P HR LM UE).
  assert (TZ : forall b c, (b < Ns)%nat -> (c < 3)%nat -> w (kstart Ns KO b + c)%nat = 0).
  { intros b c Hb Hc. rewrite (GF KO b c Hb Hc). cbn [blk]. unfold rowof. rewrite (proj1 Q (nth b (o_Ta o) [])) by (apply nth_In; destruct H2; lia).
    unfold zeros3. idx3 Hc; reflexivity. }
  assert (FZ : forall b c, (b < Ns)%nat -> (c < 3)%nat -> w (3 * b + c)%nat = if Nat.eqb c 2 then - (1) else 0).
  { intros b c Hb Hc. pose proof (GF KU b c Hb Hc) as G. cbn [kstart blk] in G. rewrite G. unfold rowof. rewrite (K b Hb). idx3 Hc; reflexivity. }
  assert (EP : rsum (11 * Ns) (fun r => w r * u r) = - rsum Ns (fun j => rowof (oUa o) j 2%nat)).
  { replace (11 * Ns)%nat with (11 * Ns + 6 * 0)%nat by lia. rewrite Proof_Rotate5.rsum_blocks. cbn [Nat.mul].
    change (rsum 0 _) with 0. rewrite Rplus_0_r.
    rewrite (rsum_zero Ns (fun p => rsum 3 (fun i => w (kstart Ns KO p + i)%nat * u (kstart Ns KO p + i)%nat))).
    2:{ intros b Hb. apply rsum_zero. intros c Hc. rewrite TZ by assumption. ring. }
    rewrite (rsum_zero Ns (fun p => rsum 5 (fun i => w (kstart Ns KS p + i)%nat * u (kstart Ns KS p + i)%nat))).
    2:{ intros b Hb. apply rsum_zero. intros c Hc. rewrite (UE (kstart Ns KS b + c)%nat) by (cbn [kstart]; lia). ring. }
    rewrite <- rsum_opp, !Rplus_0_r. apply rsum_ext. intros b Hb.
    rewrite (rsum_ext 3 _ (fun c => (if Nat.eqb c 2 then - (1) else 0) * rowof (oUa o) b c)).
    2:{ intros c Hc. rewrite (GU KU b c Hb Hc). cbn [kstart blk]. rewrite FZ by assumption. reflexivity. }
    unfold rsum. cbn [Nat.eqb]. ring. }
  assert (EL : lone_power Ns (bead_sizes (posdata_of Ns 0 q)) 1 (no_stresslets Ns w) = lone_fall Ns (c_ssizes q)).
  { apply rsum_ext. intros b Hb.
    assert (EB : bead_sizes (posdata_of Ns 0 q) b = c_ssizes q b).
    { unfold bead_sizes, posdata_of. cbn [num_spheres num_dumbbells sphere_sizes]. destruct (Nat.ltb_spec b Ns); [reflexivity|lia]. }
    rewrite EB.
    rewrite (rsum_ext 3 (fun i => no_stresslets Ns w (3 * b + i)%nat ^ 2) (fun c => (if Nat.eqb c 2 then - (1) else 0) ^ 2)).
    2:{ intros c Hc. unfold no_stresslets. destruct (Nat.ltb_spec (3 * b + c) (6 * Ns)); [|lia]. rewrite FZ by assumption. reflexivity. }
    rewrite (rsum_zero 3 (fun i => no_stresslets Ns w (3 * Ns + 3 * b + i)%nat ^ 2)).
    2:{ intros c Hc. unfold no_stresslets. destruct (Nat.ltb_spec (3 * Ns + 3 * b + c) (6 * Ns)); [|lia].
        pose proof (TZ b c Hb Hc) as Z. cbn [kstart] in Z. rewrite Z. ring. }
    rewrite (rsum_zero 5 (fun i => no_stresslets Ns w (6 * Ns + 5 * b + i)%nat ^ 2)).
    2:{ intros c Hc. unfold no_stresslets. destruct (Nat.ltb_spec (6 * Ns + 5 * b + c) (6 * Ns)); [lia|ring]. }
    unfold rsum. cbn [Nat.eqb]. destruct HR as (HR & _). specialize (HR b ltac:(lia)). rewrite EB in HR. pose proof PI_RGT_0. field. repeat split; lra. }
  rewrite EP, EL in P. exact P.
Qed.

(** ** Runs *)
Section Roomy.
Variable inv : nat -> mat -> mat.
Variable inv3 : mat -> mat.
Variable solve : nat -> mat -> list R -> list R.
Variable sc : nat -> nat -> R -> nat -> R.
Variable table : list R.
Variable h : nat.
Variable stale : nat -> nat -> R.
Variables Ns Nd : nat.
Variable fm : form.
Variables bb : bool.
Variable cf : R.
Variable g : settings.
Variable input : config -> R -> res (inputs * flow).
Variable p0 : config.
Notation N := (g_num_frames g).
Notation n := (11 * Ns + 6 * Nd)%nat.
Hypothesis Hex : g_explosion g = false \/ Nd = 0%nat.
Hypothesis Hd : g_use_drag g = false.
Hypothesis Hw : forall p t i f, input p t = Ok (i, f) -> well_posed Ns Nd fm i /\ 0 < f_mu f /\ unbounded f.
Notation reach := (reached inv inv3 solve sc table h stale Ns Nd fm false bb true cf g input p0).
Hypothesis HR : forall m p, (m < N)%nat -> reach m p -> room Ns Nd p.

Lemma room_posdef p mu : room Ns Nd p -> 0 < mu -> pos_def n (generate_Minfinity bb (posdata_of Ns Nd p) mu).
Proof. intros (A & B & C) Hmu. exact (uncrowded_far bb (posdata_of Ns Nd p) mu Hmu A B C). Qed.
Lemma roomy_posed : posed_run inv inv3 solve sc table h stale Ns Nd fm bb true cf g input p0.
Proof.
  split; [|split; [|split; [|split]]].
  - intros m st _ Est. exact (no_flag inv3 Ns Nd _ _ g (fresh p0) Hex eq_refl _ st Est).
  - intros m p i f _ _ E. apply (Hw p _ i f E).
  - intros m p i f M Hm _ R E FM. destruct (Hw p _ i f E) as (_ & Mu & U). rewrite (proj1 FM U). apply room_posdef; [exact (HR m p Hm R)|exact Mu].
  - intros m pos i f L N0 Hm R E A B. unfold near_field in B. subst N0.
    apply (pos_def_ext n L); [intros; unfold mzero; ring|].
    unfold far_resistance in A. rewrite Hd in A. destruct A as (k & i' & f' & M & LD & E' & FM & IV).
    destruct (Hw _ _ i' f' E') as (_ & Mu & U). rewrite (proj1 FM U) in IV. assert (Hk : (k <= m)%nat) by apply LD.
    apply (pos_def_inv n _ L (room_posdef (pos k) (f_mu f') (HR k (pos k) ltac:(lia) (R k Hk)) Mu) IV).
  - intros _ m p Hm R. destruct (HR m p Hm R) as (A & B & _). split; [exact A|]. intros b b' Hb Hb' Ne.
    apply Rlt_trans with (2 := B b b' Hb Hb' Ne). unfold tiny. lra.
Qed.
End Roomy.

Section Fall.
Variable inv : nat -> mat -> mat.
Variable inv3 : mat -> mat.
Variable solve : nat -> mat -> list R -> list R.
Variable sc : nat -> nat -> R -> nat -> R.
Variable table : list R.
Variable h : nat.
Variable stale : nat -> nat -> R.
Variable Ns : nat.
Variable fm : form.
Variables bb : bool.
Variable cf : R.
Variable g : settings.
Variable dt : R.
Variable p0 : config.
Notation N := (g_num_frames g).
Notation input := (fun p t => input_ftsuoe 1 fm Ns 0 p t dt).
Hypothesis Hinv : inverts_posdef inv.
Hypothesis Hsolve : solves_posdef solve.
Hypothesis HNs : (0 < Ns)%nat.
Hypothesis Hfm : fm = fte \/ fm = ufte.
Hypothesis Hd : g_use_drag g = false.
Hypothesis Hstart : g_start g = 0%nat.
Hypothesis Hbox : no_box_g g.
Hypothesis Hdt : 0 <= g_dt g.
Hypothesis S1 : (0 < g_save_pos g)%nat.
Hypothesis S2 : (0 < g_save_forces g)%nat.
Hypothesis S3 : (g_save_after g mod g_save_pos g = 0)%nat.
Hypothesis S4 : (g_save_after g mod g_save_forces g = 0)%nat.
Variables (s : list snapshot) (fs : list fsnapshot).
Hypothesis E : full_simulation inv inv3 solve sc table h stale Ns 0 fm false bb true cf g input p0 = Ok (Some (s, fs)).
Hypothesis HR : forall m p, (m < N)%nat -> reached inv inv3 solve sc table h stale Ns 0 fm false bb true cf g input p0 m p -> room Ns 0 p.
Hypothesis Hsch : g_scheme g = euler \/ g_scheme g = ab2.

Lemma gravity_well : forall p t i f, input p t = Ok (i, f) -> well_posed Ns 0 fm i /\ 0 < f_mu f /\ unbounded f.
Proof using HNs Hfm.
  clear - HNs Hfm. intros p t i f EI. rewrite (gravity_flow Ns 0 fm p t dt i f EI). split; [|split; [cbn; lra|intros l Hl; reflexivity]].
  destruct (Proof_Runs3.given_inputs 1 fm Ns 0 p t dt ltac:(lia)) as (i' & f' & E' & C & _).
  - unfold Spec_Runs.workable. destruct (Nat.eqb_spec Ns 0); [lia|]. destruct Hfm as [-> | ->]; [left; discriminate|left; reflexivity].
  - rewrite EI in E'. injection E' as <- <-. unfold Spec_Runs.complete in C. unfold well_posed.
    rewrite (firstn_all2 (n := Ns) (i_Fa i)) in C by (rewrite (gravity_inputs Ns 0 fm p t dt i f EI); cbn [with_Fa i_Fa]; rewrite repeat_length; lia).
    destruct Hfm as [Ef|Ef]; rewrite Ef in *; tauto.
Qed.
Theorem roomy_fall : exists pos : nat -> snapshot,
  (forall m j l, (m = 0)%nat -> (j < Ns)%nat -> (l < 3)%nat -> n_pos (pos m) j l = c_spos p0 j l) /\
  (forall m, (m < N)%nat -> (g_scheme g = euler \/ m = 0%nat) ->
     1 / 10 * lone_fall Ns (c_ssizes p0) * g_dt g <= heights Ns (pos m) - heights Ns (pos (S m)) <= 19 / 10 * lone_fall Ns (c_ssizes p0) * g_dt g) /\
  s = map pos (due_frames (g_save_pos g) (g_save_after g) N) ++ (if save_due (g_save_pos g) (g_save_after g) (N - 1) then [pos N] else []).
Proof.
  pose proof (roomy_posed inv inv3 solve sc table h stale Ns 0 fm bb cf g input p0 (or_intror eq_refl) Hd gravity_well HR) as (Hq & Hw & Hf & Hg & _).
  destruct (whole_run inv inv3 solve sc table h stale Ns 0 fm false bb true cf g input p0 Hinv Hsolve HNs eq_refl Hstart Hsch Hq Hw Hf Hg
    s fs S1 S2 S3 S4 E) as (pos & fl & out & (P0 & PR) & P1 & P2 & _).
  exists (fun m => snap Ns (pos m)). split; [|split; [|exact P2]].
  { intros m j l -> Hj _. rewrite P0. cbn [snap n_pos]. unfold append_rows. destruct (Nat.ltb_spec j Ns); [reflexivity|lia]. }
  intros m Hm He. rewrite !(heights_snap Ns g HNs Hstart S1 S2 S3 S4).
  destruct (P1 m Hm) as [(i & L & N0 & A1 & A2 & A3 & A4) (_ & _ & M1 & _)]. cbv zeta in M1.
  assert (Hfirst : match g_scheme g with euler => true | _ => Nat.eqb m 0 end = true).
  { destruct He as [He|He]; rewrite He; [reflexivity|]. destruct (g_scheme g); reflexivity. }
  rewrite Hfirst in M1.
  assert (SZ : forall k, (k <= N)%nat -> c_ssizes (pos k) = c_ssizes p0).
  { induction k as [|k IH]; intros Hk; [rewrite P0; reflexivity|]. destruct (P1 k Hk) as [_ (Z & _)]. rewrite Z. apply IH. lia. }
  unfold near_field in A3. subst N0. unfold far_resistance in A2. rewrite Hd in A2. destruct A2 as (k & i' & f' & M & LD & E' & FM & IV).
  assert (Hk : (k <= m)%nat) by apply LD.
  destruct (gravity_well _ _ i' f' E') as (_ & _ & U). rewrite (proj1 FM U) in IV.
  pose proof (gravity_flow Ns 0 fm _ _ dt i' f' E') as EF.
  pose proof (gravity_drift bb Ns fm (pos k) (f_mu f') (pos m) (INR m) dt i (fl m) L (fun a b => L a b + mzero a b) (out m) HNs Hfm A1 (HR k (pos k) ltac:(lia) (PR k ltac:(lia)))
    ltac:(rewrite EF; reflexivity) IV ltac:(intros; unfold mzero; ring) A4) as B.
  rewrite (SZ k ltac:(lia)) in B.
  pose proof (gravity_forced Ns 0 fm Hfm (pos m) (INR m) dt i (fl m) A1) as FO.
  assert (F : fm <> fts) by (destruct Hfm as [-> | ->]; discriminate).
  pose proof (quiet_answers Ns 0 fm i (fl m) _ (out m) F FO A4) as Q.
  assert (EH : rsum Ns (fun j => c_spos (pos (S m)) j 2%nat) = rsum Ns (fun j => c_spos (pos m) j 2%nat) + g_dt g * rsum Ns (fun j => rowof (oUa (out m)) j 2%nat)).
  { rewrite <- rsum_scal_l, <- rsum_plus. apply rsum_ext. intros j Hj. destruct (M1 j Hj) as (x & LX & X & _).
    rewrite (landed_at inv3 g Hbox _ _ _ LX 2%nat ltac:(lia)), (X 2%nat ltac:(lia)). unfold sphere_speed. cbn [Nat.eqb]. rewrite andb_false_r.
    rewrite still_flow; [ring|apply FO| |lia]. intros a b Ha Hb'. apply (quiet_matof Ns 0 fm); try assumption. apply A4. }
  rewrite EH. set (v := rsum Ns (fun j => rowof (oUa (out m)) j 2%nat)) in *.
  pose proof (Rmult_le_compat_l _ _ _ Hdt (proj1 B)). pose proof (Rmult_le_compat_l _ _ _ Hdt (proj2 B)). lra.
Qed.
End Fall.
