(** Lemmas for C102. *)
From Coq Require Import Reals List Arith Bool Lia Lra FunctionalExtensionality.
From Verif Require Import Base Py Model_Mob Model_Minf Model_Grand Model_Close Model_R2B Model_MinfP Model_GrandP Model_Step Model_Output
  Model_Frame Model_Inputs Model_Sim Spec_Push Spec_Tow Spec_R2B Spec_Close Spec_Apart Proof_R2B4 Proof_Close Proof_Runs.
From Verif Require Import Model_Layout Model_L.
Import ListNotations.
Local Open Scope R_scope.

(** ** Writing zeros *)
Lemma put_zero r0 r1 c0 c1 : put mzero r0 r1 c0 c1 mzero = mzero.
Proof. apply functional_extensionality; intros i. apply functional_extensionality; intros j. unfold put, mzero. destruct (_ && _)%bool; reflexivity. Qed.

Section Zero.
Variables (sc : nat -> nat -> R -> nat -> R) (table : list R) (bb : bool) (a : nat -> R) (Ns Nd : nat).
Lemma nearby_self pairs : (forall t, In t pairs -> cp1 t = cp2 t) -> forall u, nearby pairs u = [].
Proof.
  intros H u. induction pairs as [|t l IH]; [reflexivity|]. unfold nearby in *. cbn [flat_map]. rewrite IH by (intros; apply H; right; assumption).
  rewrite (H t) by (left; reflexivity). rewrite Nat.eqb_refl. cbn [negb]. rewrite !andb_false_r. reflexivity.
Qed.
Lemma write_zero pairs t : (forall t, In t pairs -> cp1 t = cp2 t) -> In t pairs -> r2b_write sc table bb a Ns Nd pairs mzero t = mzero.
Proof.
  intros H Ht. unfold r2b_write. cbv zeta. rewrite (nearby_self _ H), (H t Ht). unfold near_sum. cbn [fold_left]. unfold mset. rewrite !Nat.eqb_refl.
  destruct (is_sphere (cp2 t) Ns) eqn:S; cbn [andb]; [rewrite !put_zero; reflexivity|].
  destruct (is_dumbbell_bead_1 (cp2 t) Ns Nd) eqn:B; cbn [andb]; [rewrite put_zero; reflexivity|]. rewrite put_zero. reflexivity.
Qed.
Lemma loop_zero pairs all : (forall t, In t all -> cp1 t = cp2 t) -> (forall t, In t all -> lookups_ok table a all t = true) -> (forall t, In t pairs -> In t all) ->
  fold_left (r2b_step sc table bb a Ns Nd all) pairs (Some mzero) = Some mzero.
Proof.
  intros H L. induction pairs as [|t l IH]; intros HI; [reflexivity|]. cbn [fold_left]. unfold r2b_step at 2.
  rewrite L by (apply HI; left; reflexivity). rewrite write_zero by (assumption || (apply HI; left; reflexivity)). apply IH. intros; apply HI; right; assumption.
Qed.
Lemma transform_zero : r2b_transform Ns Nd mzero = mzero.
Proof.
  apply functional_extensionality; intros i. apply functional_extensionality; intros j. unfold r2b_transform, mmul, mzero.
  apply rsum_zero. intros k _. rewrite (rsum_zero _ (fun k0 => _ * 0)) by (intros; apply Rmult_0_r). apply Rmult_0_l.
Qed.
Lemma near_zero pairs mu : (forall t, In t pairs -> cp1 t = cp2 t) -> (forall t, In t pairs -> lookups_ok table a pairs t = true) ->
  generate_R2Bexact sc table bb a Ns Nd pairs mu = Some mzero.
Proof.
  intros H L. unfold generate_R2Bexact, generate_R2Bexact_loop. rewrite (loop_zero pairs pairs H L) by auto. f_equal.
  assert (symmetrise mzero = mzero) as ->.
  { apply functional_extensionality; intros i. apply functional_extensionality; intros j. unfold symmetrise, mzero. destruct (_ <=? _)%nat, (_ <? _)%nat; lra. }
  assert (mscal mu mzero = mzero) as E.
  { apply functional_extensionality; intros i. apply functional_extensionality; intros j. unfold mscal, mzero. ring. }
  destruct (_ <? _)%nat; [rewrite transform_zero|]; exact E.
Qed.
End Zero.

Lemma found_1 table : In 1 table -> found table 1 = true.
Proof.
  intros H. unfold found, lam_index. destruct (found_from 1 table 0 1 H) as [n ->]; [|reflexivity]. unfold isclose, Rleb. destruct (Rle_dec _ _) as [_|F]; [reflexivity|exfalso; apply F].
  replace (1 - 1) with 0 by ring. rewrite Rabs_R0. apply Rplus_le_le_0_compat; [|apply Rmult_le_pos; [|apply Rabs_pos]]; left; apply Rinv_0_lt_compat, pow_lt; lra.
Qed.

(** Far apart: only pairs of a particle with itself. *)
Lemma far_near sc table bb (p : posdata) cf mu :
  let n := (num_spheres p + 2 * num_dumbbells p)%nat in
  (forall b, (b < n)%nat -> 0 < bead_sizes p b) -> In 1 table ->
  (forall i j, (i < j < n)%nat -> cf * (bead_sizes p i + bead_sizes p j) <= norm (vsub (bead_positions p i) (bead_positions p j))) ->
  generate_R2Bexact_free sc table bb p cf mu = Some mzero.
Proof.
  intros n Ha H1 HF. unfold generate_R2Bexact_free. fold n.
  assert (SELF : forall t, In t (close_particles_free (bead_positions p) (bead_sizes p) n cf) -> cp1 t = cp2 t /\ cp_ratio t = 1).
  { intros t Ht. apply free_in in Ht. destruct Ht as ((L & L') & D & E). assert (C : cp1 t = cp2 t).
    { destruct (Nat.eq_dec (cp1 t) (cp2 t)) as [C|C]; [exact C|]. exfalso. specialize (HF (cp1 t) (cp2 t) ltac:(lia)). unfold scaled_distance in D.
      pose proof (Ha (cp1 t) ltac:(lia)) as A1. pose proof (Ha (cp2 t) ltac:(lia)) as A2.
      rewrite norm_vsub_sym in D. apply (Rmult_lt_compat_r (bead_sizes p (cp1 t) + bead_sizes p (cp2 t))) in D; [|lra].
      unfold Rdiv in D. rewrite Rmult_assoc, Rinv_l, Rmult_1_r in D by lra. lra. }
    split; [exact C|]. rewrite E. unfold free_record. cbn [cp_ratio]. rewrite C. field. apply Rgt_not_eq, Ha. lia. }
  apply near_zero; [intros t Ht; apply SELF, Ht|].
  intros t Ht. unfold lookups_ok. destruct (SELF t Ht) as [C ->]. replace (1 / 1) with 1 by field. rewrite (found_1 table H1), C, Nat.eqb_refl.
  rewrite (nearby_self _ (fun t Ht => proj1 (SELF t Ht))). reflexivity.
Qed.

(** ** Runs *)
Section Runs.
Variable inv3 : mat -> mat.
Variables Ns Nd : nat.
Variable far : config -> R -> mat.
Variables rest1 rest2 : config -> R -> velocities -> mat -> res solution.
Variable g : settings.
Variable p0 : config.
Variable P : snapshot -> Prop.
Definition radii_kept (p : config) : Prop := c_ssizes p = c_ssizes p0 /\ c_dsizes p = c_dsizes p0.
Hypothesis HR : forall p, radii_kept p -> P (snap Ns p) -> forall t v mi, rest1 p t v mi = rest2 p t v mi.
Hypothesis Hsch : g_scheme g = euler \/ g_scheme g = ab2.
Hypothesis HS : g_save_pos g = 1%nat.
Hypothesis HA : g_save_after g = 0%nat.
Hypothesis H0 : g_start g = 0%nat.
Notation frame rest := (generate_frame inv3 Ns Nd far rest g).
Notation frames rest := (run_frames inv3 Ns Nd far rest g).

Lemma step_rest f b p e m v : (forall t v mi, rest1 p t v mi = rest2 p t v mi) ->
  step_euler_ab2 inv3 Ns Nd far rest1 g f b p e m v = step_euler_ab2 inv3 Ns Nd far rest2 g f b p e m v.
Proof. intros H. unfold step_euler_ab2, gen. rewrite H. reflexivity. Qed.
Lemma frame_rest st f : (s_error st = false -> forall t v mi, rest1 (s_pos st) t v mi = rest2 (s_pos st) t v mi) -> frame rest1 st f = frame rest2 st f.
Proof.
  intros H. unfold generate_frame. destruct (s_error st); [reflexivity|].
  destruct Hsch as [-> | ->]; (destruct (regenerate_now g f) as [b|]; [|reflexivity]); cbn [bind]; rewrite (step_rest _ _ _ _ _ _ (H eq_refl)); reflexivity.
Qed.
Lemma step_radii rest f b p e m v r : step_euler_ab2 inv3 Ns Nd far rest g f b p e m v = Ok r -> c_ssizes (t_pos r) = c_ssizes p /\ c_dsizes (t_pos r) = c_dsizes p.
Proof.
  unfold step_euler_ab2. intros E.
  repeat match type of E with bind ?x _ = _ => destruct x as [?|?]; cbn [bind] in E; [|discriminate E] | (let '(_, _) := ?y in _) = _ => destruct y end.
  injection E as <-. split; reflexivity.
Qed.
Lemma saves f p p' saved r : save_positions Ns g f p p' saved = Ok r ->
  exists l, r = Some l /\ In (snap Ns p) l /\ (f <> 0%nat -> forall l0, saved = Some l0 -> incl l0 l).
Proof.
  unfold save_positions. rewrite HS, HA, H0. rewrite Nat.mod_1_r. cbn [Nat.eqb Nat.leb andb]. intros E.
  destruct (Nat.eqb_spec f 0) as [F|F].
  - cbn [bind] in E. destruct (f =? _)%nat; injection E as <-; eexists; (split; [reflexivity|]); (split; [left; reflexivity|lia]).
  - cbn [negb] in E. destruct saved as [l|]; cbn [bind] in E; [|discriminate E].
    destruct (f =? _)%nat; injection E as <-; eexists; (split; [reflexivity|]).
    + split; [apply in_or_app; left; apply in_or_app; right; left; reflexivity|]. intros _ l0 L. injection L as <-. intros x Hx. apply in_or_app. left. apply in_or_app. left. exact Hx.
    + split; [apply in_or_app; right; left; reflexivity|]. intros _ l0 L. injection L as <-. intros x Hx. apply in_or_app. left. exact Hx.
Qed.
Lemma frame_saves rest st f st' : frame rest st f = Ok st' ->
  (radii_kept (s_pos st) -> radii_kept (s_pos st')) /\
  (s_error st = false -> exists l, s_saved st' = Some l /\ In (snap Ns (s_pos st)) l) /\
  (f <> 0%nat -> forall l0, s_saved st = Some l0 -> exists l, s_saved st' = Some l /\ incl l0 l).
Proof.
  unfold generate_frame. destruct (s_error st) eqn:ER.
  - intros E. injection E as <-. split; [auto|]. split; [intros X; discriminate X|]. intros _ l0 L. exists l0. split; [exact L|]. intros x Hx. exact Hx.
  - intros E. destruct (regenerate_now g f) as [b|]; cbn [bind] in E; [|discriminate E].
    match type of E with bind ?x _ = _ => destruct x as [r|] eqn:ES; cbn [bind] in E; [|discriminate E] end.
    match type of E with bind ?x _ = _ => destruct x as [saved|] eqn:EP; cbn [bind] in E; [|discriminate E] end.
    match type of E with bind ?x _ = _ => destruct x as [fsaved|] eqn:EF; cbn [bind] in E; [|discriminate E] end.
    match type of E with bind ?x _ = _ => destruct x as [temp|] eqn:ET; cbn [bind] in E; [|discriminate E] end.
    injection E as <-. cbn [s_pos s_saved].
    destruct (saves _ _ _ _ _ EP) as (l & -> & IN & INC). split; [|split].
    + intros [A B]. assert (R : c_ssizes (t_pos r) = c_ssizes (s_pos st) /\ c_dsizes (t_pos r) = c_dsizes (s_pos st)).
      { destruct Hsch as [C|C]; rewrite C in ES; exact (step_radii _ _ _ _ _ _ _ _ ES). }
      destruct R as [R1 R2]. split; congruence.
    + intros _. exists l. split; [reflexivity|exact IN].
    + intros F l0 L. exists l. split; [reflexivity|]. exact (INC F l0 L).
Qed.
Lemma frames_keep rest fr : forall st st', frames rest st fr = Ok st' -> ~ In 0%nat fr -> forall l0, s_saved st = Some l0 -> exists l, s_saved st' = Some l /\ incl l0 l.
Proof.
  induction fr as [|f fr IH]; intros st st' E F l0 L.
  - injection E as <-. exists l0. split; [exact L|]. intros x Hx. exact Hx.
  - cbn [run_frames] in E. destruct (frame rest st f) as [st1|] eqn:E1; cbn [bind] in E; [|discriminate E].
    destruct (frame_saves rest st f st1 E1) as (_ & _ & K). destruct (K ltac:(intros ->; apply F; left; reflexivity) l0 L) as (l1 & L1 & I1).
    destruct (IH st1 st' E ltac:(intros X; apply F; right; exact X) l1 L1) as (l & L2 & I2). exists l. split; [exact L2|]. exact (incl_tran I1 I2).
Qed.
Lemma frames_same fr : forall st st', frames rest1 st fr = Ok st' -> ~ In 0%nat (tl fr) -> radii_kept (s_pos st) ->
  (forall l, s_saved st' = Some l -> forall x, In x l -> P x) -> frames rest2 st fr = Ok st'.
Proof.
  induction fr as [|f fr IH]; intros st st' E F RK HP; [exact E|].
  cbn [run_frames tl] in E, F |- *. destruct (frame rest1 st f) as [st1|] eqn:E1; cbn [bind] in E; [|discriminate E].
  destruct (frame_saves rest1 st f st1 E1) as (K1 & K2 & _).
  assert (EQ : frame rest2 st f = Ok st1).
  { rewrite <- E1. symmetry. apply frame_rest. intros ER. apply HR; [exact RK|].
    destruct (K2 ER) as (l1 & L1 & I1). destruct (frames_keep rest1 fr st1 st' E F l1 L1) as (l & L & I). apply (HP l L), I, I1. }
  rewrite EQ. cbn [bind]. apply IH; [exact E| |exact (K1 RK)|exact HP]. intros X. apply F. destruct fr; [destruct X|right; exact X].
Qed.
Lemma simulate_same r : radii_kept p0 -> simulate inv3 Ns Nd far rest1 g (fresh p0) = Ok (Some r) -> (forall x, In x (fst r) -> P x) ->
  simulate inv3 Ns Nd far rest2 g (fresh p0) = Ok (Some r).
Proof.
  intros RK E HP. unfold simulate, run in *. rewrite H0, Nat.sub_0_r in *.
  destruct (frames rest1 (fresh p0) (seq 0 (g_num_frames g))) as [st'|] eqn:ER; cbn [bind] in E; [|discriminate E].
  rewrite (frames_same _ _ _ ER).
  - cbn [bind]. exact E.
  - destruct (g_num_frames g); cbn [seq tl]; [auto|]. intros X. apply in_seq in X. lia.
  - exact RK.
  - intros l L x Hx. apply HP. unfold final_save, savez in E. rewrite HS in E. rewrite andb_false_r in E. rewrite L in E.
    destruct (s_fsaved st'); cbn [bind] in E; [|discriminate E]. injection E as <-. exact Hx.
Qed.
End Runs.
