(** Work done in whole runs; falling suspensions sink. *)
From Coq Require Import Reals List Arith ZArith Bool Lia Lra Sorted.
From Verif Require Import Base Py Model_Mob Model_Minf Model_Grand Model_Close Model_R2B Model_MinfP Model_GrandP Model_Step
  Model_Output Model_Frame Model_Inputs Model_Sim Spec_Pack Spec_Convert Spec_Output Spec_Minf Spec_Step Spec_Frame Spec_Posdef Spec_Run Spec_Run4
  Spec_Turn Spec_Turn4 Spec_Work Proof_Posdef Proof_Run Proof_Run2 Proof_Run4 Proof_Resume Proof_Turn2 Proof_Turn3 Proof_Turn5 Proof_Work.
Import ListNotations.
Local Open Scope R_scope.

(** ** What the inputs leave out *)
Lemma quiet_answers Ns Nd fm i f R0 o : fm <> fts -> forced_only i f -> answers Ns Nd fm i R0 o -> quiet o.
Proof.
  intros Hfm (T & E & _) (_ & (_ & (L1 & _) & _ & _ & _ & _ & _ & _ & _ & (L2 & _) & _) & K & M).
  assert (KE : keeps 0 Ns (i_Ea i) (oEa o)) by (destruct fm; try contradiction; tauto).
  split.
  - intros r Hr. destruct (In_nth _ _ [] Hr) as (j & Hj & <-). apply T. apply (kept_in (i_Ta i) 0 Ns (o_Ta o) [] j K); lia.
  - intros m Hm. destruct (In_nth _ _ [] Hm) as (j & Hj & <-). apply E. apply (kept_in (i_Ea i) 0 Ns (oEa o) [] j KE); lia.
Qed.
Lemma quiet_matof Ns Nd fm o j a b : of_shape Ns Nd fm o -> quiet o -> (j < Ns)%nat -> (a < 3)%nat -> (b < 3)%nat -> matof (oEa o) j a b = 0.
Proof.
  intros (_ & _ & _ & _ & _ & _ & _ & _ & _ & (L & _) & _) [_ E] Hj Ha Hb. unfold matof.
  rewrite (E (nth j (oEa o) [])) by (apply nth_In; lia). unfold zeros33, zeros3. idx3 Ha; idx3 Hb; reflexivity.
Qed.
Lemma still_flow U W E c x l : (forall a, (a < 3)%nat -> U a = 0 /\ W a = 0) -> (forall a b, (a < 3)%nat -> (b < 3)%nat -> E a b = 0) -> (l < 3)%nat ->
  linear_flow U W E c x l = 0.
Proof.
  intros H1 H2 Hl. unfold linear_flow, mvec, rsum, cross, v3. rewrite (proj1 (H1 l Hl)), !H2 by lia.
  destruct (H1 0%nat), (H1 1%nat), (H1 2%nat); try lia.
  idx3 Hl; repeat match goal with H : W _ = 0 |- _ => rewrite H; clear H end; ring.
Qed.

(** ** Frames of a completed run *)
Section Frames.
Variable inv : nat -> mat -> mat.
Variable inv3 : mat -> mat.
Variable solve : nat -> mat -> list R -> list R.
Variable sc : nat -> nat -> R -> nat -> R.
Variable table : list R.
Variable h : nat.
Variable stale : nat -> nat -> R.
Variables Ns Nd : nat.
Variable fm : form.
Variables bb minf_only : bool.
Variable cf : R.
Variable g : settings.
Variable input : config -> R -> res (inputs * flow).
Variable p0 : config.
Notation N := (g_num_frames g).
Notation n := (11 * Ns + 6 * Nd)%nat.
Hypothesis Hinv : inverts_posdef inv.
Hypothesis Hsolve : solves_posdef solve.
Hypothesis HNs : (0 < Ns)%nat.
Hypothesis Hstart : g_start g = 0%nat.
Hypothesis S1 : (0 < g_save_pos g)%nat.
Hypothesis S2 : (0 < g_save_forces g)%nat.
Hypothesis S3 : (g_save_after g mod g_save_pos g = 0)%nat.
Hypothesis S4 : (g_save_after g mod g_save_forces g = 0)%nat.
Variables (s : list snapshot) (fs : list fsnapshot).
Hypothesis E : full_simulation inv inv3 solve sc table h stale Ns Nd fm false bb minf_only cf g input p0 = Ok (Some (s, fs)).

Lemma posed_frames : g_scheme g = euler \/ g_scheme g = ab2 ->
  posed_run inv inv3 solve sc table h stale Ns Nd fm bb minf_only cf g input p0 ->
  exists pos fl out, pos 0%nat = p0 /\
    (forall m, (m < N)%nat ->
       (exists i R0, input (pos m) (INR m) = Ok (i, fl m) /\ pos_def n R0 /\ answers Ns Nd fm i R0 (out m)) /\
       moved_on inv3 Ns Nd g m (fl m) (out m) (sphere_speed g (fl (m - 1)%nat) (out (m - 1)%nat) (pos (m - 1)%nat))
         (sphere_spin (fl (m - 1)%nat) (out (m - 1)%nat)) (pos m) (pos (S m))) /\
    s = map (fun m => snap Ns (pos m)) (due_frames (g_save_pos g) (g_save_after g) N)
        ++ (if save_due (g_save_pos g) (g_save_after g) (N - 1) then [snap Ns (pos N)] else []) /\
    fs = map (fun m => forces_of (out m)) (due_frames (g_save_forces g) (g_save_after g) N).
Proof.
  intros Hsch (Hq & Hw & Hf & Hg & _).
  destruct (whole_run inv inv3 solve sc table h stale Ns Nd fm false bb minf_only cf g input p0 Hinv Hsolve HNs eq_refl Hstart Hsch Hq Hw Hf Hg
    s fs S1 S2 S3 S4 E) as (pos & fl & out & (P0 & PR) & P1 & P2 & P3).
  exists pos, fl, out. split; [exact P0|]. split; [|split; assumption].
  intros m Hm. destruct (P1 m Hm) as [(i & L & N0 & A1 & A2 & A3 & A4) M]. split; [|exact M].
  exists i, (fun a b => L a b + N0 a b). split; [exact A1|]. split; [|exact A4].
  refine (Hg m pos i (fl m) L N0 Hm _ A1 A2 A3). intros k Hk. apply PR. lia.
Qed.

Lemma posed_frames4 : g_scheme g = rk4 ->
  posed_run4 inv inv3 solve sc table h stale Ns Nd fm bb minf_only cf g input p0 ->
  exists pos q fl out, pos 0%nat = p0 /\
    (forall m, (m < N)%nat ->
       (forall k, (k < 4)%nat -> exists i R0, input (q m k) (stage_time m k) = Ok (i, fl m k) /\ pos_def n R0 /\ answers Ns Nd fm i R0 (out m k)) /\
       advanced inv3 Ns Nd g (fl m) (out m) (pos m) (pos (S m))) /\
    s = map (fun m => snap Ns (pos m)) (due_frames (g_save_pos g) (g_save_after g) N)
        ++ (if save_due (g_save_pos g) (g_save_after g) (N - 1) then [snap Ns (pos N)] else []) /\
    fs = map (fun m => mean_forces (out m)) (due_frames (g_save_forces g) (g_save_after g) N).
Proof.
  intros Hsch (Hq & Hp & _).
  destruct (whole_run_reached inv inv3 solve sc table h stale Ns Nd fm bb minf_only cf g input p0 Hinv Hsolve HNs Hstart Hsch Hq Hp
    s fs S1 S2 S3 S4 E) as (pos & q & L & fl & out & (P0 & PR) & P1 & P2 & P3).
  exists pos, q, fl, out. split; [exact P0|]. split; [|split; assumption].
  intros m Hm. destruct (P1 m Hm) as [ST M]. split; [|exact M].
  intros k Hk. destruct ST as (Q0 & Q1 & Q2). destruct (Q1 k Hk) as [SF (i & N0 & A1 & A2 & A3)].
  exists i, (fun a b => L m k a b + N0 a b). split; [exact A1|]. split; [|exact A3].
  refine (proj2 (proj2 (Hp m pos k (q m) (L m) (fl m) (out m) Hm Hk _ _ i (fl m k) A1)) (L m k) N0 SF A2).
  - intros a Ha. apply PR. lia.
  - split; [exact Q0|]. split; [intros a Ha; apply Q1; lia|intros a Ha Ha'; apply Q2; lia].
Qed.

Hypothesis Hbox : no_box_g g.

(** ** Work *)
Lemma work_done : g_scheme g = euler -> fm <> fts -> 0 < g_dt g -> g_fully_2d g = false ->
  g_save_pos g = 1%nat -> g_save_forces g = 1%nat -> g_save_after g = 0%nat ->
  (forall p t i f, input p t = Ok (i, f) -> forced_only i f) ->
  posed_run inv inv3 solve sc table h stale Ns Nd fm bb minf_only cf g input p0 ->
  forall m, (m < N)%nat -> exists f x x', nth_error fs m = Some f /\ nth_error s m = Some x /\ nth_error s (S m) = Some x' /\
    0 <= work Ns Nd f x x' /\ (work Ns Nd f x x' = 0 -> same_places Ns Nd x x' /\ no_forces Ns Nd f).
Proof.
  intros Hsch Hfm Hdt H2 G1 G2 G3 HI HP m Hm.
  destruct (posed_frames (or_introl Hsch) HP) as (pos & fl & out & P0 & P1 & P2 & P3).
  rewrite G1, G3, due_all in P2. rewrite G2, G3, due_all in P3.
  exists (forces_of (out m)), (snap Ns (pos m)), (snap Ns (pos (S m))).
  assert (NS : forall k, (k < N)%nat -> nth_error (seq 0 N) k = Some k).
  { intros k Hk. rewrite (nth_error_nth' _ 0%nat) by (rewrite seq_length; exact Hk). rewrite seq_nth by exact Hk. reflexivity. }
  split; [rewrite P3; apply (map_nth_error (fun k => forces_of (out k))); apply NS; exact Hm|].
  split; [rewrite P2, nth_error_app1 by (rewrite map_length, seq_length; exact Hm); apply (map_nth_error (fun k => snap Ns (pos k))); apply NS; exact Hm|].
  split.
  { rewrite P2. destruct (Nat.eq_dec (S m) N) as [<-|Hn].
    - rewrite nth_error_app2 by (rewrite map_length, seq_length; lia). rewrite map_length, seq_length, Nat.sub_diag.
      replace (save_due 1 0 (S m - 1)) with true; [reflexivity|]. unfold save_due. cbn [Nat.ltb Nat.leb Nat.eqb]. rewrite ?Nat.mod_1_r. reflexivity.
    - rewrite nth_error_app1 by (rewrite map_length, seq_length; lia). apply (map_nth_error (fun k => snap Ns (pos k))). apply NS. lia. }
  destruct (P1 m Hm) as [(i & R0 & A1 & A2 & A3) (_ & _ & M1 & M2)].
  pose proof (HI _ _ _ _ A1) as HF. pose proof (quiet_answers Ns Nd fm i _ R0 _ Hfm HF A3) as HQ.
  destruct (power_positive Ns Nd fm i R0 (out m) A2 Hfm A3 HQ) as [W1 W2].
  assert (SH : of_shape Ns Nd fm (out m)) by apply A3.
  destruct HF as (_ & _ & HU).
  assert (ZS : forall j x l, (j < Ns)%nat -> (l < 3)%nat -> linear_flow (f_U (fl m)) (f_O (fl m)) (matof (oEa (out m)) j) (f_centre (fl m)) x l = 0).
  { intros j x l Hj Hl. apply still_flow; [exact HU| |exact Hl]. intros a b Ha Hb. apply (quiet_matof Ns Nd fm); assumption. }
  assert (DS : forall j l, (j < Ns)%nat -> (l < 3)%nat -> c_spos (pos (S m)) j l - c_spos (pos m) j l = g_dt g * rowof (oUa (out m)) j l).
  { intros j l Hj Hl. destruct (M1 j Hj) as (x & L & X & _). rewrite (landed_at inv3 g Hbox _ _ _ L l Hl), (X l Hl), Hsch.
    unfold sphere_speed. rewrite H2. cbn [andb]. rewrite ZS by assumption. ring. }
  assert (DB : forall d l, (d < Nd)%nat -> (l < 3)%nat -> c_dpos (pos (S m)) d l - c_dpos (pos m) d l = g_dt g * rowof (oUb (out m)) d l /\
                c_ddx (pos (S m)) d l - c_ddx (pos m) d l = g_dt g * (2 * rowof (oHDb (out m)) d l)).
  { intros d l Hd Hl. destruct (M2 d Hd) as ((x & L & X) & S). rewrite (landed_at inv3 g Hbox _ _ _ L l Hl), (X l Hl), (S l Hl).
    unfold centre_speed, stretch_speed, bead_flow. rewrite !ZS by assumption. split; field. }
  assert (PS : forall q j, (j < Ns)%nat -> n_pos (snap Ns q) j = c_spos q j).
  { intros q j Hj. cbn [snap n_pos]. unfold append_rows. destruct (Nat.ltb_spec j Ns); [reflexivity|lia]. }
  assert (PB : forall q d, n_pos (snap Ns q) (Ns + d)%nat = c_dpos q d).
  { intros q d. cbn [snap n_pos]. unfold append_rows. destruct (Nat.ltb_spec (Ns + d) Ns); [lia|]. f_equal. lia. }
  assert (EW : work Ns Nd (forces_of (out m)) (snap Ns (pos m)) (snap Ns (pos (S m))) = g_dt g * force_power Ns Nd (out m)).
  { unfold work, force_power. rewrite Rmult_plus_distr_l. rewrite <- !rsum_scal_l. f_equal.
    - apply rsum_ext. intros j Hj. rewrite !PS by exact Hj. cbn [forces_of n_Fa]. unfold dot3, vsub. rewrite !DS by (assumption || lia). ring.
    - apply rsum_ext. intros d Hd. rewrite !PB. cbn [forces_of n_Fb n_DFb snap n_dx]. unfold dot3, vsub.
      destruct (DB d 0%nat Hd ltac:(lia)) as [-> ->], (DB d 1%nat Hd ltac:(lia)) as [-> ->], (DB d 2%nat Hd ltac:(lia)) as [-> ->]. field. }
  rewrite EW. split; [apply Rmult_le_pos; lra|].
  intros Z. destruct (W2 ltac:(apply Rmult_integral in Z; destruct Z; [lra|assumption])) as (R1 & R2 & R3).
  split; split.
  - intros j l Hj Hl. destruct (Nat.lt_ge_cases j Ns) as [Hs|Hs].
    + rewrite !PS by exact Hs. pose proof (DS j l Hs Hl) as D. rewrite (proj1 (R1 j l Hs Hl)) in D. lra.
    + replace j with (Ns + (j - Ns))%nat by lia. rewrite !PB. destruct (DB (j - Ns)%nat l ltac:(lia) Hl) as [D _].
      destruct (R3 (j - Ns)%nat l ltac:(lia) Hl) as [[Z0 _] _]. rewrite Z0 in D. lra.
  - intros d l Hd Hl. cbn [snap n_dx]. destruct (DB d l Hd Hl) as [_ D]. destruct (R3 d l Hd Hl) as [[_ Z0] _]. rewrite Z0 in D. lra.
  - intros j Hj. cbn [forces_of n_Fa n_Sa]. split; [intros l Hl; apply (R1 j l Hj Hl)|intros a b Ha Hb; apply R2; assumption].
  - intros d l Hd Hl. cbn [forces_of n_Fb n_DFb]. apply (R3 d l Hd Hl).
Qed.
End Frames.
