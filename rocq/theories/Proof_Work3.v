(** Suspensions falling under gravity sink. *)
From Coq Require Import Reals List Arith ZArith Bool Lia Lra Sorted.
From Verif Require Import Base Py Model_Mob Model_Minf Model_Grand Model_Close Model_R2B Model_MinfP Model_GrandP Model_Step
  Model_Output Model_Frame Model_Inputs Model_Sim Spec_Pack Spec_Convert Spec_Output Spec_Minf Spec_Step Spec_Frame Spec_Posdef Spec_Run Spec_Run4
  Spec_Turn Spec_Turn4 Spec_Work Proof_Posdef Proof_Run Proof_Run2 Proof_Run4 Proof_Resume Proof_Turn2 Proof_Turn3 Proof_Turn5 Proof_Work Proof_Work2.
Import ListNotations.
Local Open Scope R_scope.

(** ** Order of the saved frames *)
Lemma sorted_seq d : forall k a, StronglySorted lt (filter d (seq a k)).
Proof.
  induction k as [|k IH]; intros a; cbn [seq filter]; [constructor|]. destruct (d a); [|apply IH]. constructor; [apply IH|].
  apply Forall_forall. intros x Hx. apply filter_In in Hx. destruct Hx as [Hx _]. apply in_seq in Hx. lia.
Qed.
Lemma sorted_snoc (l : list nat) N : StronglySorted lt l -> (forall x, In x l -> (x < N)%nat) -> StronglySorted lt (l ++ [N]).
Proof.
  induction 1 as [|x l HS IH HF]; intros B; cbn [app].
  - constructor; constructor.
  - constructor; [apply IH; intros y Hy; apply B; right; exact Hy|]. apply Forall_app. split; [exact HF|]. constructor; [|constructor].
    apply B. left. reflexivity.
Qed.
Lemma sorted_map {A} (P : A -> A -> Prop) (f : nat -> A) l : StronglySorted lt l ->
  (forall a b, In a l -> In b l -> (a < b)%nat -> P (f a) (f b)) -> StronglySorted P (map f l).
Proof.
  induction 1 as [|x l HS IH HF]; intros B; cbn [map]; [constructor|]. constructor.
  - apply IH. intros a b Ha Hb. apply B; right; assumption.
  - apply Forall_map. apply Forall_forall. intros y Hy. apply B; [left; reflexivity|right; exact Hy|].
    rewrite Forall_forall in HF. apply HF. exact Hy.
Qed.
Lemma saved_sorted {A} (P : A -> A -> Prop) (f : nat -> A) e a N (b : bool) :
  (forall x y, (x < y <= N)%nat -> P (f x) (f y)) ->
  StronglySorted P (map f (due_frames e a N) ++ (if b then [f N] else [])).
Proof.
  intros H.
  assert (D : forall x, In x (due_frames e a N) -> (x < N)%nat).
  { intros x Hx. apply filter_In in Hx. destruct Hx as [Hx _]. apply in_seq in Hx. lia. }
  replace (map f (due_frames e a N) ++ (if b then [f N] else [])) with (map f (due_frames e a N ++ (if b then [N] else []))).
  2:{ rewrite map_app. destruct b; reflexivity. }
  apply sorted_map.
  - destruct b; [apply sorted_snoc; [apply sorted_seq|exact D]|rewrite app_nil_r; apply sorted_seq].
  - intros x y Hx Hy L. apply H. split; [exact L|]. apply in_app_or in Hy. destruct Hy as [Hy|Hy]; [pose proof (D y Hy); lia|].
    destruct b; [destruct Hy as [<-|[]]; lia|destruct Hy].
Qed.
Lemma saved_in {A} (f : nat -> A) e a N (b : bool) x :
  In x (map f (due_frames e a N) ++ (if b then [f N] else [])) -> exists m, (m <= N)%nat /\ x = f m.
Proof.
  intros H. apply in_app_or in H. destruct H as [H|H].
  - apply in_map_iff in H. destruct H as (m & <- & Hm). apply filter_In in Hm. destruct Hm as [Hm _]. apply in_seq in Hm. exists m. split; [lia|reflexivity].
  - destruct b; [|destruct H]. destruct H as [<-|[]]. exists N. split; [lia|reflexivity].
Qed.

(** ** Gravity *)
Section Gravity.
Variables Ns Nd : nat.
Variable fm : form.
Hypothesis HNs : (0 < Ns)%nat.
Hypothesis Hfm : fm = fte \/ fm = ufte.
Variables (p : config) (tm dt : R) (i : inputs) (f : flow).
Hypothesis HI : input_ftsuoe 1 fm Ns Nd p tm dt = Ok (i, f).

Lemma gravity_flow : f = default_flow.
Proof. unfold input_ftsuoe in HI. cbn [Z.ltb Z.compare] in HI. injection HI as _ <-. reflexivity. Qed.
Lemma gravity_inputs : i = with_Fa (default_inputs fm Ns Nd) (repeat (Some [0; 0; - (1)]) Ns).
Proof. unfold input_ftsuoe in HI. cbn [Z.ltb Z.compare] in HI. injection HI as <- _. reflexivity. Qed.
Lemma gravity_forced : forced_only i f.
Proof.
  rewrite gravity_flow, gravity_inputs. split; [|split].
  - intros r Hr. destruct Hfm as [-> | ->]; cbn [with_Fa i_Ta default_inputs] in Hr; exact (in_repeat_some _ _ _ Hr).
  - intros m Hm. destruct Hfm as [-> | ->]; cbn [with_Fa i_Ea default_inputs] in Hm; exact (in_repeat_some _ _ _ Hm).
  - intros l Hl. cbn [default_flow f_U f_O]. idx3 Hl; split; reflexivity.
Qed.

Variables (R0 : mat) (o : outputs).
Hypothesis Hp : pos_def (11 * Ns + 6 * Nd) R0.
Hypothesis HA : answers Ns Nd fm i R0 o.

Lemma gravity_kept : (forall j, (j < Ns)%nat -> nth j (oFa o) [] = [0; 0; - (1)]) /\
  (forall d, (d < Nd)%nat -> nth d (oFb o) [] = zeros3 /\ nth d (oDFb o) [] = zeros3).
Proof using HNs Hfm HI HA.
  clear Hp.
  destruct HA as (_ & ((L1 & _) & _ & (L3 & _) & (L4 & _) & (L5 & _) & _) & _ & M).
  assert (K : keeps 0 Ns (i_Fa i) (oFa o) /\ keeps 0 Nd (i_Fb i) (oFb o) /\ keeps 0 Nd (i_DFb i) (oDFb o)).
  { destruct Hfm as [F|F]; rewrite F in M.
    - tauto.
    - destruct M as ((nfix & M1 & M2 & M3) & _ & M4 & M5). split; [|split; assumption].
      destruct nfix as [|nfix]; [exact M3|]. exfalso.
      pose proof (M2 0%nat ltac:(lia)) as C. rewrite gravity_inputs, F in C. cbn [with_Fa i_Ua default_inputs empty_vectors] in C.
      destruct Ns as [|ns]; [lia|]. cbn [repeat nth_error] in C. destruct (oUa o) as [|x l]; [cbn in L5; lia|]. discriminate C. }
  destruct K as (K1 & K2 & K3). split.
  - intros j Hj. pose proof (kept_in (i_Fa i) 0 Ns (oFa o) [] j K1 ltac:(lia) ltac:(lia)) as H. rewrite gravity_inputs in H.
    cbn [with_Fa i_Fa] in H. exact (in_repeat_some _ _ _ H).
  - intros d Hd. pose proof (kept_in (i_Fb i) 0 Nd (oFb o) [] d K2 ltac:(lia) ltac:(lia)) as H.
    pose proof (kept_in (i_DFb i) 0 Nd (oDFb o) [] d K3 ltac:(lia) ltac:(lia)) as H'. rewrite gravity_inputs in H, H'.
    destruct Hfm as [F|F]; rewrite F in H, H'; cbn [with_Fa i_Fb i_DFb default_inputs] in H, H';
      split; [exact (in_repeat_some _ _ _ H)|exact (in_repeat_some _ _ _ H')|exact (in_repeat_some _ _ _ H)|exact (in_repeat_some _ _ _ H')].
Qed.

Lemma gravity_sinks : quiet o /\ rsum Ns (fun j => rowof (oUa o) j 2%nat) < 0.
Proof.
  assert (F : fm <> fts) by (destruct Hfm as [-> | ->]; discriminate).
  pose proof (quiet_answers Ns Nd fm i f R0 o F gravity_forced HA) as Q. split; [exact Q|].
  destruct (power_positive Ns Nd fm i R0 o Hp F HA Q) as [P1 P2]. destruct gravity_kept as [K1 K2].
  assert (EP : force_power Ns Nd o = - rsum Ns (fun j => rowof (oUa o) j 2%nat)).
  { unfold force_power. rewrite <- rsum_opp. rewrite (rsum_zero Nd).
    - rewrite Rplus_0_r. apply rsum_ext. intros j Hj. unfold dot3, rowof. rewrite (K1 j Hj). cbn [nth]. ring.
    - intros d Hd. destruct (K2 d Hd) as [A B]. unfold dot3, rowof. rewrite A, B. unfold zeros3. cbn [nth]. ring. }
  destruct (Req_dec (force_power Ns Nd o) 0) as [Z|Z]; [|lra].
  destruct (P2 Z) as (C & _). destruct (C 0%nat 2%nat HNs ltac:(lia)) as [_ C']. unfold rowof in C'. rewrite (K1 0%nat HNs) in C'. cbn [nth] in C'. lra.
Qed.
End Gravity.

Section Sink.
Variable inv : nat -> mat -> mat.
Variable inv3 : mat -> mat.
Variable solve : nat -> mat -> list R -> list R.
Variable sc : nat -> nat -> R -> nat -> R.
Variable table : list R.
Variable h : nat.
Variable stale : nat -> nat -> R.
Variables Ns Nd : nat.
Variable fm : form.
Variables bb minf_only : bool.
Variable cf : R.
Variable g : settings.
Variable dt : R.
Variable p0 : config.
Notation input := (fun p t => input_ftsuoe 1 fm Ns Nd p t dt).
Notation N := (g_num_frames g).
Hypothesis Hinv : inverts_posdef inv.
Hypothesis Hsolve : solves_posdef solve.
Hypothesis HNs : (0 < Ns)%nat.
Hypothesis Hfm : fm = fte \/ fm = ufte.
Hypothesis Hstart : g_start g = 0%nat.
Hypothesis Hbox : no_box_g g.
Hypothesis Hdt : 0 < g_dt g.
Hypothesis S1 : (0 < g_save_pos g)%nat.
Hypothesis S2 : (0 < g_save_forces g)%nat.
Hypothesis S3 : (g_save_after g mod g_save_pos g = 0)%nat.
Hypothesis S4 : (g_save_after g mod g_save_forces g = 0)%nat.
Variables (s : list snapshot) (fs : list fsnapshot).
Hypothesis E : full_simulation inv inv3 solve sc table h stale Ns Nd fm false bb minf_only cf g input p0 = Ok (Some (s, fs)).

Lemma heights_snap p : heights Ns (snap Ns p) = rsum Ns (fun j => c_spos p j 2%nat).
Proof.
  apply rsum_ext. intros j Hj. cbn [snap n_pos]. unfold append_rows. destruct (Nat.ltb_spec j Ns); [reflexivity|lia].
Qed.
Lemma decreasing (H : nat -> R) : (forall m, (m < N)%nat -> H (S m) < H m) -> forall a b, (a < b <= N)%nat -> H b < H a.
Proof.
  intros HS a b. induction b as [|b IH]; intros Hb; [lia|]. pose proof (HS b ltac:(lia)) as D.
  destruct (Nat.eq_dec a b) as [->|]; [exact D|]. pose proof (IH ltac:(lia)). lra.
Qed.

(** Speeds of the spheres in a frame with no flow. *)
Lemma speeds p tm i f R0 o j q : input p tm = Ok (i, f) -> answers Ns Nd fm i R0 o -> quiet o -> (j < Ns)%nat ->
  rowof (oUa o) j 2%nat + linear_flow (f_U f) (f_O f) (matof (oEa o) j) (f_centre f) (c_spos q j) 2%nat = rowof (oUa o) j 2%nat.
Proof.
  intros EI HA HQ Hj. pose proof (gravity_forced Ns Nd fm Hfm p tm dt i f EI) as (_ & _ & HU).
  rewrite still_flow; [ring|exact HU| |lia]. intros a b Ha Hb. apply (quiet_matof Ns Nd fm); try assumption. apply HA.
Qed.

Lemma sinks_euler : g_scheme g = euler \/ g_scheme g = ab2 ->
  posed_run inv inv3 solve sc table h stale Ns Nd fm bb minf_only cf g input p0 ->
  (g_scheme g = euler -> StronglySorted (fun x y => heights Ns y < heights Ns x) s) /\
  (forall x, In x s -> heights Ns x < heights Ns (snap Ns p0) \/ x = snap Ns p0).
Proof.
  intros Hsch HP.
  destruct (posed_frames inv inv3 solve sc table h stale Ns Nd fm bb minf_only cf g input p0 Hinv Hsolve HNs Hstart S1 S2 S3 S4 s fs E Hsch HP)
    as (pos & fl & out & P0 & P1 & P2 & _).
  set (V := fun m => rsum Ns (fun j => rowof (oUa (out m)) j 2%nat)).
  set (H := fun m => rsum Ns (fun j => c_spos (pos m) j 2%nat)).
  assert (VN : forall m, (m < N)%nat -> V m < 0).
  { intros m Hm. destruct (P1 m Hm) as [(i & R0 & A1 & A2 & A3) _].
    apply (gravity_sinks Ns Nd fm HNs Hfm (pos m) (INR m) dt i (fl m) A1 R0 (out m) A2 A3). }
  assert (SP : forall m j, (m < N)%nat -> (j < Ns)%nat -> sphere_speed g (fl m) (out m) (pos m) j 2%nat = rowof (oUa (out m)) j 2%nat).
  { intros m j Hm Hj. destruct (P1 m Hm) as [(i & R0 & A1 & A2 & A3) _].
    pose proof (gravity_sinks Ns Nd fm HNs Hfm (pos m) (INR m) dt i (fl m) A1 R0 (out m) A2 A3) as [Q _].
    unfold sphere_speed. cbn [Nat.eqb]. rewrite andb_false_r. exact (speeds (pos m) (INR m) i (fl m) R0 (out m) j (pos m) A1 A3 Q Hj). }
  assert (ST : forall m, (m < N)%nat -> H (S m) = H m + g_dt g *
     (if (match g_scheme g with euler => true | _ => Nat.eqb m 0 end) then V m else 3 / 2 * V m - 1 / 2 * V (m - 1)%nat)).
  { intros m Hm. destruct (P1 m Hm) as [_ (_ & _ & M1 & _)]. cbv zeta in M1.
    destruct (match g_scheme g with euler => true | _ => Nat.eqb m 0 end); unfold H, V.
    - rewrite <- rsum_scal_l, <- rsum_plus. apply rsum_ext. intros j Hj. destruct (M1 j Hj) as (x & L & X & _).
      rewrite (landed_at inv3 g Hbox _ _ _ L 2%nat ltac:(lia)), (X 2%nat ltac:(lia)), SP by assumption. reflexivity.
    - rewrite <- !rsum_scal_l, <- rsum_minus, <- rsum_scal_l, <- rsum_plus. apply rsum_ext. intros j Hj. destruct (M1 j Hj) as (x & L & X & _).
      rewrite (landed_at inv3 g Hbox _ _ _ L 2%nat ltac:(lia)), (X 2%nat ltac:(lia)), !SP by (assumption || lia). reflexivity. }
  split.
  - intros He. rewrite P2. apply (saved_sorted (fun x y => heights Ns y < heights Ns x) (fun m => snap Ns (pos m))).
    intros a b Hab. rewrite !heights_snap. apply (decreasing H); [|exact Hab].
    intros m Hm. rewrite (ST m Hm), He. pose proof (Rmult_lt_0_compat _ (- V m) Hdt ltac:(pose proof (VN m Hm); lra)). lra.
  - intros x Hx. rewrite P2 in Hx. apply (saved_in (fun m => snap Ns (pos m))) in Hx. destruct Hx as (m & Hm & ->). rewrite <- P0.
    destruct m as [|m]; [right; reflexivity|left]. rewrite !heights_snap. change (H (S m) < H 0%nat).
    assert (IB : forall m, (m < N)%nat -> H (S m) <= H 0%nat + g_dt g * (1 / 2 * V m)).
    { clear m Hm. induction m as [|m IH]; intros Hm; rewrite (ST _ Hm).
      - replace (match g_scheme g with euler => true | _ => Nat.eqb 0 0 end) with true by (destruct (g_scheme g); reflexivity).
        pose proof (Rmult_lt_0_compat _ (- V 0%nat) Hdt ltac:(pose proof (VN 0%nat Hm); lra)). lra.
      - specialize (IH ltac:(lia)). replace (S m - 1)%nat with m by lia.
        pose proof (Rmult_lt_0_compat _ (- V (S m)) Hdt ltac:(pose proof (VN _ Hm); lra)).
        pose proof (Rmult_lt_0_compat _ (- V m) Hdt ltac:(pose proof (VN m ltac:(lia)); lra)).
        destruct (match g_scheme g with euler => true | _ => Nat.eqb (S m) 0 end); lra. }
    pose proof (IB m ltac:(lia)). pose proof (Rmult_lt_0_compat _ (- V m) Hdt ltac:(pose proof (VN m ltac:(lia)); lra)). lra.
Qed.

Lemma sinks_rk4 : g_scheme g = rk4 ->
  posed_run4 inv inv3 solve sc table h stale Ns Nd fm bb minf_only cf g input p0 ->
  StronglySorted (fun x y => heights Ns y < heights Ns x) s.
Proof.
  intros Hsch HP.
  destruct (posed_frames4 inv inv3 solve sc table h stale Ns Nd fm bb minf_only cf g input p0 Hinv Hsolve HNs Hstart S1 S2 S3 S4 s fs E Hsch HP)
    as (pos & q & fl & out & P0 & P1 & P2 & _).
  set (V := fun m k => rsum Ns (fun j => rowof (oUa (out m k)) j 2%nat)).
  set (H := fun m => rsum Ns (fun j => c_spos (pos m) j 2%nat)).
  rewrite P2. apply (saved_sorted (fun x y => heights Ns y < heights Ns x) (fun m => snap Ns (pos m))).
  intros a b Hab. rewrite !heights_snap. apply (decreasing H); [|exact Hab]. clear a b Hab.
  intros m Hm. destruct (P1 m Hm) as [A (_ & _ & M1 & _)]. cbv zeta in M1.
  assert (VN : forall k, (k < 4)%nat -> V m k < 0).
  { intros k Hk. destruct (A k Hk) as (i & R0 & A1 & A2 & A3).
    apply (gravity_sinks Ns Nd fm HNs Hfm (q m k) (stage_time m k) dt i (fl m k) A1 R0 (out m k) A2 A3). }
  assert (SP : forall k j, (k < 4)%nat -> (j < Ns)%nat -> stage_speed (fl m k) (out m k) (pos m) j 2%nat = rowof (oUa (out m k)) j 2%nat).
  { intros k j Hk Hj. destruct (A k Hk) as (i & R0 & A1 & A2 & A3).
    pose proof (gravity_sinks Ns Nd fm HNs Hfm (q m k) (stage_time m k) dt i (fl m k) A1 R0 (out m k) A2 A3) as [Q _].
    exact (speeds (q m k) (stage_time m k) i (fl m k) R0 (out m k) j (pos m) A1 A3 Q Hj). }
  assert (ST : H (S m) = H m + g_dt g * mean4 (V m)).
  { unfold H, V, mean4. rewrite <- !rsum_scal_l, <- !rsum_plus, <- !rsum_scal_l, <- rsum_plus. apply rsum_ext. intros j Hj.
    destruct (M1 j Hj) as (x & L & X & _). rewrite (landed_at inv3 g Hbox _ _ _ L 2%nat ltac:(lia)), (X 2%nat ltac:(lia)).
    cbn [Nat.eqb]. rewrite andb_false_r. unfold mean4. rewrite !SP by (assumption || lia). reflexivity. }
  rewrite ST. pose proof (VN 0%nat ltac:(lia)). pose proof (VN 1%nat ltac:(lia)). pose proof (VN 2%nat ltac:(lia)). pose proof (VN 3%nat ltac:(lia)).
  assert (MN : mean4 (V m) < 0) by (unfold mean4; lra).
  pose proof (Rmult_lt_0_compat _ (- mean4 (V m)) Hdt ltac:(lra)). lra.
Qed.
End Sink.
