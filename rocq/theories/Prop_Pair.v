(** C88: two equal spheres pulled alike move along a straight line at a constant
    velocity and keep their separation. *)
From Coq Require Import Reals List Arith ZArith Bool Lia Lra.
From Verif Require Import Base Py Model_Mob Model_Layout Model_Minf Model_Grand Model_Close Model_R2B Model_MinfP Model_GrandP Model_Step
  Model_Output Model_Frame Model_Inputs Model_Sim Spec_Layout Spec_Minf Spec_Convert Spec_Output Spec_Pack Spec_Step Spec_Frame Spec_Posdef Spec_Run Spec_Run4 Spec_Turn Spec_Turn4
  Spec_Renumber Spec_Work Spec_Pair Proof_Frame Proof_Resume Proof_Posdef Proof_Posdef2 Proof_Run Proof_Run2 Spec_Runs Proof_Runs2 Proof_Runs3 Prop_Runs Prop_Run Prop_Run4 Prop_Turn Prop_Turn4
  Proof_Turn2 Proof_Turn3 Proof_Turn5 Proof_Renumber1 Prop_Renumber Proof_Work Proof_Work2 Proof_Work3 Proof_Pair Proof_Pair2.
From Verif Require Proof_Step Proof_Minf.
Import ListNotations.
Local Open Scope R_scope.

(** Any completed run without periodic box: two spheres of equal radius, both
    given the same force, any hydrodynamic interaction (far field, near field or
    drag), any scheme.  In frame [m] both are displaced by m dt U; their
    stresslets are opposite and the same in all frames. *)
Theorem C88_pair :
  forall inv inv3 solve sc table h stale fm bb minf_only cutoff_factor g input mu F p0 s fs,
    let N := g_num_frames g in
    0 < cutoff_factor -> inverts_posdef inv -> solves_posdef solve -> g_start g = 0%nat -> no_box_g g ->
    (0 < g_save_pos g)%nat -> (0 < g_save_forces g)%nat ->
    (g_save_after g mod g_save_pos g = 0)%nat -> (g_save_after g mod g_save_forces g = 0)%nat ->
    pulled_alike fm mu F input -> c_ssizes p0 0%nat = c_ssizes p0 1%nat ->
    (g_scheme g = euler \/ g_scheme g = ab2) /\ posed_run inv inv3 solve sc table h stale 2 0 fm bb minf_only cutoff_factor g input p0 \/
    g_scheme g = rk4 /\ posed_run4 inv inv3 solve sc table h stale 2 0 fm bb minf_only cutoff_factor g input p0 ->
    full_simulation inv inv3 solve sc table h stale 2 0 fm false bb minf_only cutoff_factor g input p0 = Ok (Some (s, fs)) ->
    exists (U : vec) (S : mat) (pos : nat -> snapshot) (frc : nat -> fsnapshot),
      (forall m, (m <= N)%nat -> carried p0 U (INR m * g_dt g) (pos m)) /\
      (forall m, (m < N)%nat -> opposite_stresslets S (frc m)) /\
      s = map pos (due_frames (g_save_pos g) (g_save_after g) N) ++ (if save_due (g_save_pos g) (g_save_after g) (N - 1) then [pos N] else []) /\
      fs = map frc (due_frames (g_save_forces g) (g_save_after g) N).
Proof.
  intros inv inv3 solve sc table h stale fm bb minf_only cf g input mu F p0 s fs N Hcf Hi Hs H0 Hb S1 S2 S3 S4 HI Hsz [[Hsch HP]|[Hsch HP]] E.
  - exact (straight_euler inv inv3 solve sc table h stale fm bb minf_only cf g input p0 mu F Hcf Hi Hs H0 Hb HI Hsz S1 S2 S3 S4 s fs E Hsch HP).
  - exact (straight_rk4 inv inv3 solve sc table h stale fm bb minf_only cf g input p0 mu F Hcf Hi Hs H0 Hb HI Hsz S1 S2 S3 S4 s fs E Hsch HP).
Qed.
Print Assumptions C88_pair.

(** Input 1, gravity, is of this kind, so two equal spheres falling under
    gravity keep their separation in every saved frame. *)
Theorem C88_falling :
  forall inv inv3 solve sc table h stale fm bb minf_only cutoff_factor g dt p0 s fs,
    let input := fun p t => input_ftsuoe 1 fm 2 0 p t dt in
    0 < cutoff_factor -> inverts_posdef inv -> solves_posdef solve -> fm = fte \/ fm = ufte -> g_start g = 0%nat -> no_box_g g ->
    (0 < g_save_pos g)%nat -> (0 < g_save_forces g)%nat ->
    (g_save_after g mod g_save_pos g = 0)%nat -> (g_save_after g mod g_save_forces g = 0)%nat ->
    c_ssizes p0 0%nat = c_ssizes p0 1%nat ->
    (g_scheme g = euler \/ g_scheme g = ab2) /\ posed_run inv inv3 solve sc table h stale 2 0 fm bb minf_only cutoff_factor g input p0 \/
    g_scheme g = rk4 /\ posed_run4 inv inv3 solve sc table h stale 2 0 fm bb minf_only cutoff_factor g input p0 ->
    full_simulation inv inv3 solve sc table h stale 2 0 fm false bb minf_only cutoff_factor g input p0 = Ok (Some (s, fs)) ->
    forall x, In x s -> forall l, (l < 3)%nat -> n_pos x 1%nat l - n_pos x 0%nat l = c_spos p0 1%nat l - c_spos p0 0%nat l.
Proof.
  intros inv inv3 solve sc table h stale fm bb minf_only cf g dt p0 s fs input Hcf Hi Hs Hfm H0 Hb S1 S2 S3 S4 Hsz HP E x Hx l Hl.
  destruct (C88_pair inv inv3 solve sc table h stale fm bb minf_only cf g input 1 [0; 0; - (1)] p0 s fs) as (U & S & pos & frc & A & _ & -> & _); try assumption.
  - intros p t i f EI. pose proof (gravity_forced 2 0 fm Hfm p t dt i f EI) as FO.
    pose proof (gravity_flow 2 0 fm p t dt i f EI) as EF. pose proof (gravity_inputs 2 0 fm p t dt i f EI) as IG.
    split; [exact FO|]. rewrite EF, IG. split; [intros k Hk; reflexivity|]. split; [reflexivity|]. split; [reflexivity|].
    destruct Hfm as [-> | ->]; [left; reflexivity|right; split; reflexivity].
  - apply saved_in in Hx. destruct Hx as (m & Hm & ->). rewrite !(A m Hm) by lia. ring.
Qed.
Print Assumptions C88_falling.

(** Without hydrodynamic interaction spheres of any sizes fall each on its own,
    at the speed 1 / a (forces in units of 6 pi times viscosity, C85). *)
Lemma drag_speed Ns fm i p mu o j l : (0 < mu) -> (forall j, (j < Ns)%nat -> 0 < c_ssizes p j) ->
  answers Ns 0 fm i (fun a b => drag_Minfinity_inverse (posdata_of Ns 0 p) mu a b + mzero a b) o -> (j < Ns)%nat -> (l < 3)%nat ->
  rowof (oUa o) j l = rowof (oFa o) j l / (mu * c_ssizes p j).
Proof.
  intros Hmu Ha ((_ & _ & L) & SH & _) Hj Hl. unfold of_shape in SH.
  destruct SH as (s1 & s2 & s3 & s4 & s5 & s6 & s7 & s8 & (s9 & _) & (s11 & _) & _).
  pose proof (grand_at Ns 0 (oUa o) (oOa o) (oEa o) (oUb o) (oHDb o) KU j l s5 s6 s11 s7 s8 Hj Hl) as GU.
  pose proof (grand_at Ns 0 (oFa o) (o_Ta o) (oSa o) (oFb o) (oDFb o) KU j l s1 s2 s9 s3 s4 Hj Hl) as GF.
  cbn [blk] in GU, GF. rewrite <- GU, <- GF. clear GU GF.
  assert (Hr : (kstart Ns KU j + l < 11 * Ns + 6 * 0)%nat) by (cbn [kstart]; lia).
  rewrite (L _ Hr). set (u := lvec (grand (oUa o) (oOa o) (oEa o) (oUb o) (oHDb o))). set (r := (kstart Ns KU j + l)%nat) in *.
  assert (E : mvec (11 * Ns + 6 * 0) (fun a b => drag_Minfinity_inverse (posdata_of Ns 0 p) mu a b + mzero a b) u r = mu * c_ssizes p j * u r).
  { unfold mvec. rewrite (rsum_single (11 * Ns + 6 * 0) r); [|exact Hr|].
    - unfold mzero. pose proof (drag_at Ns 0 (posdata_of Ns 0 p) KU j l KU j l mu eq_refl eq_refl Hj Hl Hj Hl) as D. fold r in D. rewrite D, Nat.eqb_refl.
      unfold Model_Minf.bead_sizes, posdata_of. cbn [num_spheres num_dumbbells sphere_sizes]. destruct (Nat.ltb_spec j Ns); [ring|lia].
    - intros c Hc Ne. unfold drag_Minfinity_inverse, mzero. cbv zeta. destruct (Nat.eqb_spec r c); [congruence|ring]. }
  unfold mvec in E. rewrite E. field. pose proof (Ha j Hj). split; lra.
Qed.

Theorem C88_alone :
  forall inv inv3 solve sc table h stale Ns fm bb cutoff_factor g dt p0 s fs,
    let N := g_num_frames g in
    let input := fun p t => input_ftsuoe 1 fm Ns 0 p t dt in
    inverts_posdef inv -> solves_posdef solve -> (0 < Ns)%nat -> fm = fte \/ fm = ufte -> g_use_drag g = true -> no_box_g g ->
    g_start g = 0%nat -> g_scheme g = euler \/ g_scheme g = ab2 ->
    (0 < g_save_pos g)%nat -> (0 < g_save_forces g)%nat ->
    (g_save_after g mod g_save_pos g = 0)%nat -> (g_save_after g mod g_save_forces g = 0)%nat -> g_explosion g = false ->
    (forall j, (j < Ns)%nat -> 0 < c_ssizes p0 j) ->
    full_simulation inv inv3 solve sc table h stale Ns 0 fm false bb true cutoff_factor g input p0 = Ok (Some (s, fs)) ->
    exists pos : nat -> snapshot,
      (forall m j l, (m <= N)%nat -> (j < Ns)%nat -> (l < 3)%nat ->
         n_pos (pos m) j l = c_spos p0 j l + INR m * g_dt g * (if Nat.eqb l 2 then - (1 / c_ssizes p0 j) else 0)) /\
      s = map pos (due_frames (g_save_pos g) (g_save_after g) N) ++ (if save_due (g_save_pos g) (g_save_after g) (N - 1) then [pos N] else []).
Proof.
  intros inv inv3 solve sc table h stale Ns fm bb cf g dt p0 s fs N input Hi Hs HN Hfm Hd Hb H0 Hsch S1 S2 S3 S4 HX HP E.
  assert (HW : forall p t i f, input p t = Ok (i, f) -> well_posed Ns 0 fm i /\ 0 < f_mu f).
  { intros p t i f EI. rewrite (gravity_flow Ns 0 fm p t dt i f EI). split; [|cbn; lra].
    destruct (given_inputs 1 fm Ns 0 p t dt ltac:(lia)) as (i' & f' & E' & C & _).
    - unfold workable. destruct (Nat.eqb_spec Ns 0); [lia|]. destruct Hfm as [-> | ->]; [left; discriminate|left; reflexivity].
    - unfold input in EI. rewrite EI in E'. injection E' as <- <-. unfold complete in C. unfold well_posed.
      rewrite (firstn_all2 (n := Ns) (i_Fa i)) in C by (rewrite (gravity_inputs Ns 0 fm p t dt i f EI); cbn [with_Fa i_Fa]; rewrite repeat_length; lia).
      destruct Hfm as [Ef|Ef]; rewrite Ef in *; tauto. }
  destruct (C65_drag inv inv3 solve sc table h stale Ns 0 fm bb cf g input p0 s fs Hi Hs HN Hd H0 Hsch S1 S2 S3 S4) as (pos & fl & out & P0 & P1 & P2 & _);
    try assumption.
  { intros m st _ Hst. refine (no_flag _ _ _ _ _ g (fresh p0) _ eq_refl _ _ Hst). left. exact HX. }
  { intros i Hi'. lia. }
  assert (SZ : forall m, (m <= g_num_frames g)%nat -> c_ssizes (pos m) = c_ssizes p0).
  { induction m as [|m IH]; intros Hm; [rewrite P0; reflexivity|]. destruct (P1 m Hm) as [_ (Z & _)]. rewrite Z. apply IH. lia. }
  assert (SP : forall m j l, (m < g_num_frames g)%nat -> (j < Ns)%nat -> (l < 3)%nat ->
     sphere_speed g (fl m) (out m) (pos m) j l = if Nat.eqb l 2 then - (1 / c_ssizes p0 j) else 0).
  { intros m j l Hm Hj Hl. destruct (P1 m Hm) as [(i & L & N0 & EI & HL & HNF & HA) _].
    unfold near_field in HNF. subst N0. unfold far_resistance in HL. rewrite Hd in HL. destruct HL as (i' & f' & EI' & _ & ->).
    rewrite EI in EI'. injection EI' as <- <-. pose proof (gravity_flow Ns 0 fm (pos m) (INR m) dt i (fl m) EI) as EF.
    assert (PS : forall k, (k < Ns)%nat -> 0 < c_ssizes (pos m) k) by (intros k Hk; rewrite SZ by lia; apply HP, Hk).
    pose proof (drag_speed Ns fm i (pos m) (f_mu (fl m)) (out m) j l ltac:(rewrite EF; cbn; lra) PS HA Hj Hl) as SPD.
    destruct (gravity_kept Ns 0 fm HN Hfm (pos m) (INR m) dt i (fl m) EI _ (out m) HA) as [K _].
    pose proof (gravity_forced Ns 0 fm Hfm (pos m) (INR m) dt i (fl m) EI) as FO.
    assert (F : fm <> fts) by (destruct Hfm as [-> | ->]; discriminate).
    pose proof (quiet_answers Ns 0 fm i (fl m) _ (out m) F FO HA) as Q.
    unfold sphere_speed. destruct (g_fully_2d g && Nat.eqb l 1)%bool eqn:E2.
    - apply andb_true_iff in E2. destruct E2 as [_ E2]. apply Nat.eqb_eq in E2. subst l. reflexivity.
    - rewrite still_flow; [|apply FO| |exact Hl].
      + rewrite SPD, EF, (SZ m) by lia. cbn [default_flow f_mu]. unfold rowof. rewrite (K j Hj). pose proof (HP j Hj). idx3 Hl; cbn [nth Nat.eqb]; field; lra.
      + intros a b Ha Hb'. apply (quiet_matof Ns 0 fm); try assumption. apply HA. }
  assert (PM : forall m, (m <= g_num_frames g)%nat -> forall j l, (j < Ns)%nat -> (l < 3)%nat ->
     c_spos (pos m) j l = c_spos p0 j l + INR m * g_dt g * (if Nat.eqb l 2 then - (1 / c_ssizes p0 j) else 0)).
  { induction m as [|m IH]; intros Hm j l Hj Hl; [rewrite P0; cbn [INR]; ring|].
    destruct (P1 m Hm) as [_ (_ & _ & M1 & _)]. destruct (M1 j Hj) as (y & L & X & _).
    rewrite (landed_at inv3 g Hb _ _ _ L l Hl), (X l Hl), (IH ltac:(lia) j l Hj Hl), S_INR.
    rewrite SP by (assumption || lia).
    destruct (match g_scheme g with euler => true | _ => Nat.eqb m 0 end); [ring|]. rewrite SP by (assumption || lia). field. }
  exists (fun m => snap Ns (pos m)). split; [|exact P2].
  intros m j l Hm Hj Hl. rewrite <- (PM m Hm j l Hj Hl). cbn [snap n_pos]. unfold append_rows. destruct (Nat.ltb_spec j Ns); [reflexivity|lia].
Qed.
Print Assumptions C88_alone.

(** Instances.  Two equal spheres one above the other, any number of frames,
    any of the schemes, with the drag matrix; two equal spheres with the far and
    the near field. *)
Definition stacked (a b : R) : config :=
  mkConfig (fun j => if Nat.eqb j 0 then a else b) (fun j => v3 0 0 (5 * INR j)) (fun j k => v3 1 0 (5 * INR j)) (fun _ => 1) (fun _ => v3 0 0 0) (fun _ => v3 0 0 0).
Example C88_drag_example sc dt num_frames : (0 < num_frames)%nat ->
  exists s fs, full_simulation pinv Proof_Step.inv3 psolve sc [] 0 (fun _ _ => 0) 2 0 fte false true true 2
      (drag_settings dt num_frames) (falling 2 dt) (stacked 1 1) = Ok (Some (s, fs)) /\ length s = S num_frames /\
    forall x, In x s -> n_pos x 1%nat 2%nat - n_pos x 0%nat 2%nat = 5.
Proof.
  intros HF. destruct (falling_runs sc 2 (stacked 1 1) dt num_frames ltac:(lia) HF) as (s & fs & E & L1 & _). exists s, fs. split; [exact E|]. split; [exact L1|].
  intros x Hx. rewrite (C88_falling pinv Proof_Step.inv3 psolve sc [] 0 (fun _ _ => 0) fte true true 2 (drag_settings dt num_frames) dt (stacked 1 1) s fs); try assumption;
    try reflexivity; try (cbn; lia); try lra.
  - cbn [stacked c_spos]. unfold v3. cbn [INR]. ring.
  - exact pinv_ok.
  - exact psolve_ok.
  - left. reflexivity.
  - intros l Hl. reflexivity.
  - left. split; [left; reflexivity|]. apply drag_posed; try reflexivity; try lia.
    + left. reflexivity.
    + intros i Hi. cbn. destruct (Nat.eqb i 0); lra.
    + intros p t i f. apply falling_posed. lia.
Qed.
Example C88_rk4_example sc dt num_frames : (0 < num_frames)%nat ->
  exists s fs, full_simulation pinv Proof_Step.inv3 psolve sc [] 0 (fun _ _ => 0) 2 0 fte false true true 2
      (rk4_settings dt num_frames) (falling 2 dt) (stacked 1 1) = Ok (Some (s, fs)) /\ length s = S num_frames /\
    forall x, In x s -> n_pos x 1%nat 2%nat - n_pos x 0%nat 2%nat = 5.
Proof.
  intros HF. destruct (falling_runs4 sc 2 (stacked 1 1) dt num_frames ltac:(lia) HF) as (s & fs & E & L1 & _). exists s, fs. split; [exact E|]. split; [exact L1|].
  intros x Hx. rewrite (C88_falling pinv Proof_Step.inv3 psolve sc [] 0 (fun _ _ => 0) fte true true 2 (rk4_settings dt num_frames) dt (stacked 1 1) s fs); try assumption;
    try reflexivity; try (cbn; lia); try lra.
  - cbn [stacked c_spos]. unfold v3. cbn [INR]. ring.
  - exact pinv_ok.
  - exact psolve_ok.
  - left. reflexivity.
  - intros l Hl. reflexivity.
  - right. split; [reflexivity|]. apply drag_posed4; try reflexivity; try lia.
    + intros i Hi. cbn. destruct (Nat.eqb i 0); lra.
    + intros p t i f. apply falling_posed. lia.
Qed.
Example C88_wide_example sc dt :
  exists a fs, full_simulation pinv Proof_Step.inv3 psolve sc [1] 0 (fun _ _ => 0) 2 0 fte false true false 2 (full_settings dt) (falling 2 dt) (wide_row 2) = Ok (Some (a, fs)) /\
    forall x, In x a -> n_pos x 1%nat 0%nat - n_pos x 0%nat 0%nat = 12000.
Proof.
  destruct (wide_row_run sc 2 dt (wide_row 2) ltac:(lia) ltac:(reflexivity)) as (a & fs & E). exists a, fs. split; [exact E|].
  destruct (wide_row_posed sc 2 (fun j => j) dt (id_permutes 2) ltac:(lia)) as [P _]. change (relisted (fun j => j) (fun d => d) (wide_row 2)) with (wide_row 2) in P.
  intros x Hx. rewrite (C88_falling pinv Proof_Step.inv3 psolve sc [1] 0 (fun _ _ => 0) fte true false 2 (full_settings dt) dt (wide_row 2) a fs); try assumption;
    try reflexivity; try (cbn; lia); try lra.
  - cbn [wide_row c_spos]. unfold v3. cbn [INR]. ring.
  - exact pinv_ok.
  - exact psolve_ok.
  - left. reflexivity.
  - intros l Hl. reflexivity.
  - left. split; [left; reflexivity|exact P].
Qed.
(** Spheres of radii 1 and 2 with the drag matrix do not keep their separation:
    it grows by 1/2 per unit of time. *)
Example C88_unequal_example sc dt : dt <> 0 ->
  exists s fs, full_simulation pinv Proof_Step.inv3 psolve sc [] 0 (fun _ _ => 0) 2 0 fte false true true 2
      (drag_settings dt 1) (falling 2 dt) (stacked 1 2) = Ok (Some (s, fs)) /\
    exists x, In x s /\ n_pos x 1%nat 2%nat - n_pos x 0%nat 2%nat <> 5.
Proof.
  intros Hdt. destruct (falling_runs sc 2 (stacked 1 2) dt 1 ltac:(lia) ltac:(lia)) as (s & fs & E & _). exists s, fs. split; [exact E|].
  destruct (C88_alone pinv Proof_Step.inv3 psolve sc [] 0 (fun _ _ => 0) 2 fte true 2 (drag_settings dt 1) dt (stacked 1 2) s fs) as (pos & P & ->); try assumption;
    try reflexivity; try (cbn; lia).
  - exact pinv_ok.
  - exact psolve_ok.
  - left. reflexivity.
  - intros l Hl. reflexivity.
  - left. reflexivity.
  - intros j Hj. cbn. destruct (Nat.eqb j 0); lra.
  - exists (pos 1%nat). split; [cbn; auto|]. rewrite !(P 1%nat) by (cbn; lia). cbn. intros C. apply Hdt. lra.
Qed.
