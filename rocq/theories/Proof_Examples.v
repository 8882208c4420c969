(** Proofs about the example scripts. *)
From Coq Require Import Reals List Arith ZArith Bool Lia Lra FunctionalExtensionality.
From Verif Require Import Base Py Model_Mob Model_Minf Model_Grand Model_Close Model_R2B Model_MinfP Model_GrandP Model_Step
  Model_Output Model_Frame Model_Inputs Model_Sim Model_Setups Model_Video Spec_Pack Spec_Convert Spec_Output Spec_Step Spec_Frame Spec_Posdef
  Spec_Run Spec_Close Spec_Layout Spec_Minf Model_Examples Spec_Examples Proof_Frame Proof_Periodic Prop_Step Prop_Minf Prop_R2B Prop_Run.
Import ListNotations.
Local Open Scope R_scope.

Section First.
Variable inv3 : mat -> mat.
Variable sc : nat -> nat -> R -> nat -> R.
Variable table : list R.
Variable h : nat.
Variable stale : nat -> nat -> R.
Variable Ns : nat.
Variables bb minf_only : bool.
Variable cutoff_factor : R.
Variable g : settings.
Variable input : config -> R -> res (inputs * flow).
Variable p0 : config.
Variables (s : list snapshot) (fs : list fsnapshot).
Variables (i0 : inputs) (f0 : flow).
Hypothesis Hc : correct_output inv3 sc table h stale Ns 0 fte bb minf_only cutoff_factor g input p0 s fs.
Hypothesis Hi : input p0 0 = Ok (i0, f0).
Hypothesis HF : i_Fa i0 = repeat (Some [0; 0; - (1)]) Ns.
Hypothesis HE : i_Ea i0 = repeat (Some zeros33) Ns.
Hypothesis S1 : g_save_pos g = 1%nat.
Hypothesis S3 : g_save_after g = 0%nat.
Hypothesis HN : (0 < g_num_frames g)%nat.

Lemma nth_repeat_some (A : Type) (x : A) n j : (j < n)%nat -> nth_error (repeat x n) j = Some x.
Proof. revert j. induction n as [|n IH]; intros [|j] Hj; cbn; try lia; [reflexivity|]. apply IH. lia. Qed.

Lemma row0_of_keeps {A} lo n (x : A) l j : keeps lo n (repeat (Some x) n) l -> (lo <= j < n)%nat -> nth_error l j = Some x.
Proof. intros K Hj. specialize (K j Hj). rewrite nth_repeat_some in K by lia. injection K as K. symmetry. exact K. Qed.

(** The first frame of a run under gravity. *)
Lemma first_frame : exists pos o V W,
  solved inv3 sc table h stale Ns 0 fte bb minf_only cutoff_factor g input (fun _ => p0) 0 f0 o /\
  (exists rest, s = snap Ns p0 :: snap Ns (pos 1%nat) :: rest) /\
  (g_save_forces g = 1%nat -> exists rest, fs = forces_of o :: rest) /\
  (forall j, (j < Ns)%nat -> rowof (Model_Output.o_Fa o) j 0%nat = 0 /\ rowof (Model_Output.o_Fa o) j 1%nat = 0 /\ rowof (Model_Output.o_Fa o) j 2%nat = - (1)) /\
  (forall j, (j < Ns)%nat -> matof (Model_Output.o_Ea o) j = mzero) /\
  moved_on inv3 Ns 0 g 0 f0 o V W p0 (pos 1%nat).
Proof.
  destruct Hc as (pos & fl & out & P0 & P1 & Es & Ef).
  destruct (P1 0%nat HN) as [SO MO].
  assert (D : forall l, filter (save_due 1 0) l = l).
  { induction l as [|x l IH]; [reflexivity|]. cbn [filter]. replace (save_due 1 0 x) with true by (unfold save_due; rewrite Nat.mod_1_r; reflexivity). rewrite IH. reflexivity. }
  unfold due_frames in Es, Ef. rewrite S1, S3, D in Es.
  replace (save_due 1 0 (g_num_frames g - 1)) with true in Es by (unfold save_due; rewrite Nat.mod_1_r; reflexivity).
  assert (Es' : s = map (fun m => snap Ns (pos m)) (seq 0 (S (g_num_frames g)))).
  { rewrite seq_S, map_app. rewrite Es. reflexivity. }
  destruct SO as (i & L & N & Ei & HL & HNf & HA).
  rewrite P0 in Ei. cbn [INR] in Ei. rewrite Hi in Ei. injection Ei as <- Efl.
  assert (HL' : far_resistance h stale Ns 0 bb g input (fun _ => p0) 0 L).
  { unfold far_resistance in *. destruct (g_use_drag g).
    - rewrite P0 in HL. exact HL.
    - destruct HL as (k & i & f & M & D1 & D2 & D3 & D4). exists k, i, f, M.
      assert (k = 0%nat) by (destruct D1; lia). subst k. rewrite P0 in D2, D3. auto. }
  pose proof HA as HA'. destruct HA' as (_ & _ & _ & K1 & K2 & _).
  do 2 eexists. do 2 eexists. split; [|split; [|split; [|split; [|split]]]]; [| | | | |rewrite P0, <- Efl in MO; exact MO].
  - exists i0, L, N. rewrite P0 in HNf. rewrite <- Efl in HNf. cbn [INR]. split; [exact Hi|]. split; [exact HL'|]. split; [exact HNf|exact HA].
  - destruct (g_num_frames g) as [|n] eqn:En; [lia|]. rewrite Es'. cbn [seq map]. rewrite P0. eexists. reflexivity.
  - intros S2. rewrite S2, S3, D in Ef. destruct (g_num_frames g) as [|n] eqn:En; [lia|]. rewrite Ef. cbn [seq map]. eexists. reflexivity.
  - intros j Hj. rewrite HF in K1. apply (row0_of_keeps 0 Ns _ _ j) in K1; [|lia]. unfold rowof. rewrite (nth_error_nth _ _ [] K1). auto.
  - intros j Hj. rewrite HE in K2. apply (row0_of_keeps 0 Ns _ _ j) in K2; [|lia].
    apply functional_extensionality. intros a. apply functional_extensionality. intros b. unfold matof. rewrite (nth_error_nth _ _ [] K2).
    unfold zeros33, zeros3, mzero. destruct a as [|[|[|[|]]]], b as [|[|[|[|]]]]; reflexivity.
Qed.

(** Where the spheres go. *)
Lemma first_move o V W p1 : (forall l, f_U f0 l = 0) -> (forall l, f_O f0 l = 0) ->
  (forall j, (j < Ns)%nat -> matof (Model_Output.o_Ea o) j = mzero) -> moved_on inv3 Ns 0 g 0 f0 o V W p0 p1 ->
  forall j, (j < Ns)%nat -> exists x, landed inv3 g f0 x (c_spos p1 j) /\
    forall l, (l < 3)%nat -> x l = c_spos p0 j l + g_dt g * (if (g_fully_2d g && Nat.eqb l 1)%bool then 0 else rowof (Model_Output.o_Ua o) j l).
Proof.
  intros HU HO EZ MO j Hj. destruct MO as (_ & _ & MO & _). destruct (MO j Hj) as (x & X1 & X2 & _). exists x. split; [exact X1|].
  intros l Hl. rewrite (X2 l Hl).
  replace (match g_scheme g with euler => true | _ => Nat.eqb 0 0 end) with true by (destruct (g_scheme g); reflexivity).
  unfold sphere_speed. destruct (g_fully_2d g && Nat.eqb l 1)%bool; [reflexivity|].
  rewrite (EZ j Hj). unfold linear_flow, mvec, mzero, cross. rewrite HU. cbn [rsum]. idx3 Hl; unfold v3; rewrite ?HO; ring.
Qed.
End First.

(** A lone sphere: the third component of its velocity. *)
Lemma lone_speed Ns Nd (fm : form) (i : inputs) bb p mu L (o : outputs) :
  Ns = 1%nat -> Nd = 0%nat -> num_spheres p = 1%nat -> num_dumbbells p = 0%nat -> 0 < mu -> 0 < sphere_sizes p 0%nat ->
  is_inv 11 (generate_Minfinity bb p mu) L ->
  forall N, (forall a b, (a < 11)%nat -> (b < 11)%nat -> N a b = 0) ->
  answers Ns Nd fm i (fun a b => L a b + N a b) o ->
  rowof (Model_Output.o_Ua o) 0 2%nat = rowof (Model_Output.o_Fa o) 0 2%nat / (6 * PI * mu * sphere_sizes p 0%nat).
Proof.
  intros -> -> Es Ed Hmu Ha HI N HN (HR & HS & _). pose proof PI_RGT_0 as HP.
  destruct HS as (F1 & _ & _ & _ & U1 & _).
  destruct HR as (L1 & L2 & R).
  set (VU := lvec (grand (Model_Output.o_Ua o) _ _ _ _)) in R. set (VF := lvec (grand (Model_Output.o_Fa o) _ _ _ _)) in R.
  assert (EF : VF 2%nat = rowof (Model_Output.o_Fa o) 0 2%nat).
  { unfold VF, lvec, grand, rowof. destruct F1 as [G1 G2]. destruct (Model_Output.o_Fa o) as [|r [|]]; try discriminate G1. cbn [concat nth].
    specialize (G2 r (or_introl eq_refl)). destruct r as [|r0 [|r1 [|r2 [|]]]]; try discriminate G2. reflexivity. }
  assert (EU : VU 2%nat = rowof (Model_Output.o_Ua o) 0 2%nat).
  { unfold VU, lvec, grand, rowof. destruct U1 as [G1 G2]. destruct (Model_Output.o_Ua o) as [|r [|]]; try discriminate G1. cbn [concat nth].
    specialize (G2 r (or_introl eq_refl)). destruct r as [|r0 [|r1 [|r2 [|]]]]; try discriminate G2. reflexivity. }
  rewrite <- EF, <- EU. clear EF EU.
  assert (RL : forall a, (a < 11)%nat -> VF a = rsum 11 (fun b => L a b * VU b)).
  { intros a Hh. rewrite (R a Hh). apply rsum_ext. intros b Hb. rewrite HN by assumption. ring. }
  assert (RM : VU 2%nat = rsum 11 (fun b => generate_Minfinity bb p mu 2%nat b * VF b)).
  { set (M := generate_Minfinity bb p mu) in *.
    assert (K : rsum 11 (fun b => M 2%nat b * VF b) = rsum 11 (fun c => mmul 11 M L 2%nat c * VU c)).
    { unfold mmul. transitivity (rsum 11 (fun b => rsum 11 (fun c => M 2%nat b * L b c * VU c))).
      - apply rsum_ext. intros b Hb. rewrite RL by exact Hb. rewrite <- rsum_scal_l. apply rsum_ext. intros c Hh. ring.
      - rewrite rsum_swap. apply rsum_ext. intros c Hh. rewrite <- rsum_scal_r. reflexivity. }
    rewrite K. rewrite (rsum_single 11 2%nat); [|lia|].
    - rewrite (proj1 (HI 2%nat 2%nat ltac:(lia) ltac:(lia))). unfold delta. cbn. ring.
    - intros c Hh Hne. rewrite (proj1 (HI 2%nat c ltac:(lia) Hh)). unfold delta. destruct (Nat.eqb_spec 2 c); [lia|ring]. }
  rewrite RM. rewrite (rsum_single 11 2%nat); [|lia|].
  - pose proof (C12_self_blocks bb p mu KU KU 0 2 2 ltac:(lia) ltac:(discriminate) ltac:(discriminate) ltac:(cbn; lia) ltac:(cbn; lia)) as G.
    rewrite Es in G. cbn [kstart] in G. change (3 * 0 + 2)%nat with 2%nat in G. rewrite G. cbn [self_value]. unfold delta. cbn [Nat.eqb]. field. repeat split; lra.
  - intros t Ht Hne.
    assert (Z : generate_Minfinity bb p mu 2%nat t = 0); [|rewrite Z; ring].
    destruct (Nat.ltb_spec t 3); [|destruct (Nat.ltb_spec t 6)].
    + pose proof (C12_self_blocks bb p mu KU KU 0 2 t ltac:(lia) ltac:(discriminate) ltac:(discriminate) ltac:(cbn; lia) ltac:(cbn; lia)) as G.
      rewrite Es in G. cbn [kstart] in G. change (3 * 0 + 2)%nat with 2%nat in G. change (3 * 0 + t)%nat with t in G. rewrite G.
      cbn [self_value]. unfold delta. destruct (Nat.eqb_spec 2 t); [lia|]. unfold Rdiv. ring.
    + pose proof (C12_self_blocks bb p mu KU KO 0 2 (t - 3) ltac:(lia) ltac:(discriminate) ltac:(discriminate) ltac:(cbn; lia) ltac:(cbn; lia)) as G.
      rewrite Es in G. cbn [kstart] in G. change (3 * 0 + 2)%nat with 2%nat in G. replace (3 * 1 + 3 * 0 + (t - 3))%nat with t in G by lia. exact G.
    + pose proof (C12_self_blocks bb p mu KU KS 0 2 (t - 6) ltac:(lia) ltac:(discriminate) ltac:(discriminate) ltac:(cbn; lia) ltac:(cbn; lia)) as G.
      rewrite Es in G. cbn [kstart] in G. change (3 * 0 + 2)%nat with 2%nat in G. replace (6 * 1 + 5 * 0 + (t - 6))%nat with t in G by lia. exact G.
Qed.

(** With the drag matrix and no near field: the force on each sphere is its
    radius times the viscosity times its velocity. *)
Lemma drag_force Ns (fm : form) (i : inputs) p mu (o : outputs) j :
  num_spheres p = Ns -> num_dumbbells p = 0%nat -> (j < Ns)%nat ->
  answers Ns 0 fm i (fun a b => drag_Minfinity_inverse p mu a b + mzero a b) o ->
  rowof (Model_Output.o_Fa o) j 2%nat = mu * sphere_sizes p j * rowof (Model_Output.o_Ua o) j 2%nat.
Proof.
  intros Es Ed Hj (HR & HS & _).
  destruct HS as (F1 & _ & _ & _ & U1 & _). destruct HR as (_ & _ & R).
  assert (C : forall l, shaped Ns 3 l -> forall rest, nth (3 * j + 2) (concat l ++ rest) 0 = rowof l j 2%nat).
  { intros l [G1 G2] rest. unfold rowof. revert j Hj G1. clear -G2. revert G2. generalize Ns as n. induction l as [|r l IH]; intros n G2 j Hj G1.
    - cbn in G1. lia.
    - assert (Hr : length r = 3%nat) by (apply G2; left; reflexivity). destruct r as [|r0 [|r1 [|r2 [|]]]]; try discriminate Hr.
      destruct n as [|n]; [cbn in G1; lia|]. destruct j as [|j]; [reflexivity|].
      replace (3 * S j + 2)%nat with (S (S (S (3 * j + 2)))) by lia. cbn [concat app nth]. apply (IH n); [|lia|cbn in G1; lia].
      intros r Hr'. apply G2. right. exact Hr'. }
  specialize (R (3 * j + 2)%nat ltac:(lia)). unfold lvec, grand in R.
  rewrite (C _ F1) in R. rewrite R. rewrite (rsum_single _ (3 * j + 2)%nat); [|lia|].
  - rewrite (C _ U1). unfold drag_Minfinity_inverse, mzero. rewrite Nat.eqb_refl. rewrite Es.
    destruct (Nat.ltb_spec (3 * j + 2) (3 * Ns)); [|lia].
    replace ((3 * j + 2) / 3)%nat with j by (apply (Nat.div_unique _ 3 j 2); lia). ring.
  - intros t Ht Hne. unfold drag_Minfinity_inverse, mzero. destruct (Nat.eqb_spec (3 * j + 2) t); [lia|]. ring.
Qed.

(** A sphere of the cubic array after a step in the unsheared cubic box. *)
Lemma unsheared_cube s Ot Et k l : (forall l, Ot l = 0) -> (forall k l, Et k l = 0) ->
  shear_basis_vectors (diag3 (vsub (v3 (s / 2) (s / 2) (s / 2)) (v3 (- s / 2) (- s / 2) (- s / 2))))
    (vsub (v3 (s / 2) (s / 2) (s / 2)) (v3 (- s / 2) (- s / 2) (- s / 2))) Ot Et k l =
  diag3 (vsub (v3 (s / 2) (s / 2) (s / 2)) (v3 (- s / 2) (- s / 2) (- s / 2))) k l.
Proof.
  intros HO HE. set (box := vsub _ _). unfold shear_basis_vectors. replace (_ + rsum 3 _) with 0; [rewrite rmod_0; ring|].
  unfold cross, v3. destruct l as [|[|[|]]]; cbn [rsum]; rewrite ?HO, ?HE; ring.
Qed.

Definition cube_box (s : R) : vec := vsub (v3 (s / 2) (s / 2) (s / 2)) (v3 (- s / 2) (- s / 2) (- s / 2)).
Lemma cube_box_side s l : (l < 3)%nat -> cube_box s l = s.
Proof. intros Hl. idx3 Hl; unfold cube_box, vsub, v3; field. Qed.
Lemma cube_diag s k l : (k < 3)%nat -> (l < 3)%nat -> diag3 (cube_box s) k l = if Nat.eqb k l then s else 0.
Proof.
  intros Hk Hl. unfold diag3. idx3 Hk; idx3 Hl; cbn [Nat.eqb]; rewrite ?cube_box_side by lia; try reflexivity.
Qed.
Lemma cube_inverse (inv3 : mat -> mat) s Ot Et : inverts inv3 -> s <> 0 -> (forall l, Ot l = 0) -> (forall k l, Et k l = 0) ->
  is_inv 3 (shear_basis_vectors (diag3 (cube_box s)) (cube_box s) Ot Et) (inv3 (shear_basis_vectors (diag3 (cube_box s)) (cube_box s) Ot Et)).
Proof.
  intros Hi Hs HO HE. apply Hi. exists (fun k l => if Nat.eqb k l then / s else 0).
  intros a b Ha Hb. unfold mmul. cbn [rsum]. unfold cube_box. rewrite !unsheared_cube by assumption. fold (cube_box s).
  rewrite !cube_diag by lia. unfold delta. idx3 Ha; idx3 Hb; cbn [Nat.eqb]; split; try field; auto; ring.
Qed.
Lemma cube_shift s Ot Et m l : (l < 3)%nat -> (forall l, Ot l = 0) -> (forall k l, Et k l = 0) ->
  lattice_shift (shear_basis_vectors (diag3 (cube_box s)) (cube_box s) Ot Et) m l = IZR (m l) * s.
Proof.
  intros Hl HO HE. unfold lattice_shift. cbn [rsum]. unfold cube_box. rewrite !unsheared_cube by assumption. fold (cube_box s).
  rewrite !cube_diag by lia. idx3 Hl; cbn [Nat.eqb]; ring.
Qed.
Lemma cube_wrap (inv3 : mat -> mat) s Ot Et x : inverts inv3 -> s <> 0 -> (forall l, Ot l = 0) -> (forall k l, Et k l = 0) ->
  let y := wrap_around inv3 x (v3 (- s / 2) (- s / 2) (- s / 2)) (v3 (s / 2) (s / 2) (s / 2)) Ot Et in
  (exists m : nat -> Z, forall l, (l < 3)%nat -> y l = x l + IZR (m l) * s) /\
  (0 < s -> (forall l, (l < 3)%nat -> - s / 2 <= x l < s / 2) -> forall l, (l < 3)%nat -> y l = x l).
Proof.
  intros Hi Hs HO HE y. pose proof (cube_inverse inv3 s Ot Et Hi Hs HO HE) as I. split.
  - destruct (C29_lattice_image inv3 (v3 (- s / 2) (- s / 2) (- s / 2)) (v3 (s / 2) (s / 2) (s / 2)) Ot Et x I) as [m H].
    exists m. intros l Hl. unfold y. rewrite (H l Hl). rewrite <- (cube_shift s Ot Et m l Hl HO HE). reflexivity.
  - intros Hp Hx l Hl.
    assert (E : forall l, (l < 3)%nat -> rsum 3 (fun k => x k / s * shear_basis_vectors (diag3 (cube_box s)) (cube_box s) Ot Et k l) = x l).
    { intros k Hk. cbn [rsum]. unfold cube_box. rewrite !unsheared_cube by assumption. fold (cube_box s). rewrite !cube_diag by lia.
      idx3 Hk; cbn [Nat.eqb]; field; exact Hs. }
    unfold y. etransitivity; [|exact (E l Hl)].
    apply (C29_unique inv3 (v3 (- s / 2) (- s / 2) (- s / 2)) (v3 (s / 2) (s / 2) (s / 2)) Ot Et x (fun _ => 0%Z) (fun k => x k / s) I).
    + intros k Hk. specialize (Hx k Hk). split.
      * apply (Rmult_le_reg_r s); [exact Hp|]. unfold Rdiv. rewrite (Rmult_assoc (x k)), Rinv_l by exact Hs. lra.
      * apply (Rmult_lt_reg_r s); [exact Hp|]. unfold Rdiv. rewrite (Rmult_assoc (x k)), Rinv_l by exact Hs. lra.
    + intros k Hk. fold (cube_box s). rewrite cube_shift by assumption. rewrite (E k Hk). ring.
Qed.
