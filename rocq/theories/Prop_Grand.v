(** Property C57: the grand resistance matrices. *)
From Coq Require Import Reals Arith Bool List Lia Lra.
From Verif Require Import Base Py Model_Layout Model_Minf Model_Grand Model_Close Model_R2B Model_MinfP Model_GrandP
  Spec_Layout Spec_Minf Spec_R2B Proof_Layout Proof_Minf3 Proof_Minf4 Proof_R2B3 Proof_R2B4 Proof_Close Proof_GrandP.
Import ListNotations.
Local Open Scope R_scope.

(** C57: the returned resistance gives, for the velocities [U] produced by the
    far-field forces [F], these forces plus the near-field forces of [U]. *)
Theorem C57_forces :
  forall inv sc table bb p cutoff_factor mu last verbose minf_only G mi,
    let n := (11 * num_spheres p + 6 * num_dumbbells p)%nat in
    let M := generate_Minfinity bb p mu in
    is_inv n M (inv n M) ->
    grand_resistance_free inv sc table bb p last true cutoff_factor verbose false minf_only mu = Ok (G, mi) ->
    forall U F, (forall i, (i < n)%nat -> U i = mvec n M F i) ->
      (forall i, (i < n)%nat -> mvec n mi U i = F i) /\
      if minf_only then forall i, (i < n)%nat -> mvec n G U i = F i
      else exists near, generate_R2Bexact_free sc table bb p cutoff_factor mu = Some near /\
        forall i, (i < n)%nat -> mvec n G U i = F i + mvec n near U i.
Proof.
  intros inv sc table bb p cf mu last vb mo G mi n M HI E U F HU.
  assert (HF : forall i, (i < n)%nat -> mvec n (inv n M) U i = F i).
  { intros i Hi. symmetry. revert i Hi. apply (proj1 (is_inv_mvec n M (inv n M) F U HI)). exact HU. }
  unfold grand_resistance_free, Minfinity_inverse, add_near, bind in E. fold n M in E. destruct mo.
  - destruct (_ && _)%bool; [discriminate|]. injection E as <- <-. split; exact HF.
  - destruct (generate_R2Bexact_free sc table bb p cf mu) as [near|]; [|discriminate].
    destruct (_ && _)%bool; [discriminate|]. injection E as <- <-. split; [exact HF|]. exists near. split; [reflexivity|].
    intros i Hi. rewrite <- (HF i Hi). unfold mvec, madd. rewrite <- rsum_plus. apply rsum_ext. intros l Hl. ring.
Qed.
Print Assumptions C57_forces.
Theorem C57_periodic_forces :
  forall inv inv3 sc table h bb p bl tr cutoff_factor mu Ot Et stale last minf_only G mi,
    let n := (11 * num_spheres p + 6 * num_dumbbells p)%nat in
    let M := generate_Minfinity_periodic h bb p bl tr mu Ot Et stale in
    is_inv n M (inv n M) ->
    grand_resistance_periodic inv inv3 sc table h bb p last bl tr true cutoff_factor false minf_only mu Ot Et stale = Ok (G, mi) ->
    forall U F, (forall i, (i < n)%nat -> U i = mvec n M F i) ->
      (forall i, (i < n)%nat -> mvec n mi U i = F i) /\
      if minf_only then forall i, (i < n)%nat -> mvec n G U i = F i
      else exists near, generate_R2Bexact_periodic inv3 sc table bb p cutoff_factor mu (vsub tr bl) Ot Et = Some near /\
        forall i, (i < n)%nat -> mvec n G U i = F i + mvec n near U i.
Proof.
  intros inv inv3 sc table h bb p bl tr cf mu Ot Et st last mo G mi n M HI E U F HU.
  assert (HF : forall i, (i < n)%nat -> mvec n (inv n M) U i = F i).
  { intros i Hi. symmetry. revert i Hi. apply (proj1 (is_inv_mvec n M (inv n M) F U HI)). exact HU. }
  unfold grand_resistance_periodic, add_near, bind in E. fold n M in E. destruct mo.
  - injection E as <- <-. split; exact HF.
  - destruct (generate_R2Bexact_periodic inv3 sc table bb p cf mu (vsub tr bl) Ot Et) as [near|]; [|discriminate].
    injection E as <- <-. split; [exact HF|]. exists near. split; [reflexivity|].
    intros i Hi. rewrite <- (HF i Hi). unfold mvec, madd. rewrite <- rsum_plus. apply rsum_ext. intros l Hl. ring.
Qed.
Print Assumptions C57_periodic_forces.
(** Without regeneration the stored inverse is used in place of the inverse. *)
Theorem C57_stored :
  forall inv sc table bb p cutoff_factor mu last minf_only G mi,
    grand_resistance_free inv sc table bb p last false cutoff_factor false false minf_only mu = Ok (G, mi) ->
    mi = last /\ if minf_only then G = last
    else exists near, generate_R2Bexact_free sc table bb p cutoff_factor mu = Some near /\ forall i j, G i j = last i j + near i j.
Proof.
  intros inv sc table bb p cf mu last mo G mi E. unfold grand_resistance_free, Minfinity_inverse, add_near, bind in E. destruct mo.
  - cbn in E. injection E as <- <-. split; reflexivity.
  - destruct (generate_R2Bexact_free sc table bb p cf mu) as [near|]; [|discriminate]. cbn in E. injection E as <- <-. split; [reflexivity|].
    exists near. split; [reflexivity|]. intros i j. unfold madd. ring.
Qed.
Print Assumptions C57_stored.

(** C57, free space: with [np.linalg.inv] returning inverses (or a symmetric
    stored inverse) both returned matrices are symmetric. *)
Theorem C57_symmetric :
  forall inv sc table bb p cutoff_factor mu last regenerate verbose use_drag minf_only G mi,
    let n := (11 * num_spheres p + 6 * num_dumbbells p)%nat in
    let M := generate_Minfinity bb p mu in
    (use_drag = false -> regenerate = true -> is_inv n M (inv n M)) ->
    (use_drag = false -> regenerate = false -> msym n last) ->
    grand_resistance_free inv sc table bb p last regenerate cutoff_factor verbose use_drag minf_only mu = Ok (G, mi) ->
    msym n G /\ msym n mi.
Proof. intros inv sc table bb p cf mu. exact (free_sym inv sc table bb p cf mu). Qed.
Print Assumptions C57_symmetric.

(** C57: it depends on relative positions only (exceptions included) ... *)
Theorem C57_translation :
  forall inv sc table bb p cutoff_factor mu last regenerate verbose use_drag minf_only d,
    grand_resistance_free inv sc table bb (translate d p) last regenerate cutoff_factor verbose use_drag minf_only mu =
    grand_resistance_free inv sc table bb p last regenerate cutoff_factor verbose use_drag minf_only mu.
Proof. intros inv sc table bb p cf mu. exact (free_translate inv sc table bb p cf mu). Qed.
Print Assumptions C57_translation.

(** ... and is proportional to viscosity. *)
Theorem C57_viscosity :
  forall inv sc table bb p cutoff_factor mu k last last' regenerate verbose use_drag minf_only G mi,
    let n := (11 * num_spheres p + 6 * num_dumbbells p)%nat in
    let M := generate_Minfinity bb p mu in
    let M' := generate_Minfinity bb p (k * mu) in
    k <> 0 ->
    (use_drag = false -> regenerate = true -> is_inv n M (inv n M) /\ is_inv n M' (inv n M')) ->
    (forall i j, (i < n)%nat -> (j < n)%nat -> last' i j = k * last i j) ->
    grand_resistance_free inv sc table bb p last regenerate cutoff_factor verbose use_drag minf_only mu = Ok (G, mi) ->
    exists G' mi',
      grand_resistance_free inv sc table bb p last' regenerate cutoff_factor verbose use_drag minf_only (k * mu) = Ok (G', mi') /\
      forall i j, (i < n)%nat -> (j < n)%nat -> G' i j = k * G i j /\ mi' i j = k * mi i j.
Proof. intros inv sc table bb p cf mu. exact (free_viscosity inv sc table bb p cf mu). Qed.
Print Assumptions C57_viscosity.

(** C57: renumbering the particles permutes rows and columns. *)
Theorem C57_relabelling :
  forall inv sc table bb p s t cutoff_factor mu verbose minf_only last last' G mi G' mi',
    let Ns := num_spheres p in let Nd := num_dumbbells p in
    let n := (11 * Ns + 6 * Nd)%nat in
    let M := generate_Minfinity bb p mu in
    let M' := generate_Minfinity bb (relabel s t p) mu in
    permutes Ns s -> permutes Nd t -> 0 < cutoff_factor ->
    (forall b, (b < Ns + 2 * Nd)%nat -> 0 < bead_sizes p b) ->
    distinct_beads (Ns + 2 * Nd) (bead_positions p) (bead_sizes p) ->
    all_reciprocal sc table (bead_positions p) (bead_sizes p) (Ns + 2 * Nd) cutoff_factor ->
    is_inv n M (inv n M) -> is_inv n M' (inv n M') ->
    grand_resistance_free inv sc table bb p last true cutoff_factor verbose false minf_only mu = Ok (G, mi) ->
    grand_resistance_free inv sc table bb (relabel s t p) last' true cutoff_factor verbose false minf_only mu = Ok (G', mi') ->
    forall k1 b k2 b' i j,
      kvalid Ns Nd k1 b -> kvalid Ns Nd k2 b' -> (i < ksize k1)%nat -> (j < ksize k2)%nat ->
      G' (kstart Ns k1 b + i)%nat (kstart Ns k2 b' + j)%nat =
      G (kstart Ns k1 (bead_relabel s t Ns Nd b) + i)%nat (kstart Ns k2 (bead_relabel s t Ns Nd b') + j)%nat.
Proof.
  intros inv sc table bb p s t cf mu vb mo lst lst' G mi G' mi' Ns Nd n M M' Hs Ht Hcf Hp HD HR HI HI' E E' k1 b k2 b' i j V1 V2 Hi Hj.
  rewrite (free_relabel inv sc table bb p s t cf mu vb mo lst lst' G mi G' mi' Hs Ht Hcf Hp HD HR HI HI' E E')
    by (apply block_range; assumption).
  rewrite !comp_relabel_block by assumption. reflexivity.
Qed.
Print Assumptions C57_relabelling.

(** C57, periodic domain. *)
Theorem C57_periodic_symmetric :
  forall inv inv3 sc table h bb p bl tr cutoff_factor mu Ot Et stale last regenerate minf_only G mi,
    let n := (11 * num_spheres p + 6 * num_dumbbells p)%nat in
    let M := generate_Minfinity_periodic h bb p bl tr mu Ot Et stale in
    (regenerate = true -> is_inv n M (inv n M)) -> (regenerate = false -> msym n last) ->
    grand_resistance_periodic inv inv3 sc table h bb p last bl tr regenerate cutoff_factor false minf_only mu Ot Et stale = Ok (G, mi) ->
    msym n G /\ msym n mi.
Proof. intros inv inv3 sc table h bb p bl tr cf mu Ot Et st. exact (periodic_sym inv inv3 sc table h bb p bl tr cf mu Ot Et st). Qed.
Print Assumptions C57_periodic_symmetric.

Theorem C57_periodic_translation :
  forall inv inv3 sc table h bb p bl tr cutoff_factor mu Ot Et stale d last regenerate minf_only G mi,
    let n := (11 * num_spheres p + 6 * num_dumbbells p)%nat in
    let M := generate_Minfinity_periodic h bb p bl tr mu Ot Et stale in
    let M' := generate_Minfinity_periodic h bb (translate d p) bl tr mu Ot Et stale in
    is_inv 3 (diag3 (vsub tr bl)) (inv3 (diag3 (vsub tr bl))) ->
    (regenerate = true -> is_inv n M (inv n M) /\ is_inv n M' (inv n M')) ->
    grand_resistance_periodic inv inv3 sc table h bb p last bl tr regenerate cutoff_factor false minf_only mu Ot Et stale = Ok (G, mi) ->
    exists G' mi',
      grand_resistance_periodic inv inv3 sc table h bb (translate d p) last bl tr regenerate cutoff_factor false minf_only mu Ot Et stale
        = Ok (G', mi') /\
      forall i j, (i < n)%nat -> (j < n)%nat -> G' i j = G i j /\ mi' i j = mi i j.
Proof. intros inv inv3 sc table h bb p bl tr cf mu Ot Et st. exact (periodic_translate inv inv3 sc table h bb p bl tr cf mu Ot Et st). Qed.
Print Assumptions C57_periodic_translation.

Theorem C57_periodic_viscosity :
  forall inv inv3 sc table h bb p bl tr cutoff_factor mu Ot Et stale k last last' regenerate minf_only G mi,
    let n := (11 * num_spheres p + 6 * num_dumbbells p)%nat in
    let M := generate_Minfinity_periodic h bb p bl tr mu Ot Et stale in
    let M' := generate_Minfinity_periodic h bb p bl tr (k * mu) Ot Et stale in
    k <> 0 ->
    (regenerate = true -> is_inv n M (inv n M) /\ is_inv n M' (inv n M')) ->
    (forall i j, (i < n)%nat -> (j < n)%nat -> last' i j = k * last i j) ->
    grand_resistance_periodic inv inv3 sc table h bb p last bl tr regenerate cutoff_factor false minf_only mu Ot Et stale = Ok (G, mi) ->
    exists G' mi',
      grand_resistance_periodic inv inv3 sc table h bb p last' bl tr regenerate cutoff_factor false minf_only (k * mu) Ot Et stale
        = Ok (G', mi') /\
      forall i j, (i < n)%nat -> (j < n)%nat -> G' i j = k * G i j /\ mi' i j = k * mi i j.
Proof. intros inv inv3 sc table h bb p bl tr cf mu Ot Et st. exact (periodic_viscosity inv inv3 sc table h bb p bl tr cf mu Ot Et st). Qed.
Print Assumptions C57_periodic_viscosity.

(** C57, finding: the drag option does not work in a periodic domain. *)
Theorem C57_periodic_drag_refuted :
  forall inv inv3 sc table h bb p bl tr cutoff_factor mu Ot Et stale last regenerate minf_only,
    (0 < num_spheres p + num_dumbbells p)%nat ->
    grand_resistance_periodic inv inv3 sc table h bb p last bl tr regenerate cutoff_factor true minf_only mu Ot Et stale
      = Raise IndexError.
Proof. exact periodic_drag_raises. Qed.
Print Assumptions C57_periodic_drag_refuted.

(** C57, finding: with debugging output the free-space function raises
    whenever the mobility matrix was not generated in the call. *)
Theorem C57_debug_output_refuted :
  forall inv sc table bb p cutoff_factor mu last regenerate use_drag minf_only,
    use_drag = true \/ regenerate = false ->
    (forall r, grand_resistance_free inv sc table bb p last regenerate cutoff_factor false use_drag minf_only mu = Ok r ->
       grand_resistance_free inv sc table bb p last regenerate cutoff_factor true use_drag minf_only mu = Raise UnboundLocalError).
Proof.
  intros inv sc table bb p cf mu last reg dr mo H r. unfold grand_resistance_free, bind.
  destruct (add_near _ _ _); [|discriminate]. intros _. destruct H as [-> | ->]; [reflexivity|]. rewrite orb_true_r. reflexivity.
Qed.
Print Assumptions C57_debug_output_refuted.

(** A lone sphere, with the inverse given explicitly. *)
Definition one_sphere : posdata :=
  mkPos 1 0 (fun _ => 1) (fun _ => v3 0 0 0) (fun _ => 1) (fun _ => v3 0 0 0) (fun _ => v3 0 0 0).
Definition one_inv : nat -> mat -> mat := fun _ _ => mscal (6 * PI) (drag_Minfinity_inverse one_sphere 1).
Example C57_example : forall sc,
  is_inv 11 (generate_Minfinity true one_sphere 1) (one_inv 11 (generate_Minfinity true one_sphere 1)) /\
  exists G mi, grand_resistance_free one_inv sc [1] true one_sphere mzero true 2 true false false 1 = Ok (G, mi) /\
    mi 0%nat 0%nat = 6 * PI.
Proof.
  intros sc. pose proof PI_RGT_0 as HPI. split.
  - assert (E : forall i j, (i < 11)%nat -> (j < 11)%nat ->
      mmul 11 (one_inv 11 (generate_Minfinity true one_sphere 1)) (generate_Minfinity true one_sphere 1) i j = delta i j).
    { intros i j Hi Hj. unfold one_inv.
      transitivity (6 * PI * mmul 11 (drag_Minfinity_inverse one_sphere 1) (generate_Minfinity true one_sphere 1) i j).
      - unfold mmul, mscal. rewrite <- rsum_scal_l. apply rsum_ext. intros. ring.
      - rewrite drag_lone by (try reflexivity; try assumption; simpl; lra). field. lra. }
    intros i j Hi Hj. split; [|apply E; assumption].
    transitivity (mmul 11 (one_inv 11 (generate_Minfinity true one_sphere 1)) (generate_Minfinity true one_sphere 1) j i).
    + unfold mmul. apply rsum_ext. intros l Hl. unfold one_inv, mscal.
      rewrite (drag_sym one_sphere 1 11 l j Hl Hj), (gen_sym true one_sphere 1 i l Hi Hl). ring.
    + rewrite E by assumption. unfold delta. rewrite Nat.eqb_sym. reflexivity.
  - unfold grand_resistance_free, add_near, bind.
    destruct (generate_R2Bexact_free sc [1] true one_sphere 2 1) as [g|] eqn:E.
    + simpl. eexists. eexists. split; [reflexivity|]. unfold Minfinity_inverse, one_inv, mscal, drag_Minfinity_inverse. simpl. ring.
    + exfalso. unfold generate_R2Bexact_free, generate_R2Bexact in E.
      destruct (generate_R2Bexact_loop sc [1] true _ _ _ _) as [M|] eqn:E2; [discriminate|].
      assert (HS : forall b, bead_sizes one_sphere b = 1) by (intros [|[|]]; reflexivity).
      apply (loop_fails_iff sc [1] true _ _ _ _ 1) in E2.
      * destruct E2 as (t & Ht & E2). apply free_in in Ht. destruct Ht as (_ & _ & Et).
        assert (R1 : cp_ratio t = 1) by (rewrite Et; cbn [cp_ratio free_record]; rewrite !HS; field).
        rewrite R1 in E2. replace (1 / 1) with 1 in E2 by field.
        assert (found_one : lam_index [1] 1 = Some 0%nat).
        { unfold lam_index, lam_index_from, isclose. replace (Rleb _ _) with true; [reflexivity|]. symmetry. apply Rleb_spec.
          replace (1 - 1) with 0 by ring. rewrite Rabs_R0, Rabs_R1.
          assert (0 < / 10 ^ 8) by (apply Rinv_0_lt_compat, pow_lt; lra).
          assert (0 < / 10 ^ 5) by (apply Rinv_0_lt_compat, pow_lt; lra). lra. }
        rewrite found_one in E2. destruct E2; discriminate.
      * apply free_close_list. lra.
      * intros b _. rewrite HS. lra.
Qed.
