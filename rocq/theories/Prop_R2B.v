(** Properties C15-C18 and the near-field half of C11: the near-field
    resistance matrix. *)
From Coq Require Import Reals Arith Bool List Lia Lra.
From Verif Require Import Base Model_Pack Model_Mob Model_Layout Model_Minf Model_Close Model_L Model_R2B
  Spec_Layout Spec_Minf Spec_R2B Spec_Close Proof_Minf2 Proof_R2B3 Proof_R2B4 Proof_Close Proof_Periodic Proof_Interp
  Proof_Tensors.
Import ListNotations.
Local Open Scope R_scope.

(** C11, near field *)
Theorem C11_near_field_translation :
  forall sc table bb p cutoff_factor mu d,
    generate_R2Bexact_free sc table bb (translate d p) cutoff_factor mu =
    generate_R2Bexact_free sc table bb p cutoff_factor mu.
Proof. exact r2b_translate. Qed.
Print Assumptions C11_near_field_translation.

Theorem C11_near_field_translation_periodic :
  forall inv sc table bb p cutoff_factor mu box Ot Et d,
    is_inv 3 (diag3 box) (inv (diag3 box)) ->
    generate_R2Bexact_periodic inv sc table bb (translate d p) cutoff_factor mu box Ot Et =
    generate_R2Bexact_periodic inv sc table bb p cutoff_factor mu box Ot Et.
Proof. exact r2b_translate_periodic. Qed.
Print Assumptions C11_near_field_translation_periodic.

Theorem C11_near_field_viscosity :
  forall sc table bb a Ns Nd pairs mu k,
    generate_R2Bexact sc table bb a Ns Nd pairs (k * mu) =
    match generate_R2Bexact sc table bb a Ns Nd pairs mu with Some G => Some (mscal k G) | None => None end.
Proof. exact r2b_viscosity. Qed.
Print Assumptions C11_near_field_viscosity.

(** C15, for every list of close pairs (periodic or not) *)
Theorem C15_symmetric :
  forall sc table bb a Ns Nd pairs mu G,
    generate_R2Bexact sc table bb a Ns Nd pairs mu = Some G -> msym (11 * Ns + 6 * Nd) G.
Proof. exact gen_r2b_sym. Qed.
Print Assumptions C15_symmetric.

(** Blocks of components none of whose beads are in contact are zero. *)
Theorem C15_local :
  forall sc table bb a Ns Nd pairs mu G k1 p k2 q i j,
    close_list (Ns + 2 * Nd) a pairs -> (forall b, (b < Ns + 2 * Nd)%nat -> 0 < a b) ->
    generate_R2Bexact sc table bb a Ns Nd pairs mu = Some G ->
    kvalid Ns Nd k1 p -> kvalid Ns Nd k2 q -> (i < ksize k1)%nat -> (j < ksize k2)%nat ->
    (forall b b', bead_of Ns Nd k1 p b -> bead_of Ns Nd k2 q b' -> b <> b' /\ ~ in_contact pairs b b') ->
    G (kstart Ns k1 p + i)%nat (kstart Ns k2 q + j)%nat = 0.
Proof. exact gen_r2b_far. Qed.
Print Assumptions C15_local.

(** The same in terms of positions. *)
Theorem C15_local_free :
  forall sc table bb (p : posdata) cutoff_factor mu G k1 b1 k2 b2 i j,
    let Ns := num_spheres p in let Nd := num_dumbbells p in
    0 < cutoff_factor -> (forall b, (b < Ns + 2 * Nd)%nat -> 0 < bead_sizes p b) ->
    generate_R2Bexact_free sc table bb p cutoff_factor mu = Some G ->
    kvalid Ns Nd k1 b1 -> kvalid Ns Nd k2 b2 -> (i < ksize k1)%nat -> (j < ksize k2)%nat ->
    (forall b b', bead_of Ns Nd k1 b1 b -> bead_of Ns Nd k2 b2 b' ->
       b <> b' /\ 2 * cutoff_factor <= scaled_distance (bead_positions p) (bead_sizes p) b b') ->
    G (kstart Ns k1 b1 + i)%nat (kstart Ns k2 b2 + j)%nat = 0.
Proof. exact gen_free_far. Qed.
Print Assumptions C15_local_free.

Theorem C15_separated_particles_zero :
  forall sc table bb (p : posdata) cutoff_factor mu G r t,
    let Ns := num_spheres p in let Nd := num_dumbbells p in
    0 < cutoff_factor -> (forall b, (b < Ns + 2 * Nd)%nat -> 0 < bead_sizes p b) ->
    generate_R2Bexact_free sc table bb p cutoff_factor mu = Some G ->
    (forall b b', (b < Ns + 2 * Nd)%nat -> (b' < Ns + 2 * Nd)%nat -> b <> b' ->
       2 * cutoff_factor <= scaled_distance (bead_positions p) (bead_sizes p) b b') ->
    (r < 11 * Ns + 6 * Nd)%nat -> (t < 11 * Ns + 6 * Nd)%nat -> G r t = 0.
Proof. exact gen_free_none. Qed.
Print Assumptions C15_separated_particles_zero.

Theorem C15_no_contact_zero_periodic :
  forall inv sc table bb (p : posdata) cutoff_factor mu box Ot Et G r t,
    let Ns := num_spheres p in let Nd := num_dumbbells p in
    let pairs := close_particles_periodic inv (bead_positions p) (bead_sizes p) (Ns + 2 * Nd) cutoff_factor box Ot Et in
    is_inv 3 (diag3 box) (inv (diag3 box)) ->
    0 <= cutoff_factor -> (forall b, (b < Ns + 2 * Nd)%nat -> 0 < bead_sizes p b) ->
    generate_R2Bexact_periodic inv sc table bb p cutoff_factor mu box Ot Et = Some G ->
    (forall u, In u pairs -> cp1 u = cp2 u) ->
    (r < 11 * Ns + 6 * Nd)%nat -> (t < 11 * Ns + 6 * Nd)%nat -> G r t = 0.
Proof. exact gen_periodic_none. Qed.
Print Assumptions C15_no_contact_zero_periodic.

(** C16: what every block is, for both orders of the labels, in free space.
    For blocks that couple equal moments seen from the higher label the
    table has to satisfy the reciprocal relations. *)
Theorem C16_every_block :
  forall sc table bb x a Ns Nd cutoff_factor k1 p k2 q i j,
    0 < cutoff_factor -> (forall b, (b < Ns + 2 * Nd)%nat -> 0 < a b) ->
    kvalid Ns Nd k1 p -> kvalid Ns Nd k2 q -> (i < ksize k1)%nat -> (j < ksize k2)%nat ->
    (mrank k1 <> mrank k2 \/ (p <= q)%nat \/
     (scaled_distance x a p q < 2 * cutoff_factor ->
      reciprocal_scalars sc (lam_ix table) (scaled_distance x a p q) (a p) (a q))) ->
    forall M,
      generate_R2Bexact_loop sc table bb a Ns Nd (close_particles_free x a (Ns + 2 * Nd) cutoff_factor) = Some M ->
      M (kstart Ns k1 p + i)%nat (kstart Ns k2 q + j)%nat =
      free_resistance sc (lam_ix table) bb x a (Ns + 2 * Nd) cutoff_factor k1 p k2 q i j.
Proof. exact free_loop_entry. Qed.
Print Assumptions C16_every_block.

(** The same for any list of close pairs (periodic included). *)
Theorem C16_every_block_pairs :
  forall sc table bb a Ns Nd pairs k1 p k2 q i j,
    close_list (Ns + 2 * Nd) a pairs -> (forall b, (b < Ns + 2 * Nd)%nat -> 0 < a b) ->
    kvalid Ns Nd k1 p -> kvalid Ns Nd k2 q -> (i < ksize k1)%nat -> (j < ksize k2)%nat ->
    (mrank k1 <> mrank k2 \/ (p <= q)%nat \/
     forall t, In t pairs -> (cp1 t = p /\ cp2 t = q) \/ (cp1 t = q /\ cp2 t = p) ->
       reciprocal_scalars sc (lam_ix table) (cp_dist t) (a p) (a q)) ->
    forall M, generate_R2Bexact_loop sc table bb a Ns Nd pairs = Some M ->
      M (kstart Ns k1 p + i)%nat (kstart Ns k2 q + j)%nat =
      bead_resistance sc (lam_ix table) bb a pairs k1 p k2 q i j.
Proof. exact loop_pairs_entry. Qed.
Print Assumptions C16_every_block_pairs.

(** Renumbering the particles permutes the matrix. *)
Theorem C16_relabelling :
  forall sc table bb p cutoff_factor mu s t G G',
    let Ns := num_spheres p in let Nd := num_dumbbells p in
    0 < cutoff_factor -> permutes Ns s -> permutes Nd t ->
    (forall b, (b < Ns + 2 * Nd)%nat -> 0 < bead_sizes p b) ->
    all_reciprocal sc table (bead_positions p) (bead_sizes p) (Ns + 2 * Nd) cutoff_factor ->
    generate_R2Bexact_free sc table bb p cutoff_factor mu = Some G ->
    generate_R2Bexact_free sc table bb (relabel s t p) cutoff_factor mu = Some G' ->
    forall k1 b k2 b' i j,
      kvalid Ns Nd k1 b -> kvalid Ns Nd k2 b' -> (i < ksize k1)%nat -> (j < ksize k2)%nat ->
      G' (kstart Ns k1 b + i)%nat (kstart Ns k2 b' + j)%nat =
      G (kstart Ns k1 (bead_relabel s t Ns Nd b) + i)%nat (kstart Ns k2 (bead_relabel s t Ns Nd b') + j)%nat.
Proof. exact gen_free_relabel. Qed.
Print Assumptions C16_relabelling.

(** The computation fails exactly if a ratio of two close beads, or its
    reciprocal, is not in the table. *)
Theorem C16_fails_iff_ratio_missing :
  forall sc table bb a Ns Nd pairs nb,
    close_list nb a pairs -> (forall p, (p < nb)%nat -> 0 < a p) ->
    (generate_R2Bexact_loop sc table bb a Ns Nd pairs = None <->
     exists t, In t pairs /\ (lam_index table (cp_ratio t) = None \/ lam_index table (1 / cp_ratio t) = None)).
Proof. exact loop_fails_iff. Qed.
Print Assumptions C16_fails_iff_ratio_missing.

(** Two spheres and a dumbbell of unit size; the spheres and the first bead
    are close, the second bead is far from the spheres. *)
Definition ex_near : posdata :=
  mkPos 2 1 (fun _ => 1) (fun i => v3 (5 / 2 * INR i) 0 0) (fun _ => 1) (fun _ => v3 0 0 22) (fun _ => v3 0 0 38).
Lemma ex_near_sizes b : bead_sizes ex_near b = 1.
Proof. unfold bead_sizes, ex_near. simpl. destruct b as [|[|[|]]]; reflexivity. Qed.
Lemma found_one : lam_index [1] 1 = Some 0%nat.
Proof.
  unfold lam_index, lam_index_from, isclose. replace (Rleb _ _) with true; [reflexivity|]. symmetry. apply Rleb_spec.
  replace (1 - 1) with 0 by ring. rewrite Rabs_R0, Rabs_R1. 
  assert (0 < / 10 ^ 8) by (apply Rinv_0_lt_compat, pow_lt; lra).
  assert (0 < / 10 ^ 5) by (apply Rinv_0_lt_compat, pow_lt; lra). lra.
Qed.
Example C15_C16_example : forall sc,
  let Ns := num_spheres ex_near in let Nd := num_dumbbells ex_near in
  (exists G, generate_R2Bexact_free sc [1] true ex_near 2 1 = Some G) /\
  (forall b, (b < Ns + 2 * Nd)%nat -> 0 < bead_sizes ex_near b) /\
  all_reciprocal sc [1] (bead_positions ex_near) (bead_sizes ex_near) (Ns + 2 * Nd) 2 /\
  scaled_distance (bead_positions ex_near) (bead_sizes ex_near) 0 1 < 2 * 2 /\
  2 * 2 <= scaled_distance (bead_positions ex_near) (bead_sizes ex_near) 0 3 /\
  permutes Ns (fun i => (1 - i)%nat) /\ permutes Nd (fun i => i).
Proof.
  intros sc Ns Nd.
  assert (P : forall b, (b < Ns + 2 * Nd)%nat -> 0 < bead_sizes ex_near b).
  { intros b _. rewrite ex_near_sizes. lra. }
  split; [|split; [exact P|split; [|split; [|split; [|split]]]]].
  - unfold generate_R2Bexact_free, generate_R2Bexact.
    destruct (generate_R2Bexact_loop sc [1] true _ _ _ _) as [M|] eqn:E; [eexists; reflexivity|exfalso].
    apply (loop_fails_iff sc [1] true _ _ _ _ (Ns + 2 * Nd)) in E.
    + destruct E as (t & Ht & E). apply free_in in Ht. destruct Ht as (_ & _ & Et).
      assert (R1 : cp_ratio t = 1) by (rewrite Et; cbn [cp_ratio free_record]; rewrite !ex_near_sizes; field).
      rewrite R1 in E. replace (1 / 1) with 1 in E by field. rewrite found_one in E. destruct E; discriminate.
    + apply free_close_list. lra.
    + exact P.
  - intros b c Hb Hc Hne Hs. unfold reciprocal_scalars. rewrite !ex_near_sizes. split; reflexivity.
  - unfold scaled_distance, norm, vsub, bead_positions, ex_near, v3. rewrite !ex_near_sizes. simpl.
    apply (Rle_lt_trans _ (sqrt (3 ^ 2))); [|rewrite sqrt_pow2; lra].
    match goal with |- 2 * sqrt ?u / ?w <= _ => replace (2 * sqrt u / w) with (sqrt u) by field end.
    apply sqrt_le_1_alt. lra.
  - unfold scaled_distance, norm, bead_positions, ex_near; cbn [num_spheres num_dumbbells sphere_positions dumbbell_positions dumbbell_deltax Nat.ltb Nat.leb Nat.add Nat.sub]; unfold vsub, vadd, vscal, v3. rewrite !ex_near_sizes. simpl.
    match goal with |- _ <= 2 * sqrt ?u / ?w => replace (2 * sqrt u / w) with (sqrt u) by field end.
    apply (Rle_trans _ (sqrt (4 ^ 2))); [rewrite sqrt_pow2; lra|]. apply sqrt_le_1_alt. lra.
  - unfold Ns. cbn [num_spheres ex_near]. split; intros; lia.
  - split; intros; lia.
Qed.

(** C17 *)
Theorem C17_axial_transverse_projections :
  forall d, dot3 d d = 1 -> forall i j, (i < 3)%nat -> (j < 3)%nat ->
    L1t d i j + L2t d i j = delta i j /\
    rsum 3 (fun k => L1t d i k * L1t d k j) = L1t d i j /\
    rsum 3 (fun k => L2t d i k * L2t d k j) = L2t d i j /\
    rsum 3 (fun k => L1t d i k * L2t d k j) = 0 /\
    L1t d i j = d i * d j.
Proof.
  intros d Hd i j Hi Hj.
  exact (conj (L12_sum d i j) (conj (L11 d Hd i j) (conj (L22 d Hd i j Hi Hj) (conj (L12 d Hd i j Hi Hj) eq_refl)))).
Qed.
Print Assumptions C17_axial_transverse_projections.

Theorem C17_L3_cross_product :
  forall d v i j, (i < 3)%nat -> (j < 3)%nat ->
    rsum 3 (fun k => L3t d i k * v k) = cross v d i /\ L3t d i j = - L3t d j i.
Proof. intros d v i j Hi Hj. exact (conj (L3_cross d v i Hi) (L3_anti d i j Hi Hj)). Qed.
Print Assumptions C17_L3_cross_product.

(** Force and torque to stresslet: symmetric and traceless in the first two
    indices; L4 acts on the axial part only, L5 and L6 on the transverse one. *)
Theorem C17_L4_L5_L6 :
  forall d, dot3 d d = 1 -> forall i j k, (i < 3)%nat -> (j < 3)%nat -> (k < 3)%nat ->
    (L4t d i j k = L4t d j i k /\ L5t d i j k = L5t d j i k /\ L6t d i j k = L6t d j i k) /\
    (rsum 3 (fun l => L4t d l l k) = 0 /\ rsum 3 (fun l => L5t d l l k) = 0 /\ rsum 3 (fun l => L6t d l l k) = 0) /\
    (rsum 3 (fun l => L4t d i j l * d l) = d i * d j - delta i j / 3 /\
     rsum 3 (fun l => L5t d i j l * d l) = 0 /\ rsum 3 (fun l => L6t d i j l * d l) = 0).
Proof.
  intros d Hd i j k Hi Hj Hk.
  exact (conj (conj (L4sym d i j k) (conj (L5sym d i j k) (L6sym d i j k Hi Hj Hk)))
        (conj (conj (trace4 d Hd k) (conj (trace5 d Hd k Hk) (trace6 d k Hk)))
              (conj (L4_along d Hd i j) (conj (L5_across d Hd i j Hi Hj) (L6_across d i j Hi Hj))))).
Qed.
Print Assumptions C17_L4_L5_L6.

Theorem C17_L7_L8_L9_symmetric_traceless :
  forall d, dot3 d d = 1 -> forall i j k l, (k < 3)%nat -> (l < 3)%nat ->
    (L7t d i j k l = L7t d j i k l /\ L7t d i j k l = L7t d k l i j) /\
    (L8t d i j k l = L8t d j i k l /\ L8t d i j k l = L8t d k l i j) /\
    (L9t d i j k l = L9t d j i k l /\ L9t d i j k l = L9t d k l i j) /\
    rsum 3 (fun m => L7t d m m k l) = 0 /\ rsum 3 (fun m => L8t d m m k l) = 0 /\ rsum 3 (fun m => L9t d m m k l) = 0.
Proof.
  intros d Hd i j k l Hk Hl.
  exact (conj (L7sym d i j k l) (conj (L8sym d i j k l) (conj (L9sym d i j k l)
        (conj (trace7 d Hd k l) (conj (trace8 d Hd k l Hk Hl) (trace9 d Hd k l Hk Hl)))))).
Qed.
Print Assumptions C17_L7_L8_L9_symmetric_traceless.

Theorem C17_L7_L8_L9_orthogonal_projections :
  forall d, dot3 d d = 1 -> forall i j m n, (i < 3)%nat -> (j < 3)%nat -> (m < 3)%nat -> (n < 3)%nat ->
    let prod (A B : vec -> nat -> nat -> nat -> nat -> R) :=
      rsum 3 (fun k => rsum 3 (fun l => A d i j k l * B d k l m n)) in
    prod L7t L7t = L7t d i j m n /\ prod L8t L8t = L8t d i j m n /\ prod L9t L9t = L9t d i j m n /\
    prod L7t L8t = 0 /\ prod L7t L9t = 0 /\ prod L8t L9t = 0 /\
    L7t d i j m n + L8t d i j m n + L9t d i j m n =
      (delta i m * delta j n + delta i n * delta j m) / 2 - delta i j * delta m n / 3.
Proof.
  intros d Hd i j m n Hi Hj Hm Hn prod.
  exact (conj (L77 d Hd i j m n Hi Hj Hm Hn) (conj (L88 d Hd i j m n Hi Hj Hm Hn) (conj (L99 d Hd i j m n Hi Hj Hm Hn)
        (conj (L78 d Hd i j m n Hi Hj Hm Hn) (conj (L79 d Hd i j m n Hi Hj Hm Hn) (conj (L89 d Hd i j m n Hi Hj Hm Hn)
        (L789 d i j m n))))))).
Qed.
Print Assumptions C17_L7_L8_L9_orthogonal_projections.

Example C17_example : dot3 (v3 (3 / 5) 0 (4 / 5)) (v3 (3 / 5) 0 (4 / 5)) = 1 /\
  L7t (v3 (3 / 5) 0 (4 / 5)) 0 2 0 2 = 3 / 2 * (12 / 25) ^ 2.
Proof. split; [unfold dot3, v3; field|]. unfold L7t, v3, delta. cbn [Nat.eqb]. field. Qed.

(** C18 *)
Theorem C18_tabulated_values :
  forall raw srange scalar gamma ix, increasing srange -> forall t, (t < length srange)%nat ->
    XYZ raw srange scalar gamma (nth t srange 0) ix = raw scalar gamma t ix.
Proof. exact XYZ_node. Qed.
Print Assumptions C18_tabulated_values.

Theorem C18_linear_in_between :
  forall raw srange scalar gamma ix, increasing srange -> forall s t,
    (S t < length srange)%nat -> nth t srange 0 <= s <= nth (S t) srange 0 ->
    XYZ raw srange scalar gamma s ix =
    (raw scalar gamma t ix * (nth (S t) srange 0 - s) + raw scalar gamma (S t) ix * (s - nth t srange 0))
    / (nth (S t) srange 0 - nth t srange 0).
Proof. exact XYZ_segment. Qed.
Print Assumptions C18_linear_in_between.

Theorem C18_between_neighbours :
  forall raw srange scalar gamma ix, increasing srange -> forall s t,
    (S t < length srange)%nat -> nth t srange 0 <= s <= nth (S t) srange 0 ->
    Rmin (raw scalar gamma t ix) (raw scalar gamma (S t) ix) <= XYZ raw srange scalar gamma s ix
    <= Rmax (raw scalar gamma t ix) (raw scalar gamma (S t) ix).
Proof. exact XYZ_between. Qed.
Print Assumptions C18_between_neighbours.

Theorem C18_clamped :
  forall raw srange scalar gamma ix, increasing srange -> forall s, (0 < length srange)%nat ->
    (s <= nth 0 srange 0 -> XYZ raw srange scalar gamma s ix = raw scalar gamma 0%nat ix) /\
    (nth (length srange - 1) srange 0 <= s ->
     XYZ raw srange scalar gamma s ix = raw scalar gamma (length srange - 1)%nat ix).
Proof.
  intros raw srange scalar gamma ix H s Hl.
  exact (conj (XYZ_below raw srange scalar gamma ix H s Hl) (XYZ_above raw srange scalar gamma ix H s Hl)).
Qed.
Print Assumptions C18_clamped.

Example C18_example : increasing [2; 5 / 2; 4] /\ (2 <= 9 / 4 <= 5 / 2) /\
  XYZ (fun _ _ t _ => INR t) [2; 5 / 2; 4] 0 0 (9 / 4) 0 = 1 / 2.
Proof.
  assert (H : increasing [2; 5 / 2; 4]).
  { intros i j Hij Hj. simpl in Hj. destruct j as [|[|[|]]]; destruct i as [|[|[|]]]; simpl; try lra; try lia. }
  split; [exact H|]. split; [lra|].
  rewrite (XYZ_segment _ _ _ _ _ H _ 0); simpl; [field|lia|lra].
Qed.
