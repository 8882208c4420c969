(** Property C66: the unit of length. *)
From Coq Require Import Reals Arith Bool List Lia Lra FunctionalExtensionality.
From Verif Require Import Base Py Model_Pack Model_Mob Model_Layout Model_Minf Model_Grand Model_Close Model_R2B Model_GrandP
  Spec_Layout Spec_Minf Spec_R2B Spec_Close Spec_Rescale
  Proof_Layout Proof_Minf Proof_Minf2 Proof_R2B3 Proof_Close Proof_Rescale1 Proof_Rescale2.
Import ListNotations.
Local Open Scope R_scope.

(** Far field. *)
Theorem C66_far_field :
  forall h bb p mu,
    let Ns := num_spheres p in let Nd := num_dumbbells p in let nb := (Ns + 2 * Nd)%nat in
    0 < h -> mu <> 0 -> (forall b, (b < nb)%nat -> 0 < bead_sizes p b) ->
    apart nb (bead_positions p) -> apart nb (bead_positions (rescaled h p)) ->
    mobility_rescaled h Ns (11 * Ns + 6 * Nd) (generate_Minfinity bb p mu) (generate_Minfinity bb (rescaled h p) mu).
Proof.
  intros h bb p mu Ns Nd nb Hh Hmu Ha HX HX'. apply blocks_mobility. rewrite (positions_fun h) in HX'. apply far_scaled; assumption.
Qed.
Print Assumptions C66_far_field.

(** Near field: same pairs, same entries of the table. *)
Theorem C66_near_field :
  forall h sc table bb p cutoff_factor mu,
    let Ns := num_spheres p in let Nd := num_dumbbells p in let nb := (Ns + 2 * Nd)%nat in
    0 < h -> 0 < cutoff_factor -> (forall b, (b < nb)%nat -> 0 < bead_sizes p b) -> apart nb (bead_positions p) ->
    match generate_R2Bexact_free sc table bb p cutoff_factor mu,
          generate_R2Bexact_free sc table bb (rescaled h p) cutoff_factor mu with
    | Some G, Some G' => resistance_rescaled h Ns (11 * Ns + 6 * Nd) G G'
    | None, None => True
    | _, _ => False
    end.
Proof.
  intros h sc table bb p cf mu Ns Nd nb Hh Hcf Ha HX.
  pose proof (near_none_scal h Hh bb p mu Ha sc table cf Hcf) as Z.
  pose proof (near_scaled h Hh bb p mu Ha HX sc table cf Hcf) as K.
  destruct (generate_R2Bexact_free sc table bb p cf mu) as [G|]; destruct (generate_R2Bexact_free sc table bb (rescaled h p) cf mu) as [G'|].
  - apply blocks_resistance. apply K; reflexivity.
  - discriminate (proj1 Z eq_refl).
  - discriminate (proj2 Z eq_refl).
  - exact I.
Qed.
Print Assumptions C66_near_field.

(** Both matrices returned by the grand resistance function, and its
    exceptions; the diagonal drag matrix included. *)
Theorem C66_grand_resistance :
  forall h inv sc table bb p cutoff_factor mu last last' regenerate verbose use_drag minf_only,
    let Ns := num_spheres p in let Nd := num_dumbbells p in let nb := (Ns + 2 * Nd)%nat in let n := (11 * Ns + 6 * Nd)%nat in
    let M := generate_Minfinity bb p mu in let M' := generate_Minfinity bb (rescaled h p) mu in
    0 < h -> 0 < cutoff_factor -> mu <> 0 -> (forall b, (b < nb)%nat -> 0 < bead_sizes p b) ->
    apart nb (bead_positions p) -> apart nb (bead_positions (rescaled h p)) ->
    (use_drag = false -> regenerate = true -> is_inv n M (inv n M) /\ is_inv n M' (inv n M')) ->
    (use_drag = false -> regenerate = false -> resistance_rescaled h Ns n last last') ->
    match grand_resistance_free inv sc table bb p last regenerate cutoff_factor verbose use_drag minf_only mu,
          grand_resistance_free inv sc table bb (rescaled h p) last' regenerate cutoff_factor verbose use_drag minf_only mu with
    | Ok (G, mi), Ok (G', mi') => resistance_rescaled h Ns n G G' /\ resistance_rescaled h Ns n mi mi'
    | Raise x, Raise y => x = y
    | _, _ => False
    end.
Proof.
  intros h inv sc table bb p cf mu last last' rg vb ud mo Ns Nd nb n M M' Hh Hcf Hmu Ha HX HX' HI HL. unfold grand_resistance_free.
  assert (C : resistance_rescaled h Ns n (Minfinity_inverse inv bb p mu ud rg last) (Minfinity_inverse inv bb (rescaled h p) mu ud rg last')).
  { unfold Minfinity_inverse. destruct ud; [apply blocks_resistance, drag_scaled|]. destruct rg; [|apply HL; reflexivity].
    destruct (HI eq_refl eq_refl) as [A B]. change (num_spheres (rescaled h p)) with Ns. change (num_dumbbells (rescaled h p)) with Nd. fold Ns Nd n.
    apply (inv_scaled h Hh Ns n M M' _ _); [|exact A|exact B]. apply (C66_far_field h bb p mu); assumption. }
  set (mi := Minfinity_inverse inv bb p mu ud rg last) in *. set (mi' := Minfinity_inverse inv bb (rescaled h p) mu ud rg last') in *.
  clearbody mi mi'. unfold add_near, bind. destruct mo.
  - destruct (vb && (ud || negb rg))%bool; [reflexivity|]. split; exact C.
  - pose proof (C66_near_field h sc table bb p cf mu Hh Hcf Ha HX) as K. cbv zeta in K. fold Ns Nd n in K.
    destruct (generate_R2Bexact_free sc table bb p cf mu) as [G|]; destruct (generate_R2Bexact_free sc table bb (rescaled h p) cf mu) as [G'|]; try contradiction.
    + destruct (vb && (ud || negb rg))%bool; [reflexivity|]. split; [|exact C].
      intros r c Hr Hc. unfold madd. rewrite (K r c Hr Hc), (C r c Hr Hc). ring.
    + reflexivity.
Qed.
Print Assumptions C66_grand_resistance.

(** What this means for motion: forces F, torques h T and stresslets h S on the
    enlarged configuration give velocities U/h, angular velocities O/h^2 and
    strains E/h^2. *)
Theorem C66_motion :
  forall h bb p mu f r,
    let Ns := num_spheres p in let Nd := num_dumbbells p in let nb := (Ns + 2 * Nd)%nat in let n := (11 * Ns + 6 * Nd)%nat in
    0 < h -> mu <> 0 -> (forall b, (b < nb)%nat -> 0 < bead_sizes p b) ->
    apart nb (bead_positions p) -> apart nb (bead_positions (rescaled h p)) -> (r < n)%nat ->
    mvec n (generate_Minfinity bb (rescaled h p) mu) (fun c => weight h Ns c * f c) r
    = mvec n (generate_Minfinity bb p mu) f r / (h * weight h Ns r).
Proof.
  intros h bb p mu f r Ns Nd nb n Hh Hmu Ha HX HX' Hr. unfold mvec, Rdiv. rewrite <- rsum_scal_r. apply rsum_ext. intros c Hc.
  rewrite (C66_far_field h bb p mu Hh Hmu Ha HX HX' r c Hr Hc). fold Ns. field.
  pose proof (weight_pos h Hh Ns r). pose proof (weight_pos h Hh Ns c). repeat split; lra.
Qed.
Print Assumptions C66_motion.

(** If the far field matrix is invertible it stays so. *)
Theorem C66_invertible :
  forall h bb p mu I,
    let Ns := num_spheres p in let Nd := num_dumbbells p in let nb := (Ns + 2 * Nd)%nat in let n := (11 * Ns + 6 * Nd)%nat in
    0 < h -> mu <> 0 -> (forall b, (b < nb)%nat -> 0 < bead_sizes p b) ->
    apart nb (bead_positions p) -> apart nb (bead_positions (rescaled h p)) ->
    is_inv n (generate_Minfinity bb p mu) I -> exists I', is_inv n (generate_Minfinity bb (rescaled h p) mu) I'.
Proof.
  intros h bb p mu I Ns Nd nb n Hh Hmu Ha HX HX' HI. apply (inv_exists h Hh Ns n (generate_Minfinity bb p mu) _ I); [|exact HI].
  apply C66_far_field; assumption.
Qed.
Print Assumptions C66_invertible.

(** Finding: the threshold 1e-8 below which overlaps are not repaired is a
    length.  Two overlapping unit spheres 1e-9 apart are treated differently
    after all lengths have been multiplied by 100. *)
Definition ex_overlap : posdata :=
  mkPos 2 0 (fun _ => 1) (fun i => v3 (INR i * / 10 ^ 9) 0 0) (fun _ => 1) (fun _ => v3 0 0 0) (fun _ => v3 0 0 0).
Lemma p9 : 0 < / 10 ^ 9. Proof. apply Rinv_0_lt_compat, pow_lt. lra. Qed.
Lemma sep9 h : 0 <= h -> norm (vsub (vscal h (v3 (INR 0 * / 10 ^ 9) 0 0)) (vscal h (v3 (INR 1 * / 10 ^ 9) 0 0))) = h * / 10 ^ 9.
Proof.
  intros H. unfold norm, vsub, vscal. cbn [v3]. simpl INR. set (e := / 10 ^ 9). assert (0 < e) by exact p9. clearbody e.
  match goal with |- sqrt ?z = _ => replace z with ((h * e) ^ 2) by ring end. apply sqrt_pow2. nra.
Qed.
Lemma two_apart (z : R) (x : nat -> vec) : z < norm (vsub (x 0%nat) (x 1%nat)) ->
  forall p q, (p < 2)%nat -> (q < 2)%nat -> p <> q -> z < norm (vsub (x p) (x q)).
Proof.
  intros H p q Hp Hq N. destruct p as [|[|]], q as [|[|]]; try lia; [exact H|].
  replace (norm (vsub (x 1%nat) (x 0%nat))) with (norm (vsub (x 0%nat) (x 1%nat))); [exact H|]. unfold norm, vsub. f_equal. ring.
Qed.
Theorem C66_threshold_refuted :
  0 < 100 /\ (forall b, (b < 2)%nat -> 0 < bead_sizes ex_overlap b) /\
  distinct_beads 2 (bead_positions ex_overlap) (bead_sizes ex_overlap) /\
  apart 2 (bead_positions (rescaled 100 ex_overlap)) /\
  ~ mobility_rescaled 100 2 22 (generate_Minfinity true ex_overlap 1) (generate_Minfinity true (rescaled 100 ex_overlap) 1).
Proof.
  assert (E1 : vscal 1 = fun v => v) by (apply functional_extensionality; intros v; apply functional_extensionality; intros t; unfold vscal; ring).
  assert (S1 : norm (vsub (bead_positions ex_overlap 0) (bead_positions ex_overlap 1)) = / 10 ^ 9).
  { pose proof (sep9 1 ltac:(lra)) as E. rewrite E1 in E. change (bead_positions ex_overlap 0) with (v3 (INR 0 * / 10 ^ 9) 0 0).
    change (bead_positions ex_overlap 1) with (v3 (INR 1 * / 10 ^ 9) 0 0). lra. }
  assert (S2 : norm (vsub (bead_positions (rescaled 100 ex_overlap) 0) (bead_positions (rescaled 100 ex_overlap) 1)) = 100 * / 10 ^ 9).
  { rewrite !bead_positions_rescaled. exact (sep9 100 ltac:(lra)). }
  assert (L9 : / 10 ^ 10 < / 10 ^ 9).
  { apply Rinv_lt_contravar; [apply Rmult_lt_0_compat; apply pow_lt; lra|apply Rlt_pow; [lra|lia]]. }
  assert (L8 : 100 * / 10 ^ 9 = 10 * / 10 ^ 8) by (simpl; field).
  assert (P8 : 0 < / 10 ^ 8) by (apply Rinv_0_lt_compat, pow_lt; lra).
  assert (D1 : distinct_beads 2 (bead_positions ex_overlap) (bead_sizes ex_overlap)).
  { split; [intros b _; unfold bead_sizes; simpl; destruct b as [|[|]]; simpl; lra|]. apply two_apart. rewrite S1. exact L9. }
  assert (A2 : apart 2 (bead_positions (rescaled 100 ex_overlap))).
  { unfold apart. apply two_apart. rewrite S2, L8. lra. }
  assert (D2 : distinct_beads 2 (bead_positions (rescaled 100 ex_overlap)) (bead_sizes (rescaled 100 ex_overlap))).
  { split; [intros b _; rewrite bead_sizes_rescaled; unfold bead_sizes; simpl; destruct b as [|[|]]; simpl; lra|].
    intros p q Hp Hq N. pose proof (A2 p q Hp Hq N). lra. }
  split; [lra|]. split; [exact (proj1 D1)|]. split; [exact D1|]. split; [exact A2|].
  intros H. specialize (H 0%nat 3%nat ltac:(lia) ltac:(lia)).
  change (generate_Minfinity true (rescaled 100 ex_overlap) 1 0%nat 3%nat) with
    (ent 2 (generate_Minfinity_loop true (bead_positions (rescaled 100 ex_overlap)) (bead_sizes (rescaled 100 ex_overlap)) 2 0 (1 / (8 * PI * 1)) 1) KU 0 KU 1 0 0) in H.
  change (generate_Minfinity true ex_overlap 1 0%nat 3%nat) with
    (ent 2 (generate_Minfinity_loop true (bead_positions ex_overlap) (bead_sizes ex_overlap) 2 0 (1 / (8 * PI * 1)) 1) KU 0 KU 1 0 0) in H.
  rewrite loop_entry in H by (exact D2 || (cbn; lia)). rewrite loop_entry in H by (exact D1 || (cbn; lia)).
  unfold bead_mobility, pmob in H.
  assert (W1 : weight 100 2 0 = 1) by reflexivity. assert (W2 : weight 100 2 3 = 1) by reflexivity. rewrite W1, W2 in H.
  assert (B0 : forall b, (b < 2)%nat -> bead_sizes ex_overlap b = 1) by (intros b Hb; destruct b as [|[|]]; [reflexivity|reflexivity|lia]).
  rewrite !bead_sizes_rescaled, !B0 in H by lia.
  set (c := 1 / (8 * PI * 1)) in H. assert (Hc : 0 < c) by (unfold c; pose proof PI_RGT_0; apply Rdiv_lt_0_compat; lra). clearbody c.
  unfold pair_geometry in H. rewrite S1, S2 in H.
  destruct (Rlt_dec (/ 10 ^ 8) (100 * / 10 ^ 9)) as [_|N]; [|lra].
  destruct (Rlt_dec (/ 10 ^ 8) (/ 10 ^ 9)) as [N|_]; [exfalso; lra|].
  destruct (Rlt_dec (2 * (100 * / 10 ^ 9) / (100 * 1 + 100 * 1)) (2001 / 1000)) as [_|N]; [|exfalso; apply N; simpl; lra].
  cbn [fst snd v3] in H. unfold M11 in H.
  assert (T1 : tiny < / 10 ^ 9) by exact L9. destruct (Rlt_dec tiny (/ 10 ^ 9)) as [_|N]; [|contradiction].
  assert (T2 : tiny < 2001 / 1000 * (100 * 1 + 100 * 1) / 2) by (apply (Rlt_trans _ _ _ T1); simpl; lra).
  destruct (Rlt_dec tiny (2001 / 1000 * (100 * 1 + 100 * 1) / 2)) as [_|N]; [|contradiction].
  assert (R1 : vsub (bead_positions ex_overlap 0) (bead_positions ex_overlap 1) 0%nat = - / 10 ^ 9).
  { unfold vsub. change (bead_positions ex_overlap 0 0%nat) with (INR 0 * / 10 ^ 9). change (bead_positions ex_overlap 1 0%nat) with (INR 1 * / 10 ^ 9). simpl INR. ring. }
  assert (R2 : vsub (bead_positions (rescaled 100 ex_overlap) 0) (bead_positions (rescaled 100 ex_overlap) 1) 0%nat = - (100 * / 10 ^ 9)).
  { rewrite !bead_positions_rescaled. unfold vsub, vscal in *. lra. }
  rewrite R1, R2 in H. unfold J, Lap_J in H. change (delta 0 0) with 1 in H.
  set (e := / 10 ^ 9) in *.
  assert (He : 0 < e) by exact p9.
  assert (He1 : e < 1 / 1000000). { unfold e. simpl. lra. }
  assert (X1 : c * (1 / e + - e * - e / e ^ 3 + (1 ^ 2 + 1 ^ 2) / 6 * (2 * 1 / e ^ 3 - 6 * - e * - e / e ^ 5)) = c * (2 / e - 4 / 3 / e ^ 3)) by (field; lra).
  rewrite X1 in H.
  assert (X2 : 2 / e - 4 / 3 / e ^ 3 < 0).
  { replace (2 / e - 4 / 3 / e ^ 3) with ((2 * e ^ 2 - 4 / 3) * / e ^ 3) by (field; lra).
    assert (0 < / e ^ 3) by (apply Rinv_0_lt_compat, pow_lt; exact He). nra. }
  clearbody e.
  match type of H with ?A = ?B => assert (B < 0) end.
  { replace (c * (2 / e - 4 / 3 / e ^ 3) / (100 * 1 * 1)) with (c * / 100 * (2 / e - 4 / 3 / e ^ 3)) by (field; lra).
    assert (0 < c * / 100) by (apply Rmult_lt_0_compat; lra). nra. }
  match type of H with ?A = ?B => assert (0 < A) end.
  { apply Rmult_lt_0_compat; [exact Hc|]. set (w := 2001 / 1000 * (100 * 1 + 100 * 1) / 2).
    assert (Ew : w = 2001 / 10) by (unfold w; field).
    replace (- (100 * e) * w / (100 * e)) with (- w) by (field; lra). clearbody w. subst w. lra. }
  lra.
Qed.
Print Assumptions C66_threshold_refuted.

(** Two touching spheres of different radii and a dumbbell, enlarged 3 times. *)
Definition ex_pos : posdata :=
  mkPos 2 1 (fun i => 1 + INR i) (fun i => v3 (4 * INR i) 0 0) (fun _ => 1) (fun _ => v3 0 22 0) (fun _ => v3 0 38 0).
Lemma norm_big z v k : 0 <= z -> (k < 3)%nat -> z ^ 2 < v k ^ 2 -> z < norm v.
Proof.
  intros Hz Hk H. unfold norm. rewrite <- (sqrt_pow2 z) by exact Hz. apply sqrt_lt_1_alt.
  pose proof (pow2_ge_0 (v 0%nat)). pose proof (pow2_ge_0 (v 1%nat)). pose proof (pow2_ge_0 (v 2%nat)). pose proof (pow2_ge_0 z).
  idx3 Hk; lra.
Qed.
Lemma ex_far p b : (p < 4)%nat -> (b < 4)%nat -> p <> b -> 1 < norm (vsub (bead_positions ex_pos p) (bead_positions ex_pos b)).
Proof.
  assert (S : forall p b, (p < b)%nat -> (b < 4)%nat -> 1 < norm (vsub (bead_positions ex_pos p) (bead_positions ex_pos b))).
  { intros p0 b0 L H. destruct b0 as [|[|[|[|b0]]]]; try lia; destruct p0 as [|[|[|p0]]]; try lia.
    - apply (norm_big _ _ 0); [lra|lia|]. unfold bead_positions, ex_pos, vsub, v3. simpl. lra.
    - apply (norm_big _ _ 1); [lra|lia|]. unfold bead_positions, ex_pos, vsub, vadd, vscal, v3. simpl. lra.
    - apply (norm_big _ _ 1); [lra|lia|]. unfold bead_positions, ex_pos, vsub, vadd, vscal, v3. simpl. lra.
    - apply (norm_big _ _ 1); [lra|lia|]. unfold bead_positions, ex_pos, vsub, vadd, vscal, v3. simpl. lra.
    - apply (norm_big _ _ 1); [lra|lia|]. unfold bead_positions, ex_pos, vsub, vadd, vscal, v3. simpl. lra.
    - apply (norm_big _ _ 1); [lra|lia|]. unfold bead_positions, ex_pos, vsub, vadd, vscal, v3. simpl. lra. }
  intros Hp Hb N. destruct (lt_dec p b) as [L|L]; [apply S; lia|].
  replace (norm (vsub (bead_positions ex_pos p) (bead_positions ex_pos b))) with (norm (vsub (bead_positions ex_pos b) (bead_positions ex_pos p))).
  - apply S; lia.
  - unfold norm, vsub. f_equal. ring.
Qed.
Example C66_example :
  (forall b, (b < 4)%nat -> 0 < bead_sizes ex_pos b) /\ apart 4 (bead_positions ex_pos) /\ apart 4 (bead_positions (rescaled 3 ex_pos)) /\
  sphere_sizes (rescaled 3 ex_pos) 1%nat = 6 /\ sphere_positions (rescaled 3 ex_pos) 1%nat 0%nat = 12 /\
  scaled_distance (bead_positions ex_pos) (bead_sizes ex_pos) 0 1 = 8 / 3 /\
  weight 3 2 5 = 1 /\ weight 3 2 6 = 3 /\ weight 3 2 21 = 3 /\ weight 3 2 22 = 1.
Proof.
  assert (P8 : / 10 ^ 8 < 1) by (simpl; lra).
  split; [|split; [|split; [|split; [|split; [|split; [|repeat split]]]]]].
  - intros b Hb. unfold bead_sizes, ex_pos. simpl. destruct b as [|[|[|]]]; simpl; lra.
  - intros p q Hp Hq N. pose proof (ex_far p q Hp Hq N). lra.
  - intros p q Hp Hq N. rewrite !bead_positions_rescaled, vsub_vscal, (norm_vscal 3 ltac:(lra)). pose proof (ex_far p q Hp Hq N). lra.
  - unfold rescaled, ex_pos. simpl. lra.
  - unfold rescaled, ex_pos, vscal. simpl. lra.
  - unfold scaled_distance, bead_sizes, bead_positions, ex_pos, vsub, norm. simpl.
    match goal with |- context [sqrt ?z] => replace (sqrt z) with 4 end; [field|].
    symmetry. match goal with |- sqrt ?z = _ => replace z with (4 ^ 2) by ring end. apply sqrt_pow2. lra.
Qed.
