(** Property C63: turning and reflecting configurations. *)
From Coq Require Import Reals Arith Bool List Lia Lra FunctionalExtensionality.
From Verif Require Import Base Py Model_Pack Model_Mob Model_Layout Model_Minf Model_Grand Model_Close Model_R2B Model_GrandP
  Spec_Layout Spec_Minf Spec_R2B Spec_Close Spec_Rotate
  Proof_Layout Proof_R2B3 Proof_Close
  Proof_Rotate1 Proof_Rotate2 Proof_Rotate3 Proof_Rotate4 Proof_Rotate5 Proof_Rotate6 Proof_Rotate7 Proof_Rotate8 Proof_Rotate9.
Import ListNotations.
Local Open Scope R_scope.

(** What turning does to the parts of a grand vector: velocities and forces of
    spheres and beads, angular velocities and torques, and the condensed form of
    any symmetric traceless tensor. *)
Theorem C63_turned_parts :
  forall Q Ns Nd v p i,
    ((p < Ns)%nat -> (i < 3)%nat ->
       turn_vec Q Ns v (3 * p + i)%nat = rot Q (fun j => v (3 * p + j)%nat) i /\
       turn_vec Q Ns v (3 * Ns + 3 * p + i)%nat = det3 Q * rot Q (fun j => v (3 * Ns + 3 * p + j)%nat) i) /\
    ((p < 2 * Nd)%nat -> (i < 3)%nat ->
       turn_vec Q Ns v (11 * Ns + 3 * p + i)%nat = rot Q (fun j => v (11 * Ns + 3 * p + j)%nat) i) /\
    (forall S, (forall j k, (j < 3)%nat -> (k < 3)%nat -> S j k = S k j) -> S 0%nat 0%nat + S 1%nat 1%nat + S 2%nat 2%nat = 0 ->
       (p < Ns)%nat -> (i < 5)%nat ->
       (forall m, (m < 5)%nat -> v (6 * Ns + 5 * p + m)%nat = condense_idx S m) ->
       turn_vec Q Ns v (6 * Ns + 5 * p + i)%nat = condense_idx (fun j k => rsum 3 (fun a => rsum 3 (fun b => Q j a * Q k b * S a b))) i).
Proof.
  intros Q Ns Nd v p i. split; [|split].
  - intros Hp Hi. split; [apply (turn_at Q Ns Nd KU p v i Hp Hi)|].
    rewrite (turn_at Q Ns Nd KO p v i Hp Hi : turn_vec Q Ns v (3 * Ns + 3 * p + i)%nat = _).
    unfold rot, mvec. rewrite <- rsum_scal_l. apply rsum_ext. intros. cbn [tmat kstart]. unfold mscal. ring.
  - intros Hp Hi. assert (V : kvalid Ns Nd KB (Ns + p)) by (cbn; lia). pose proof (turn_at Q Ns Nd KB (Ns + p) v i V Hi) as E.
    cbn [kstart] in E. replace (Ns + p - Ns)%nat with p in E by lia. exact E.
  - intros S Sy Tr Hp Hi HS. rewrite (turn_at Q Ns Nd KS p v i Hp Hi : turn_vec Q Ns v (6 * Ns + 5 * p + i)%nat = _).
    change (fun j k => rsum 3 (fun a => rsum 3 (fun b => Q j a * Q k b * S a b))) with (rot2 Q S).
    rewrite (cond_rot Q S i (conj Sy Tr) Hi). apply rsum_ext. intros a Ha. cbn [kstart]. rewrite HS by exact Ha. reflexivity.
Qed.
Print Assumptions C63_turned_parts.

(** Far field: turned forces on the turned configuration give turned
    velocities. *)
Theorem C63_far_field :
  forall Q bb p mu f r,
    let Ns := num_spheres p in let Nd := num_dumbbells p in let n := (11 * Ns + 6 * Nd)%nat in
    orthogonal Q -> distinct_beads (Ns + 2 * Nd) (bead_positions p) (bead_sizes p) -> (r < n)%nat ->
    mvec n (generate_Minfinity bb (turned Q p) mu) (turn_vec Q Ns f) r =
    turn_vec Q Ns (mvec n (generate_Minfinity bb p mu) f) r.
Proof. intros Q bb p mu f r Ns Nd n HQ HD Hr. exact (far_commutes Q HQ bb p mu HD f r Hr). Qed.
Print Assumptions C63_far_field.

(** Near field, including which configurations have no entry in the table. *)
Theorem C63_near_field :
  forall Q sc table bb p cutoff_factor mu,
    let Ns := num_spheres p in let Nd := num_dumbbells p in let n := (11 * Ns + 6 * Nd)%nat in
    orthogonal Q -> distinct_beads (Ns + 2 * Nd) (bead_positions p) (bead_sizes p) -> 0 < cutoff_factor ->
    match generate_R2Bexact_free sc table bb p cutoff_factor mu,
          generate_R2Bexact_free sc table bb (turned Q p) cutoff_factor mu with
    | Some G, Some G' => forall u r, (r < n)%nat -> mvec n G' (turn_vec Q Ns u) r = turn_vec Q Ns (mvec n G u) r
    | None, None => True
    | _, _ => False
    end.
Proof.
  intros Q sc table bb p cf mu Ns Nd n HQ HD Hcf.
  pose proof (near_none Q HQ sc table bb p cf mu Hcf HD) as Z.
  pose proof (near_commutes Q HQ sc table bb p cf mu HD) as K.
  destruct (generate_R2Bexact_free sc table bb p cf mu) as [G|]; destruct (generate_R2Bexact_free sc table bb (turned Q p) cf mu) as [G'|].
  - intros u r Hr. apply (K G G' Hcf eq_refl eq_refl u r Hr).
  - discriminate (proj1 Z eq_refl).
  - discriminate (proj2 Z eq_refl).
  - exact I.
Qed.
Print Assumptions C63_near_field.

(** Both matrices returned by the grand resistance function, and its
    exceptions; [np.linalg.inv] returns inverses, a stored inverse is that of
    the configuration turned alike. *)
Theorem C63_grand_resistance :
  forall Q inv sc table bb p cutoff_factor mu last last' regenerate verbose use_drag minf_only,
    let Ns := num_spheres p in let Nd := num_dumbbells p in let n := (11 * Ns + 6 * Nd)%nat in
    let M := generate_Minfinity bb p mu in let M' := generate_Minfinity bb (turned Q p) mu in
    orthogonal Q -> distinct_beads (Ns + 2 * Nd) (bead_positions p) (bead_sizes p) -> 0 < cutoff_factor ->
    (use_drag = false -> regenerate = true -> is_inv n M (inv n M) /\ is_inv n M' (inv n M')) ->
    (use_drag = false -> regenerate = false ->
       forall u r, (r < n)%nat -> mvec n last' (turn_vec Q Ns u) r = turn_vec Q Ns (mvec n last u) r) ->
    match grand_resistance_free inv sc table bb p last regenerate cutoff_factor verbose use_drag minf_only mu,
          grand_resistance_free inv sc table bb (turned Q p) last' regenerate cutoff_factor verbose use_drag minf_only mu with
    | Ok (G, mi), Ok (G', mi') =>
        forall u r, (r < n)%nat ->
          mvec n G' (turn_vec Q Ns u) r = turn_vec Q Ns (mvec n G u) r /\
          mvec n mi' (turn_vec Q Ns u) r = turn_vec Q Ns (mvec n mi u) r
    | Raise x, Raise y => x = y
    | _, _ => False
    end.
Proof.
  intros Q inv sc table bb p cf mu last last' rg vb ud mo Ns Nd n M M' HQ HD Hcf HI HL.
  pose proof (grand_turned Q HQ inv sc table bb p cf mu HD last last' rg vb ud mo Hcf HI HL) as K.
  destruct (grand_resistance_free inv sc table bb p last rg cf vb ud mo mu) as [[G mi]|x];
  destruct (grand_resistance_free inv sc table bb (turned Q p) last' rg cf vb ud mo mu) as [[G' mi']|y]; try exact K.
  intros u r Hr. destruct K as [K1 K2]. split; [apply K1|apply K2]; exact Hr.
Qed.
Print Assumptions C63_grand_resistance.

(** If the far field matrix of the configuration is invertible, so is that of
    the turned one. *)
Theorem C63_invertible :
  forall Q bb p mu I,
    let Ns := num_spheres p in let Nd := num_dumbbells p in let n := (11 * Ns + 6 * Nd)%nat in
    orthogonal Q -> distinct_beads (Ns + 2 * Nd) (bead_positions p) (bead_sizes p) ->
    is_inv n (generate_Minfinity bb p mu) I -> exists I', is_inv n (generate_Minfinity bb (turned Q p) mu) I'.
Proof. intros Q bb p mu I Ns Nd n HQ HD HI. exact (turned_invertible Q HQ bb p mu HD I HI). Qed.
Print Assumptions C63_invertible.

(** Spheres and dumbbells in a plane: forces in the plane with torques normal
    to it give velocities in the plane, in the far field ... *)
Theorem C63_planar_far_field :
  forall bb p mu f,
    let Ns := num_spheres p in let Nd := num_dumbbells p in
    planar_configuration p -> distinct_beads (Ns + 2 * Nd) (bead_positions p) (bead_sizes p) ->
    planar_vec Ns Nd f -> planar_vec Ns Nd (mvec (11 * Ns + 6 * Nd) (generate_Minfinity bb p mu) f).
Proof.
  intros bb p mu f Ns Nd HP HD Hf. apply planar_preserved; [|exact Hf].
  pose proof (far_commutes mirror_z mirror_orthogonal bb p mu HD) as K. rewrite (planar_fixed p HP) in K. exact K.
Qed.
Print Assumptions C63_planar_far_field.
(** ... and with lubrication. *)
Theorem C63_planar_grand_resistance :
  forall inv sc table bb p cutoff_factor mu verbose use_drag minf_only G mi v,
    let Ns := num_spheres p in let Nd := num_dumbbells p in let n := (11 * Ns + 6 * Nd)%nat in
    let M := generate_Minfinity bb p mu in
    planar_configuration p -> distinct_beads (Ns + 2 * Nd) (bead_positions p) (bead_sizes p) -> 0 < cutoff_factor ->
    (use_drag = false -> is_inv n M (inv n M)) ->
    grand_resistance_free inv sc table bb p mzero true cutoff_factor verbose use_drag minf_only mu = Ok (G, mi) ->
    planar_vec Ns Nd v -> planar_vec Ns Nd (mvec n G v).
Proof.
  intros inv sc table bb p cf mu vb ud mo G mi v Ns Nd n M HP HD Hcf HI E Hv. apply planar_preserved; [|exact Hv].
  assert (HI2 : ud = false -> true = true -> is_inv n (generate_Minfinity bb p mu) (inv n (generate_Minfinity bb p mu)) /\
      is_inv n (generate_Minfinity bb (turned mirror_z p) mu) (inv n (generate_Minfinity bb (turned mirror_z p) mu))).
  { intros U _. rewrite (planar_fixed p HP). split; apply HI; exact U. }
  pose proof (grand_turned mirror_z mirror_orthogonal inv sc table bb p cf mu HD mzero mzero true vb ud mo Hcf HI2 ltac:(discriminate)) as K.
  rewrite (planar_fixed p HP), E in K. apply K.
Qed.
Print Assumptions C63_planar_grand_resistance.

(** Two spheres and a dumbbell in the plane z = 0; a turn by an angle with
    cosine 3/5 about an axis, a reflection. *)
Definition ex_pos : posdata :=
  mkPos 2 1 (fun _ => 1) (fun i => v3 (5 / 2 * INR i) 0 0) (fun _ => 1) (fun _ => v3 0 22 0) (fun _ => v3 0 38 0).
Definition ex_turn : mat := fun i j =>
  match i, j with
  | 0%nat, 0%nat => 3 / 5 | 0%nat, 2%nat => - (4) / 5 | 1%nat, 1%nat => 1 | 2%nat, 0%nat => 4 / 5 | 2%nat, 2%nat => 3 / 5 | _, _ => 0
  end.
Lemma ex_sizes b : bead_sizes ex_pos b = 1.
Proof. unfold bead_sizes, ex_pos. simpl. destruct b as [|[|[|]]]; reflexivity. Qed.
Lemma norm_big v k : (k < 3)%nat -> 1 < v k ^ 2 -> / 10 ^ 10 < norm v.
Proof.
  intros Hk H. apply (Rlt_trans _ 1).
  - rewrite <- Rinv_1. apply Rinv_lt_contravar; [|apply Rlt_pow_R1; [lra|lia]]. rewrite Rmult_1_l. apply pow_lt. lra.
  - unfold norm. rewrite <- sqrt_1. apply sqrt_lt_1_alt. pose proof (pow2_ge_0 (v 0%nat)). pose proof (pow2_ge_0 (v 1%nat)). pose proof (pow2_ge_0 (v 2%nat)).
    idx3 Hk; lra.
Qed.
Lemma ex_distinct : distinct_beads 4 (bead_positions ex_pos) (bead_sizes ex_pos).
Proof.
  split; [intros; rewrite ex_sizes; lra|].
  intros p b Hp Hb N.
  assert (S : forall p b, (p < b)%nat -> (b < 4)%nat -> / 10 ^ 10 < norm (vsub (bead_positions ex_pos p) (bead_positions ex_pos b))).
  { intros p0 b0 L H. destruct b0 as [|[|[|[|b0]]]]; try lia; destruct p0 as [|[|[|p0]]]; try lia.
    - apply (norm_big _ 0 ltac:(lia)). unfold bead_positions, ex_pos, vsub, v3. simpl. lra.
    - apply (norm_big _ 1 ltac:(lia)). unfold bead_positions, ex_pos, vsub, vadd, vscal, v3. simpl. lra.
    - apply (norm_big _ 1 ltac:(lia)). unfold bead_positions, ex_pos, vsub, vadd, vscal, v3. simpl. lra.
    - apply (norm_big _ 1 ltac:(lia)). unfold bead_positions, ex_pos, vsub, vadd, vscal, v3. simpl. lra.
    - apply (norm_big _ 1 ltac:(lia)). unfold bead_positions, ex_pos, vsub, vadd, vscal, v3. simpl. lra.
    - apply (norm_big _ 1 ltac:(lia)). unfold bead_positions, ex_pos, vsub, vadd, vscal, v3. simpl. lra. }
  destruct (lt_dec p b) as [L|L]; [apply S; lia|].
  replace (norm (vsub (bead_positions ex_pos p) (bead_positions ex_pos b))) with (norm (vsub (bead_positions ex_pos b) (bead_positions ex_pos p))).
  - apply S; lia.
  - unfold norm, vsub. f_equal. ring.
Qed.
Lemma found1 : lam_index [1] 1 = Some 0%nat.
Proof.
  unfold lam_index, lam_index_from, isclose. replace (Rleb _ _) with true; [reflexivity|]. symmetry. apply Rleb_spec.
  replace (1 - 1) with 0 by ring. rewrite Rabs_R0, Rabs_R1.
  assert (0 < / 10 ^ 8) by (apply Rinv_0_lt_compat, pow_lt; lra).
  assert (0 < / 10 ^ 5) by (apply Rinv_0_lt_compat, pow_lt; lra). lra.
Qed.
Example C63_example : forall sc,
  orthogonal ex_turn /\ det3 ex_turn = 1 /\ orthogonal mirror_z /\ det3 mirror_z = -1 /\
  distinct_beads 4 (bead_positions ex_pos) (bead_sizes ex_pos) /\ planar_configuration ex_pos /\
  sphere_positions (turned ex_turn ex_pos) 1%nat 2%nat = 2 /\
  (exists G, generate_R2Bexact_free sc [1] true ex_pos 2 1 = Some G) /\
  turn_vec ex_turn 2 (fun i => if Nat.eqb i 3 then 5 else 0) 5%nat = 4 /\
  planar_vec 2 1 (fun i => if Nat.eqb i 0 then 1 else 0).
Proof.
  intros sc. split; [|split; [|split; [|split; [|split; [|split; [|split; [|split; [|split]]]]]]]].
  - intros i j Hi Hj. split; unfold mmul, mtr, ex_turn, delta, rsum; idx3 Hi; idx3 Hj; cbn [Nat.eqb]; field.
  - unfold det3, ex_turn. field.
  - exact mirror_orthogonal.
  - exact mirror_det.
  - exact ex_distinct.
  - split; [|split]; intros i; do 2 eexists; reflexivity.
  - unfold turned, rot, mvec, ex_pos, ex_turn, rsum, v3. cbn [sphere_positions]. simpl. field.
  - unfold generate_R2Bexact_free, generate_R2Bexact.
    destruct (generate_R2Bexact_loop sc [1] true _ _ _ _) as [M|] eqn:E; [eexists; reflexivity|exfalso].
    apply (loop_fails_iff sc [1] true _ _ _ _ 4) in E.
    + destruct E as (t & Ht & E). apply free_in in Ht. destruct Ht as (_ & _ & Et).
      assert (R1 : cp_ratio t = 1) by (rewrite Et; cbn [cp_ratio free_record]; rewrite !ex_sizes; field).
      rewrite R1 in E. replace (1 / 1) with 1 in E by field. rewrite found1 in E. destruct E; discriminate.
    + apply free_close_list. lra.
    + intros b _. rewrite ex_sizes. lra.
  - unfold turn_vec. simpl. unfold rot, mvec, rsum, ex_turn. simpl. field.
  - split.
    + intros p Hp. repeat split; destruct p as [|[|p]]; try lia; reflexivity.
    + intros d Hd. destruct d as [|[|d]]; try lia; reflexivity.
Qed.
