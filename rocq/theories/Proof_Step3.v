(** The orientation update for all spheres. *)
From Coq Require Import Reals Arith Bool List Lia Lra FunctionalExtensionality.
From Verif Require Import Base Model_Mob Model_Close Model_Step Spec_Step Proof_Close Proof_Step Proof_Step2.
Local Open Scope R_scope.

Lemma zero3_false w : (exists l, (l < 3)%nat /\ w l <> 0) -> is_zero3 w = false.
Proof.
  intros (l & Hl & H). destruct (is_zero3 w) eqn:E; [|reflexivity]. rewrite zero3_spec in E. exfalso. apply H, E, Hl.
Qed.

Section Rot.
Variables (inv : mat -> mat) (pos new_pos : nat -> vec) (rot : nat -> nat -> vec) (Oa : nat -> vec) (dt : R).
Hypothesis Hinv : inverts inv.
Definition arm_ok i j := exists l, (l < 3)%nat /\ rot i j l <> pos i l.
Let new := euler_timestep_rotation inv pos rot new_pos Oa dt.

Lemma new_arm i j l : arm_ok i j -> (l < 3)%nat ->
  vsub (new i j) (new_pos i) l = rodrigues (Oa i) (norm (Oa i) * dt) (vsub (rot i j) (pos i)) l.
Proof.
  intros Hne Hl. unfold new, euler_timestep_rotation, vsub at 1. rewrite rotate_general; auto. ring.
Qed.
Lemma new_dot i j j' : arm_ok i j -> arm_ok i j' -> dot3 (vsub (new i j) (new_pos i)) (vsub (new i j') (new_pos i)) =
                       dot3 (vsub (rot i j) (pos i)) (vsub (rot i j') (pos i)).
Proof.
  intros Hne Hne'. unfold dot3 at 1. rewrite !new_arm by (assumption || lia).
  exact (rodrigues_dot_any (Oa i) _ dt (vsub (rot i j) (pos i)) (vsub (rot i j') (pos i)) eq_refl).
Qed.
Lemma new_axis i j : arm_ok i j -> dot3 (Oa i) (vsub (new i j) (new_pos i)) = dot3 (Oa i) (vsub (rot i j) (pos i)).
Proof.
  intros Hne. unfold dot3 at 1. rewrite !new_arm by (assumption || lia). destruct (is_zero3 (Oa i)) eqn:H.
  - rewrite zero3_spec in H. unfold dot3. rewrite !H by lia. ring.
  - exact (rodrigues_axis (Oa i) _ (vsub (rot i j) (pos i)) H).
Qed.
Lemma new_still i j l : arm_ok i j -> (l < 3)%nat -> (forall l, (l < 3)%nat -> Oa i l = 0) ->
  new i j l = rot i j l + (new_pos i l - pos i l).
Proof.
  intros Hne Hl H. unfold new, euler_timestep_rotation. rewrite rotate_zero; auto.
  - unfold vsub. ring.
  - apply zero3_spec. exact H.
Qed.
Lemma new_ne i j : arm_ok i j -> exists l, (l < 3)%nat /\ new i j l <> new_pos i l.
Proof.
  intros Hne. pose proof (new_dot i j j Hne Hne) as D. destruct Hne as (l & Hl & H).
  assert (P : dot3 (vsub (rot i j) (pos i)) (vsub (rot i j) (pos i)) <> 0).
  { intros Z. assert (V : vsub (rot i j) (pos i) l <> 0) by (unfold vsub; lra). unfold dot3 in Z.
    apply V. idx3 Hl; nra. }
  destruct (Req_dec (new i j 0%nat) (new_pos i 0%nat)) as [E0|N0]; [|exists 0%nat; split; [lia|exact N0]].
  destruct (Req_dec (new i j 1%nat) (new_pos i 1%nat)) as [E1|N1]; [|exists 1%nat; split; [lia|exact N1]].
  destruct (Req_dec (new i j 2%nat) (new_pos i 2%nat)) as [E2|N2]; [|exists 2%nat; split; [lia|exact N2]].
  exfalso. apply P. rewrite <- D. unfold dot3, vsub. rewrite E0, E1, E2. ring.
Qed.
End Rot.

Lemma norm_dot v : norm v = sqrt (dot3 v v).
Proof. unfold norm, dot3. f_equal. ring. Qed.

Lemma new_length inv pos new_pos rot Oa dt i j :
  inverts inv -> arm_ok pos rot i j ->
  norm (vsub (euler_timestep_rotation inv pos rot new_pos Oa dt i j) (new_pos i)) = norm (vsub (rot i j) (pos i)).
Proof. intros Hi Hne. rewrite !norm_dot, new_dot by assumption. reflexivity. Qed.

Lemma new_derivative inv pos rot Oa i j l :
  inverts inv -> arm_ok pos rot i j -> (l < 3)%nat ->
  derivable_pt_lim (fun dt => euler_timestep_rotation inv pos rot pos Oa dt i j l) 0
    (cross (Oa i) (vsub (rot i j) (pos i)) l).
Proof.
  intros Hi Hne Hl.
  assert (E : (fun dt => euler_timestep_rotation inv pos rot pos Oa dt i j l) =
              (fun dt => pos i l + rodrigues (Oa i) (norm (Oa i) * dt) (vsub (rot i j) (pos i)) l)).
  { apply functional_extensionality. intros dt. apply rotate_general; auto. }
  rewrite E. rewrite <- (Rplus_0_l (cross _ _ _)).
  apply (derivable_pt_lim_plus (fun _ => pos i l)); [apply derivable_pt_lim_const|apply rodrigues_derivative, Hl].
Qed.

(** Two steps with the same angular velocity are one step of their sum. *)
Lemma new_compose inv pos p1 p2 rot Oa dt dt' i j l :
  inverts inv -> arm_ok pos rot i j -> (l < 3)%nat ->
  euler_timestep_rotation inv p1 (euler_timestep_rotation inv pos rot p1 Oa dt) p2 Oa dt' i j l =
  euler_timestep_rotation inv pos rot p2 Oa (dt + dt') i j l.
Proof.
  intros Hi Hne Hl.
  assert (N := new_ne inv pos p1 rot Oa dt Hi i j Hne).
  pose proof (new_arm inv p1 p2 (euler_timestep_rotation inv pos rot p1 Oa dt) Oa dt' Hi i j l N Hl) as A2.
  pose proof (new_arm inv pos p2 rot Oa (dt + dt') Hi i j l Hne Hl) as A3.
  unfold vsub at 1 in A2. unfold vsub at 1 in A3.
  enough (rodrigues (Oa i) (norm (Oa i) * dt') (vsub (euler_timestep_rotation inv pos rot p1 Oa dt i j) (p1 i)) l =
          rodrigues (Oa i) (norm (Oa i) * (dt + dt')) (vsub (rot i j) (pos i)) l) by lra.
  assert (A1 := fun l => new_arm inv pos p1 rot Oa dt Hi i j l Hne).
  destruct (is_zero3 (Oa i)) eqn:H.
  - rewrite (norm_zero3 _ H), !Rmult_0_l, !rodrigues_zero, A1 by exact Hl.
    rewrite (norm_zero3 _ H), !Rmult_0_l, !rodrigues_zero. reflexivity.
  - replace (norm (Oa i) * (dt + dt')) with (norm (Oa i) * dt' + norm (Oa i) * dt) by ring.
    rewrite <- rodrigues_add by assumption.
    unfold rodrigues at 1 2. cbv zeta. unfold dot3.
    idx3 Hl; unfold cross, v3; rewrite !A1 by lia; reflexivity.
Qed.

Lemma ab2_arm inv pos rot new_pos Oa Oprev dt i j l : inverts inv -> (l < 3)%nat ->
  (exists l, (l < 3)%nat /\ rot i j l <> pos i l) ->
  let W := fun l => Oa i l + (Oa i l - Oprev i l) / 2 in
  vsub (ab2_timestep_rotation inv pos rot new_pos Oa Oprev dt i j) (new_pos i) l =
  rodrigues W (norm W * dt) (vsub (rot i j) (pos i)) l.
Proof.
  intros Hi Hl Ha W. unfold ab2_timestep_rotation.
  rewrite (new_arm inv pos new_pos rot _ dt Hi i j l Ha Hl).
  replace (fun l0 => 15 / 10 * Oa i l0 - 5 / 10 * Oprev i l0) with W; [reflexivity|].
  apply functional_extensionality. intros k. unfold W. field.
Qed.

Lemma rigid_step inv pos rot new_pos Oa dt i : inverts inv ->
  (forall j, (j < 2)%nat -> exists l, (l < 3)%nat /\ rot i j l <> pos i l) ->
  let new := euler_timestep_rotation inv pos rot new_pos Oa dt in
  (forall j, (j < 2)%nat -> norm (vsub (new i j) (new_pos i)) = norm (vsub (rot i j) (pos i))) /\
  dot3 (vsub (new i 0%nat) (new_pos i)) (vsub (new i 1%nat) (new_pos i)) =
  dot3 (vsub (rot i 0%nat) (pos i)) (vsub (rot i 1%nat) (pos i)).
Proof.
  intros Hi Ha new. split.
  - intros j Hj. apply new_length; [exact Hi|apply Ha; exact Hj].
  - apply new_dot; [exact Hi|apply Ha; lia|apply Ha; lia].
Qed.

Lemma flow_linear Ua Oa Ub D E E' U U' W W' x dx c l a b : (l < 3)%nat ->
  fst (add_background_flow_sphere Ua Oa (fun i j => a * E i j + b * E' i j) (fun i => a * U i + b * U' i)
         (fun i => a * W i + b * W' i) x c) l =
    Ua l + a * linear_flow U W E c x l + b * linear_flow U' W' E' c x l /\
  snd (add_background_flow_dumbbell Ub D (fun i j => a * E i j + b * E' i j) (fun i => a * U i + b * U' i)
         (fun i => a * W i + b * W' i) x dx c) l =
    D l + a * (linear_flow U W E c (bead_plus x dx) l - linear_flow U W E c x l)
        + b * (linear_flow U' W' E' c (bead_plus x dx) l - linear_flow U' W' E' c x l).
Proof.
  intros Hl. unfold add_background_flow_sphere, add_background_flow_dumbbell, linear_flow, bead_plus, mvec, vsub.
  cbn [fst snd rsum]. idx3 Hl; unfold cross, v3; split; field.
Qed.

Lemma flow_reversible Ua Oa Ub D E U W x dx c l : (l < 3)%nat ->
  let '(U1, W1) := add_background_flow_sphere Ua Oa E U W x c in
  let '(U2, W2) := add_background_flow_sphere U1 W1 (fun i j => - E i j) (fun i => - U i) (fun i => - W i) x c in
  let '(B1, D1) := add_background_flow_dumbbell Ub D E U W x dx c in
  let '(B2, D2) := add_background_flow_dumbbell B1 D1 (fun i j => - E i j) (fun i => - U i) (fun i => - W i) x dx c in
  U2 l = Ua l /\ W2 l = Oa l /\ B2 l = Ub l /\ D2 l = D l.
Proof.
  intros Hl. unfold add_background_flow_sphere, add_background_flow_dumbbell, mvec, vsub.
  cbn [fst snd rsum]. idx3 Hl; unfold cross, v3; repeat split; field.
Qed.
