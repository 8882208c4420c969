(** Consequences of the rotation formula; wrapping; background flow. *)
From Coq Require Import Reals Arith ZArith Bool List Lia Lra FunctionalExtensionality.
From Verif Require Import Base Model_Mob Model_Close Model_Step Spec_Step Spec_Close Proof_Close Proof_Periodic Proof_Step.
Local Open Scope R_scope.

Lemma norm_zero3 O : is_zero3 O = true -> norm O = 0.
Proof.
  intros H. rewrite zero3_spec in H. unfold norm. rewrite !H by lia. replace (0 ^ 2 + 0 ^ 2 + 0 ^ 2) with 0 by ring. apply sqrt_0.
Qed.

Lemma rodrigues_zero w v l : rodrigues w 0 v l = v l.
Proof. unfold rodrigues. cbv zeta. rewrite cos_0, sin_0. ring. Qed.

Lemma rotate_zero inv R0 Rn O rb dt l : inverts inv -> (l < 3)%nat -> is_zero3 O = true ->
  (exists l, (l < 3)%nat /\ rb l <> R0 l) ->
  rotate_point inv R0 Rn O rb dt l = Rn l + vsub rb R0 l.
Proof.
  intros Hinv Hl HO Hne.
  assert (Hd : is_inv 3 delta delta).
  { intros i j Hi Hj. unfold mmul. split; apply (rsum_delta_l 3 i (fun l => delta l j) Hi). }
  assert (HI : is_inv 3 delta (inv delta)) by (apply Hinv; exists delta; exact Hd).
  assert (E : rot_matrix O = delta) by (unfold rot_matrix; rewrite HO; reflexivity).
  unfold rotate_point. cbv zeta. rewrite E.
  assert (Hb : forall l, (l < 3)%nat -> mvec 3 (inv delta) (vsub rb R0) l = vsub rb R0 l).
  { intros m Hm. rewrite (mvec_ext 3 _ delta _ (vsub rb R0) m); [apply mvec_delta, Hm| |reflexivity].
    intros j Hj. apply (is_inv_unique 3 delta _ _ HI Hd); assumption. }
  rewrite !Hb by lia.
  assert (Hr : 0 < sqrt (vsub rb R0 0%nat ^ 2 + vsub rb R0 1%nat ^ 2 + vsub rb R0 2%nat ^ 2)).
  { apply sqrt_lt_R0. destruct (Rlt_dec 0 (vsub rb R0 0%nat ^ 2 + vsub rb R0 1%nat ^ 2 + vsub rb R0 2%nat ^ 2)) as [G|G]; [exact G|].
    exfalso. destruct Hne as (m & Hm & Hne). apply Hne. assert (Z : vsub rb R0 m = 0) by (idx3 Hm; nra). unfold vsub in Z. lra. }
  destruct (spherical _ _ _ (dt * speed O) Hr) as (Ex & Ey & Ez). cbv zeta in Ex, Ey, Ez. rewrite Ex, Ey, Ez.
  change (speed O) with (norm O). rewrite (norm_zero3 O HO), Rmult_0_r, cos_0, sin_0.
  f_equal. rewrite mvec_delta by exact Hl. idx3 Hl; cbn [v3]; ring.
Qed.

Lemma rotate_general inv R0 Rn O rb dt l : inverts inv -> (l < 3)%nat ->
  (exists l, (l < 3)%nat /\ rb l <> R0 l) ->
  rotate_point inv R0 Rn O rb dt l = Rn l + rodrigues O (norm O * dt) (vsub rb R0) l.
Proof.
  intros Hinv Hl Hne. destruct (is_zero3 O) eqn:HO.
  - rewrite (rotate_zero inv R0 Rn O rb dt l Hinv Hl HO Hne), (norm_zero3 O HO), Rmult_0_l, rodrigues_zero. reflexivity.
  - apply rotate_rodrigues; assumption.
Qed.

(** Facts about Rodrigues' formula. *)
Lemma unit_or_zero w : is_zero3 w = true \/
  dot3 (vscal (/ norm w) w) (vscal (/ norm w) w) = 1.
Proof. destruct (is_zero3 w) eqn:H; [left; reflexivity|right; exact (k_unit w H)]. Qed.

Lemma rodrigues_dot w a u v : is_zero3 w = false ->
  dot3 (rodrigues w a u) (rodrigues w a v) = dot3 u v.
Proof.
  intros H. pose proof (k_unit w H) as K. unfold rodrigues. cbv zeta. change (/ norm w) with (/ speed w).
  set (k := vscal (/ speed w) w) in *. cbv beta in K.
  pose proof (sin2_cos2 a) as T. unfold Rsqr in T.
  unfold dot3, cross, v3.
  revert K T. generalize (k 0%nat), (k 1%nat), (k 2%nat), (u 0%nat), (u 1%nat), (u 2%nat), (v 0%nat), (v 1%nat), (v 2%nat), (cos a), (sin a).
  intros k0 k1 k2 u0 u1 u2 v0 v1 v2 c s K T.
  assert (E : k0 * k0 = 1 - k1 * k1 - k2 * k2) by lra.
  assert (F : s * s = 1 - c * c) by lra.
  ring [E F].
Qed.
Lemma rodrigues_dot_any w a dt u v : a = norm w * dt ->
  dot3 (rodrigues w a u) (rodrigues w a v) = dot3 u v.
Proof.
  intros ->. destruct (is_zero3 w) eqn:H.
  - rewrite (norm_zero3 w H), Rmult_0_l. unfold dot3. rewrite !rodrigues_zero. reflexivity.
  - apply rodrigues_dot. exact H.
Qed.
Lemma rodrigues_axis w a v : is_zero3 w = false -> dot3 w (rodrigues w a v) = dot3 w v.
Proof.
  intros H. pose proof (k_unit w H) as K. pose proof (speed_pos w H) as S.
  unfold rodrigues. cbv zeta. change (/ norm w) with (/ speed w).
  set (k := vscal (/ speed w) w) in *.
  assert (E : forall l, w l = speed w * k l) by (intros l; unfold k, vscal; field; lra).
  unfold dot3 at 1 3. rewrite !E. unfold dot3, cross, v3.
  revert K. generalize (k 0%nat), (k 1%nat), (k 2%nat), (v 0%nat), (v 1%nat), (v 2%nat), (cos a), (sin a), (speed w).
  intros k0 k1 k2 v0 v1 v2 c s n K.
  assert (F : k0 * k0 = 1 - k1 * k1 - k2 * k2) by lra. ring [F].
Qed.
Lemma rodrigues_add w a b v l : is_zero3 w = false -> (l < 3)%nat ->
  rodrigues w a (rodrigues w b v) l = rodrigues w (a + b) v l.
Proof.
  intros H Hl. pose proof (k_unit w H) as K.
  unfold rodrigues. cbv zeta. change (/ norm w) with (/ speed w).
  set (k := vscal (/ speed w) w) in *. rewrite cos_plus, sin_plus. revert K.
  unfold dot3.
  idx3 Hl; unfold cross, v3; generalize (k 0%nat), (k 1%nat), (k 2%nat), (v 0%nat), (v 1%nat), (v 2%nat), (cos a), (sin a), (cos b), (sin b);
  intros k0 k1 k2 v0 v1 v2 c s c' s' K; assert (F : k0 * k0 = 1 - k1 * k1 - k2 * k2) by lra; ring [F].
Qed.

(** Its velocity at the start is the angular velocity cross the arm. *)
Lemma rodrigues_derivative w v l : (l < 3)%nat ->
  derivable_pt_lim (fun t => rodrigues w (norm w * t) v l) 0 (cross w v l).
Proof.
  intros Hl.
  set (k := vscal (/ norm w) w).
  assert (E : cross w v l = 0 * v l + norm w * cross k v l + 0 * (dot3 k v * k l)).
  { destruct (is_zero3 w) eqn:H.
    - rewrite (norm_zero3 w H). rewrite zero3_spec in H. idx3 Hl; unfold cross, v3; rewrite !H by lia; ring.
    - pose proof (speed_pos w H) as S. change (speed w) with (norm w) in S. unfold k.
      idx3 Hl; unfold cross, v3, vscal; field; lra. }
  rewrite E.
  assert (Hn : derivable_pt_lim (fun t => norm w * t) 0 (norm w)).
  { pose proof (derivable_pt_lim_scal id (norm w) 0 1 (derivable_pt_lim_id 0)) as D. rewrite Rmult_1_r in D. exact D. }
  assert (Hc : derivable_pt_lim (fun t => cos (norm w * t)) 0 0).
  { pose proof (derivable_pt_lim_comp (fun t => norm w * t) cos 0 (norm w) (- sin (norm w * 0)) Hn (derivable_pt_lim_cos _)) as D.
    rewrite Rmult_0_r, sin_0, Ropp_0, Rmult_0_l in D. exact D. }
  assert (Hs : derivable_pt_lim (fun t => sin (norm w * t)) 0 (norm w)).
  { pose proof (derivable_pt_lim_comp (fun t => norm w * t) sin 0 (norm w) (cos (norm w * 0)) Hn (derivable_pt_lim_sin _)) as D.
    rewrite Rmult_0_r, cos_0, Rmult_1_l in D. exact D. }
  assert (G : forall f f' c, derivable_pt_lim f 0 f' -> derivable_pt_lim (fun t => f t * c) 0 (f' * c)).
  { intros f f' c D. pose proof (derivable_pt_lim_scal f c 0 f' D) as D'. rewrite Rmult_comm in D'.
    intros eps He. destruct (D' eps He) as [d Hd]. exists d. intros h Hh Hh'. specialize (Hd h Hh Hh').
    unfold mult_real_fct in Hd. rewrite !(Rmult_comm c) in Hd. exact Hd. }
  assert (Hc1 : derivable_pt_lim (fun t => 1 - cos (norm w * t)) 0 0).
  { pose proof (derivable_pt_lim_minus (fun _ => 1) _ 0 0 0 (derivable_pt_lim_const 1 0) Hc) as D. rewrite Rminus_0_r in D. exact D. }
  assert (X : (fun t => rodrigues w (norm w * t) v l) =
    (fun t => cos (norm w * t) * v l + sin (norm w * t) * cross k v l + (1 - cos (norm w * t)) * (dot3 k v * k l))).
  { apply functional_extensionality. intros t. unfold rodrigues. cbv zeta. fold k. ring. }
  rewrite X.
  apply (derivable_pt_lim_plus (fun t => cos (norm w * t) * v l + sin (norm w * t) * cross k v l)).
  - apply (derivable_pt_lim_plus (fun t => cos (norm w * t) * v l)); apply G; assumption.
  - apply G. exact Hc1.
Qed.

(** Wrapping. *)
Section Wrap.
Variables (inv : mat -> mat) (bl tr Ot : vec) (Et : mat).
Let box := vsub tr bl.
Let B := shear_basis_vectors (diag3 box) box Ot Et.
Hypothesis HB : is_inv 3 B (inv B).

Lemma wrap_eq x l : wrap_around inv x bl tr Ot Et l = rowmul (fun k => centre (rowmul x (inv B) k)) B l.
Proof. reflexivity. Qed.

Lemma wrap_in_cell x : exists f : vec, (forall k, (k < 3)%nat -> - (1 / 2) <= f k < 1 / 2) /\
  forall l, wrap_around inv x bl tr Ot Et l = rsum 3 (fun k => f k * B k l).
Proof.
  exists (fun k => centre (rowmul x (inv B) k)). split; [intros; apply centre_range|]. intros l. apply wrap_eq.
Qed.
Lemma wrap_image x : exists m : nat -> Z, forall l, (l < 3)%nat ->
  wrap_around inv x bl tr Ot Et l = x l + lattice_shift B m l.
Proof.
  exists (fun k => (- Int_part (rowmul x (inv B) k + 1 / 2))%Z). intros l Hl. rewrite wrap_eq.
  rewrite (rowmul_ext_v _ (vadd (rowmul x (inv B)) (fun k => IZR (- Int_part (rowmul x (inv B) k + 1 / 2))))).
  - rewrite rowmul_add. rewrite (back_forth inv box Ot Et HB) by exact Hl. reflexivity.
  - intros k Hk. rewrite centre_eq. unfold vadd. rewrite opp_IZR. reflexivity.
Qed.
Lemma wrap_unique x (m : nat -> Z) (f : vec) :
  (forall k, (k < 3)%nat -> - (1 / 2) <= f k < 1 / 2) ->
  (forall l, (l < 3)%nat -> x l + lattice_shift B m l = rsum 3 (fun k => f k * B k l)) ->
  forall l, wrap_around inv x bl tr Ot Et l = rsum 3 (fun k => f k * B k l).
Proof.
  intros Hf H l. rewrite wrap_eq. apply rowmul_ext_v. intros k Hk.
  assert (E : rowmul x (inv B) k = f k + IZR (- m k)).
  { rewrite <- (forth_back inv box Ot Et HB f k Hk). fold B.
    rewrite opp_IZR. replace (IZR (m k)) with (rowmul (rowmul (fun k => IZR (m k)) B) (inv B) k)
      by (apply (forth_back inv box Ot Et HB (fun k => IZR (m k)) k Hk)).
    rewrite (rowmul_ext_v x (vsub (rowmul f B) (rowmul (fun k => IZR (m k)) B))).
    - rewrite rowmul_sub. ring.
    - intros l' Hl'. specialize (H l' Hl'). unfold vsub. unfold lattice_shift in H. unfold rowmul.
      rewrite <- H. ring. }
  rewrite E, centre_add, centre_id by (apply Hf; exact Hk). reflexivity.
Qed.
Lemma wrap_idempotent x l :
  wrap_around inv (wrap_around inv x bl tr Ot Et) bl tr Ot Et l = wrap_around inv x bl tr Ot Et l.
Proof.
  destruct (wrap_in_cell x) as (f & Hf & E). rewrite (E l).
  apply (wrap_unique _ (fun _ => 0%Z) f Hf). intros l' Hl'. rewrite E. unfold lattice_shift. cbn [rsum]. ring.
Qed.
Lemma wrap_shift x m l :
  wrap_around inv (vadd x (lattice_shift B m)) bl tr Ot Et l = wrap_around inv x bl tr Ot Et l.
Proof.
  destruct (wrap_in_cell x) as (f & Hf & E). destruct (wrap_image x) as (m' & E'). rewrite (E l).
  apply (wrap_unique _ (fun k => (m' k - m k)%Z) f Hf). intros l' Hl'.
  rewrite <- E, E' by exact Hl'. unfold vadd, lattice_shift. cbn [rsum]. rewrite !minus_IZR. ring.
Qed.
End Wrap.

(** Background flow. *)
Lemma flow_sphere_ok Ua Oa E U W x c l :
  fst (add_background_flow_sphere Ua Oa E U W x c) l = Ua l + linear_flow U W E c x l /\
  snd (add_background_flow_sphere Ua Oa E U W x c) l = Oa l + W l.
Proof. unfold add_background_flow_sphere, linear_flow; cbn [fst snd]. split; ring. Qed.

Lemma flow_dumbbell_ok Ub D E U W x dx c l : (l < 3)%nat ->
  fst (add_background_flow_dumbbell Ub D E U W x dx c) l =
    Ub l + (linear_flow U W E c (bead_minus x dx) l + linear_flow U W E c (bead_plus x dx) l) / 2 /\
  snd (add_background_flow_dumbbell Ub D E U W x dx c) l =
    D l + (linear_flow U W E c (bead_plus x dx) l - linear_flow U W E c (bead_minus x dx) l) / 2.
Proof.
  intros Hl. unfold add_background_flow_dumbbell, linear_flow, bead_minus, bead_plus; cbn [fst snd].
  unfold mvec, vsub. cbn [rsum]. idx3 Hl; unfold cross, v3; split; field.
Qed.
