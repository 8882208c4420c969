(** Rates of accumulated strain; wrapping in a sheared box. *)
From Coq Require Import Reals ZArith List Arith Bool Lia Lra FunctionalExtensionality.
From Verif Require Import Base Py Model_Mob Model_Close Model_Step Model_Shear Spec_Shear Spec_Close Proof_Periodic Proof_Periodic2 Proof_Step
  Proof_Step2 Proof_Shear Model_Frame Proof_Frame Proof_Frame4 Proof_Frame5 Proof_Scheme2 Proof_Step3.
Import ListNotations.
Local Open Scope R_scope.

Lemma deriv_sin c A w ph dt f :
  derivable_pt_lim (fun f => c * (A * sin (f * dt * w + ph))) f (dt * (c * (A * w * cos (f * dt * w + ph)))).
Proof.
  assert (D : derivable_pt_lim (fun f => f * dt * w + ph) f (dt * w)).
  { replace (dt * w) with ((1 * dt + f * 0) * w + f * dt * 0 + 0) by ring.
    apply derivable_pt_lim_plus; [|apply derivable_pt_lim_const].
    apply (derivable_pt_lim_mult (fun f => f * dt) (fun _ => w)); [|apply derivable_pt_lim_const].
    apply (derivable_pt_lim_mult id (fun _ => dt)); [apply derivable_pt_lim_id|apply derivable_pt_lim_const]. }
  pose proof (derivable_pt_lim_comp (fun f => f * dt * w + ph) sin f (dt * w) _ D (derivable_pt_lim_sin _)) as D1.
  pose proof (derivable_pt_lim_scal _ (c * A) f _ D1) as D2.
  unfold mult_real_fct, comp in D2.
  replace (fun f0 => c * (A * sin (f0 * dt * w + ph))) with (fun x => c * A * sin (x * dt * w + ph))
    by (apply functional_extensionality; intros; ring).
  replace (dt * _) with (c * A * (cos (f * dt * w + ph) * (dt * w))) by ring. exact D2.
Qed.
Lemma deriv_zero f dt : derivable_pt_lim (fun _ => 0) f (dt * 0).
Proof. rewrite Rmult_0_r. apply derivable_pt_lim_const. Qed.
Lemma deriv_lin c dt f : derivable_pt_lim (fun f => c * (f * dt)) f (dt * c).
Proof.
  pose proof (derivable_pt_lim_scal id (c * dt) f 1 (derivable_pt_lim_id f)) as D. unfold mult_real_fct, id in D.
  replace (fun f0 => c * (f0 * dt)) with (fun x : R => c * dt * x) by (apply functional_extensionality; intros; ring).
  replace (dt * c) with (c * dt * 1) by ring. exact D.
Qed.

Lemma osc_rate A T dt ph c n ax tr op (h : R -> shear) :
  (forall f, oscillatory_shear A T f dt ph c n ax tr op = Ok (h f)) ->
  forall f,
    (forall l, derivable_pt_lim (fun f => h_Ot (h f) l) f (dt * h_O (h f) l)) /\
    (forall i j, derivable_pt_lim (fun f => h_Et (h f) i j) f (dt * nth 0 (h_Ea (h f)) mzero i j)).
Proof.
  intros H f. destruct (osc_ok _ _ _ _ _ _ _ _ _ _ _ (H f)) as [HT Hax].
  unfold oscillatory_shear in H. cbv zeta in H. unfold Reqb in H. destruct (Req_EM_T T 0); [contradiction|].
  assert (N : forall (a d : mat), nth 0 (repeat a (Nat.max 1 n)) d = a) by (intros; apply nth_repeat_lt; destruct n; simpl; lia).
  destruct Hax as [-> | ->].
  - pose proof (fun f => f_equal (fun r => match r with Ok s => s | Raise _ => h f end) (H f)) as E'. cbn beta iota in E'.
    split.
    + intros l. replace (fun f0 => h_Ot (h f0) l) with (fun f0 => v3 0 ((if tr then -1 else 1) * (5 / 10) * (A * sin (f0 * dt * (2 * PI / T) + ph))) 0 l).
      2: { apply functional_extensionality. intros f0. rewrite <- E'. reflexivity. }
      rewrite <- (E' f). cbn [h_O]. destruct l as [|[|[|]]]; cbn [v3]; try apply deriv_zero. apply deriv_sin.
    + intros i j. replace (fun f0 => h_Et (h f0) i j) with (fun f0 => literal_xz ((5 / 10) * (A * sin (f0 * dt * (2 * PI / T) + ph))) i j).
      2: { apply functional_extensionality. intros f0. rewrite <- E'. reflexivity. }
      rewrite <- (E' f). cbn [h_Ea]. rewrite N. unfold literal_xz.
      destruct i as [|[|[|]]], j as [|[|[|]]]; try apply deriv_zero; apply deriv_sin.
  - pose proof (fun f => f_equal (fun r => match r with Ok s => s | Raise _ => h f end) (H f)) as E'. cbn beta iota in E'.
    split.
    + intros l. replace (fun f0 => h_Ot (h f0) l) with (fun f0 => v3 0 0 ((if op then -1 else 1) * (if tr then -1 else 1) * - (5 / 10) * (A * sin (f0 * dt * (2 * PI / T) + ph))) l).
      2: { apply functional_extensionality. intros f0. rewrite <- E'. reflexivity. }
      rewrite <- (E' f). cbn [h_O]. destruct l as [|[|[|]]]; cbn [v3]; try apply deriv_zero. apply deriv_sin.
    + intros i j. replace (fun f0 => h_Et (h f0) i j) with (fun f0 => literal_xy ((if op then -1 else 1) * (5 / 10) * (A * sin (f0 * dt * (2 * PI / T) + ph))) i j).
      2: { apply functional_extensionality. intros f0. rewrite <- E'. reflexivity. }
      rewrite <- (E' f). cbn [h_Ea]. rewrite N. unfold literal_xy.
      destruct i as [|[|[|]]], j as [|[|[|]]]; try apply deriv_zero; apply deriv_sin.
Qed.

Lemma constant_rate g dt c n f :
  (forall l, derivable_pt_lim (fun f => h_Ot (constant_shear g f dt c n) l) f (dt * h_O (constant_shear g f dt c n) l)) /\
  (forall i j, derivable_pt_lim (fun f => h_Et (constant_shear g f dt c n) i j) f (dt * nth 0 (h_Ea (constant_shear g f dt c n)) mzero i j)) /\
  (forall l, h_Ot (constant_shear g 0 dt c n) l = 0) /\ (forall i j, h_Et (constant_shear g 0 dt c n) i j = 0).
Proof.
  unfold constant_shear. cbv zeta. cbn [h_Ot h_O h_Et h_Ea].
  rewrite nth_repeat_lt by (destruct n; simpl; lia).
  split; [|split; [|split]].
  - intros l. destruct l as [|[|[|]]]; cbn [v3]; try apply deriv_zero. apply deriv_lin.
  - intros i j. unfold literal_xz. destruct i as [|[|[|]]], j as [|[|[|]]]; try apply deriv_zero; apply deriv_lin.
  - intros l. destruct l as [|[|[|]]]; cbn [v3]; ring.
  - intros i j. unfold literal_xz. destruct i as [|[|[|]]], j as [|[|[|]]]; ring.
Qed.

(** ** Wrapping after a step uses the box of the start of the step *)
Lemma wrapped_old_box inv g f dt c n bl tr x :
  let box := vsub tr bl in
  let h := constant_shear g f dt c n in let h' := constant_shear g (f + 1) dt c n in
  let B := shear_basis_vectors (diag3 box) box (h_Ot h) (h_Et h) in
  let B' := shear_basis_vectors (diag3 box) box (h_Ot h') (h_Et h') in
  (forall k, (k < 3)%nat -> 0 < box k) ->
  is_inv 3 B (inv B) ->
  exists m : nat -> Z,
    (forall l, (l < 3)%nat -> wrap_around inv x bl tr (h_Ot h) (h_Et h) l = x l + lattice_shift B m l) /\
    (images B' x (wrap_around inv x bl tr (h_Ot h) (h_Et h)) <->
     exists k : Z, IZR (m 2%nat) * (g * dt * box 2%nat) = IZR k * box 0%nat).
Proof.
  intros box h h' B B' Hb HI.
  destruct (wrap_image inv bl tr (h_Ot h) (h_Et h) HI x) as (m & Hm). exists m. split; [exact Hm|].
  assert (R1 : forall k l, (k < 3)%nat -> (l < 3)%nat -> B k l = edges box k l + (if (Nat.eqb k 2 && Nat.eqb l 0)%bool then rmod (g * (f * dt) * box 2%nat) (box 0%nat) else 0)).
  { intros. apply sheared_row; try lia. intros; apply constant_moves; assumption. }
  assert (R2 : forall k l, (k < 3)%nat -> (l < 3)%nat -> B' k l = edges box k l + (if (Nat.eqb k 2 && Nat.eqb l 0)%bool then rmod (g * ((f + 1) * dt) * box 2%nat) (box 0%nat) else 0)).
  { intros. apply sheared_row; try lia. intros; apply constant_moves; assumption. }
  pose proof (Hb 0%nat ltac:(lia)) as P0. pose proof (Hb 1%nat ltac:(lia)) as P1. pose proof (Hb 2%nat ltac:(lia)) as P2.
  unfold rmod in R1, R2.
  set (z := Int_part (g * (f * dt) * box 2%nat / box 0%nat)) in *.
  set (z' := Int_part (g * ((f + 1) * dt) * box 2%nat / box 0%nat)) in *.
  unfold images, in_lattice. split.
  - intros (m' & H).
    pose proof (H 0%nat ltac:(lia)) as H0. pose proof (H 2%nat ltac:(lia)) as H2.
    rewrite Hm in H0, H2 by lia. unfold lattice_shift in H0, H2. cbn [rsum] in H0, H2.
    rewrite !R1, !R2 in H0 by lia. rewrite !R1, !R2 in H2 by lia. unfold edges in H0, H2. cbn [Nat.eqb andb] in H0, H2.
    assert (E : IZR (m' 2%nat) = IZR (m 2%nat)) by (apply (Rmult_eq_reg_r (box 2%nat)); lra).
    rewrite E in H0.
    exists (m 0%nat - m' 0%nat + m 2%nat * (z' - z))%Z. rewrite plus_IZR, mult_IZR, !minus_IZR. nra.
  - intros (k & Hk).
    exists (fun i => match i with O => (m 0%nat - k + m 2%nat * (z' - z))%Z | _ => m i end). intros l Hl.
    rewrite Hm by exact Hl. unfold lattice_shift. cbn [rsum]. rewrite !R1, !R2 by lia. unfold edges.
    rewrite plus_IZR, mult_IZR, !minus_IZR. idx3 Hl; cbn [Nat.eqb andb]; nra.
Qed.

(** A run: box of side 2, unit shear, one sphere leaving through the top. *)
Definition lift_solution (t : R) : solution :=
  let h := constant_shear 1 t (1 / 5) (v3 0 0 0) 1 in
  mkSol (fun _ => v3 0 0 0) (fun _ => mzero) (fun _ => v3 0 0 0) (fun _ => v3 0 0 0)
        (fun _ => v3 0 0 1) (fun _ => v3 0 0 0) (h_Ea h) (fun _ => v3 0 0 0) (fun _ => v3 0 0 0)
        (h_U h) (h_O h) (h_centre h) (h_Ot h) (h_Et h) (fun _ => 0).
Definition lift_rest : config -> R -> velocities -> mat -> res solution := fun _ t _ _ => Ok (lift_solution t).
Definition lift_config : config :=
  mkConfig (fun _ => 1) (fun _ => v3 0 0 (9 / 10)) (add_sphere_rotations (fun _ => v3 0 0 (9 / 10)) (fun _ => 1) axes) (fun _ => 1)
           (fun _ => v3 0 0 0) (fun _ => v3 1 0 0).
Definition lift_moved : vec := v3 (9 / 50) 0 (11 / 10).

Lemma lift_basis t : let h := constant_shear 1 t (1 / 5) (v3 0 0 0) 1 in let box := vsub (v3 1 1 1) (v3 (-1) (-1) (-1)) in
  is_inv 3 (shear_basis_vectors (diag3 box) box (h_Ot h) (h_Et h)) (inv3 (shear_basis_vectors (diag3 box) box (h_Ot h) (h_Et h))).
Proof.
  intros h box. apply inv3_ok. unfold det3.
  rewrite !(sheared_row box (h_Ot h) (h_Et h) 0 2 (1 * (t * (1 / 5)))) by (try lia; intros; apply constant_moves; assumption).
  unfold edges, box, vsub. simpl. lra.
Qed.

Lemma lift_lost : exists st,
  run_frames inv3 1 0 (fun _ _ => no_matrix) lift_rest (box_settings euler) (fresh lift_config) (seq 0 1) = Ok st /\
  let h := constant_shear 1 1 (1 / 5) (v3 0 0 0) 1 in let box := vsub (v3 1 1 1) (v3 (-1) (-1) (-1)) in
  ~ images (shear_basis_vectors (diag3 box) box (h_Ot h) (h_Et h)) lift_moved (c_spos (s_pos st) 0%nat).
Proof.
  assert (Hok : is_ok (run_frames inv3 1 0 (fun _ _ => no_matrix) lift_rest (box_settings euler) (fresh lift_config) (seq 0 1)) (fun _ => true) = true)
    by (lazy; reflexivity).
  apply is_ok_spec in Hok. destruct Hok as (st & H & _). exists st. split; [exact H|].
  cbn [run_frames seq] in H. binv H. injection H as <-.
  destruct (frame_inv inv3 1 0 _ _ _ (fresh lift_config) _ _ eq_refl E) as (regen & r & R1 & R2 & R3 & _). rewrite R3. clear R3 E.
  unfold step in R2. cbn [g_scheme box_settings] in R2. apply euler_inv in R2.
  destruct R2 as (s & U & W & B & D & A1 & A2 & A3 & A4 & A5 & A6 & A7 & A8 & A9 & A10 & _).
  injection A2 as <-. cbn [g_scheme box_settings g_dt fresh s_pos c_spos c_srot Nat.eqb lift_config] in A10.
  destruct (A3 ltac:(lia)) as (U0 & E & EU). cbn [g_fully_2d box_settings] in EU. subst U0. clear A3.
  unfold flow_spheres in E. cbn in E. injection E as <- <-. cbv zeta in A10. rewrite A10. cbn [c_srot c_spos].
  assert (Hper : periodic (box_settings euler) = true).
  { unfold periodic. rewrite zero3_false; [reflexivity|]. exists 0%nat. split; [lia|]. unfold vsub. simpl. lra. }
  unfold wrap. rewrite Hper. cbn [g_box_bl g_box_tr box_settings].
  set (x := eul _ _ _).
  assert (Hx : forall l, (l < 3)%nat -> x 0%nat l = lift_moved l).
  { intros l Hl. unfold x, eul, euler_timestep, lift_moved, mvec, cross, vsub. cbn [rsum]. unfold literal_xz. idx3 Hl; simpl; lra. }
  cbn [lift_solution o_Ot o_Et]. set (h := constant_shear 1 1 (1 / 5) (v3 0 0 0) 1). set (box := vsub (v3 1 1 1) (v3 (-1) (-1) (-1))). intros Him.
  assert (I0 : INR 0 + 1 = 1) by (simpl; ring).
  destruct (wrapped_old_box inv3 1 (INR 0) (1 / 5) (v3 0 0 0) 1 (v3 (-1) (-1) (-1)) (v3 1 1 1) (x 0%nat)) as (m & Hm & Hi).
  { intros k Hk. unfold vsub. idx3 Hk; simpl; lra. }
  { apply lift_basis. }
  rewrite I0 in Hi. fold h box in Hi.
  destruct Hi as [Hi _]. destruct Hi as (k & Hk).
  { destruct Him as (m' & Him). exists m'. intros l Hl. rewrite Hx by exact Hl. apply Him. exact Hl. }
  pose proof (Hm 2%nat ltac:(lia)) as H2. rewrite Hx in H2 by lia.
  destruct (wrap_in_cell inv3 (v3 (-1) (-1) (-1)) (v3 1 1 1) (h_Ot (constant_shear 1 (INR 0) (1 / 5) (v3 0 0 0) 1)) (h_Et (constant_shear 1 (INR 0) (1 / 5) (v3 0 0 0) 1)) (x 0%nat)) as (fr & Hf & Hw).
  rewrite Hw in H2. unfold lattice_shift in H2. cbn [rsum] in H2.
  rewrite !(sheared_row (vsub (v3 1 1 1) (v3 (-1) (-1) (-1))) _ _ 0 2 (1 * (INR 0 * (1 / 5)))) in H2 by (try lia; intros; apply constant_moves; assumption).
  unfold edges, vsub, lift_moved in H2. cbn [Nat.eqb andb v3] in H2.
  specialize (Hf 2%nat ltac:(lia)).
  assert (Hm2 : m 2%nat = (-1)%Z).
  { assert (-2 < m 2%nat < 0)%Z by (split; apply lt_IZR; lra). lia. }
  rewrite Hm2 in Hk. unfold box, vsub in Hk. cbn [v3] in Hk.
  assert (-1 < k < 0)%Z by (split; apply lt_IZR; lra). lia.
Qed.

(** Euler steps in oscillatory shear do not follow the box. *)
Lemma osc_euler_refuted :
  exists A T dt h h' box x y,
    oscillatory_shear A T 0 dt 0 (v3 0 0 0) 1 1 false false = Ok h /\
    oscillatory_shear A T 1 dt 0 (v3 0 0 0) 1 1 false false = Ok h' /\
    (forall k, (k < 3)%nat -> 0 < box k) /\
    images (shear_basis_vectors (diag3 box) box (h_Ot h) (h_Et h)) x y /\
    ~ images (shear_basis_vectors (diag3 box) box (h_Ot h') (h_Et h'))
        (euler_timestep x (still_flow h 0 x) dt) (euler_timestep y (still_flow h 0 y) dt).
Proof.
  destruct (osc_total 1 1 0 (1 / 4) 0 (v3 0 0 0) 1 1 false false) as (h & Hh); [lra|auto|].
  destruct (osc_total 1 1 1 (1 / 4) 0 (v3 0 0 0) 1 1 false false) as (h' & Hh'); [lra|auto|].
  exists 1, 1, (1 / 4), h, h', (v3 10 1 1), (v3 0 0 0), (v3 0 0 1). repeat split; try assumption.
  - intros k Hk. idx3 Hk; simpl; lra.
  - unfold images. apply (sheared_lattice (v3 10 1 1) (h_Ot h) (h_Et h) 0 2 _ ltac:(lia) ltac:(lia) ltac:(lia) (fun x l Hl => osc_moves _ _ _ _ _ _ _ _ _ _ _ x l Hh Hl)).
    cbn [osc_sign]. exists (fun k => match k with 2%nat => 1%Z | _ => 0%Z end). intros l Hl.
    replace (2 * PI / 1 * (0 * (1 / 4)) + 0) with 0 by field. rewrite sin_0.
    cbn [rsum]. unfold carried, simple_shear, edges. idx3 Hl; simpl; lra.
  - unfold images. intros Hc.
    apply (sheared_lattice (v3 10 1 1) (h_Ot h') (h_Et h') 0 2 _ ltac:(lia) ltac:(lia) ltac:(lia) (fun x l Hl => osc_moves _ _ _ _ _ _ _ _ _ _ _ x l Hh' Hl)) in Hc.
    destruct Hc as (m & Hm). cbn [osc_sign] in Hm.
    pose proof (Hm 0%nat ltac:(lia)) as H0. pose proof (Hm 2%nat ltac:(lia)) as H2. clear Hm.
    unfold euler_timestep in H0, H2. rewrite !(osc_flow _ _ _ _ _ _ _ _ _ _ _ 0 _ 0 Hh) in H0 by (simpl; lia). rewrite !(osc_flow _ _ _ _ _ _ _ _ _ _ _ 0 _ 2 Hh) in H2 by (simpl; lia).
    replace (2 * PI / 1 * (1 * (1 / 4)) + 0) with (PI / 2) in H0, H2 by field.
    replace (2 * PI / 1 * (0 * (1 / 4)) + 0) with 0 in H0, H2 by field.
    rewrite sin_PI2, cos_0 in *. cbn [rsum osc_axes fst snd] in H0, H2.
    unfold carried, simple_shear, edges, vsub in H0, H2. cbn [osc_sign Nat.eqb v3] in H0, H2.
    assert (E : IZR (m 2%nat) = 1) by lra. rewrite E in H0.
    assert (E' : IZR (m 0%nat) * 10 = PI / 2 - 1) by lra.
    pose proof PI2_3_2. pose proof PI_4.
    assert (0 < m 0%nat < 1)%Z by (split; apply lt_IZR; lra). lia.
Qed.
