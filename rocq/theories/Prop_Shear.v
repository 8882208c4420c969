(** Properties C32 and C33: shear inputs and sheared boxes. *)
From Coq Require Import Reals ZArith List Arith Bool Lia Lra.
From Verif Require Import Base Py Model_Mob Model_Close Model_Step Model_Frame Model_Shear Spec_Shear Spec_Close
  Proof_Step Proof_Shear Proof_Shear2 Proof_Scheme2.
Import ListNotations.
Local Open Scope R_scope.

(** C32: the velocity that the loop adds for a shear input is simple shear
    about the given centre.  [k] is any entry of the strain list, which has
    one for each sphere and at least one. *)
Theorem C32_constant_flow :
  forall gammadot frameno dt c n k Ua Oa x l,
    let h := constant_shear gammadot frameno dt c n in
    (k < Nat.max 1 n)%nat -> (l < 3)%nat ->
    length (h_Ea h) = Nat.max 1 n /\
    fst (add_background_flow_sphere Ua Oa (nth k (h_Ea h) mzero) (h_U h) (h_O h) x (h_centre h)) l
    = Ua l + simple_shear 0 2 gammadot (vsub x c) l.
Proof.
  intros g f dt c n k Ua Oa x l h Hk Hl. split; [apply repeat_length|]. exact (constant_flow_any g f dt c n k Ua Oa x l Hk Hl).
Qed.
Print Assumptions C32_constant_flow.

(** Oscillatory shear: the shear rate is a w cos(w t + phase), w = 2 pi / period. *)
Theorem C32_oscillatory_flow :
  forall A T frameno dt phase c n axis transpose opposite h k Ua Oa x l,
    oscillatory_shear A T frameno dt phase c n axis transpose opposite = Ok h ->
    (k < Nat.max 1 n)%nat -> (l < 3)%nat ->
    length (h_Ea h) = Nat.max 1 n /\
    fst (add_background_flow_sphere Ua Oa (nth k (h_Ea h) mzero) (h_U h) (h_O h) x (h_centre h)) l
    = Ua l + simple_shear (fst (osc_axes axis transpose)) (snd (osc_axes axis transpose))
        (osc_sign axis opposite * (A * (2 * PI / T) * cos (2 * PI / T * (frameno * dt) + phase))) (vsub x c) l.
Proof. exact osc_flow_any. Qed.
Print Assumptions C32_oscillatory_flow.

Theorem C32_oscillatory_total :
  forall A T frameno dt phase c n axis transpose opposite, T <> 0 ->
    ((axis = 1 \/ axis = 2)%nat -> exists h, oscillatory_shear A T frameno dt phase c n axis transpose opposite = Ok h) /\
    (axis <> 1%nat -> axis <> 2%nat -> oscillatory_shear A T frameno dt phase c n axis transpose opposite = Raise UnboundLocalError).
Proof. intros. split; intros; [apply osc_total|apply osc_other]; assumption. Qed.
Print Assumptions C32_oscillatory_total.

(** The accumulated rotation and strain grow at the rates O and E, per frame
    dt times as much, *)
Theorem C32_constant_rate :
  forall gammadot dt c n frameno,
    let h := fun f => constant_shear gammadot f dt c n in
    (forall l, derivable_pt_lim (fun f => h_Ot (h f) l) frameno (dt * h_O (h frameno) l)) /\
    (forall i j, derivable_pt_lim (fun f => h_Et (h f) i j) frameno (dt * nth 0 (h_Ea (h frameno)) mzero i j)) /\
    (forall l, h_Ot (h 0) l = 0) /\ (forall i j, h_Et (h 0) i j = 0).
Proof. intros g dt c n f. exact (constant_rate g dt c n f). Qed.
Print Assumptions C32_constant_rate.

Theorem C32_oscillatory_rate :
  forall A T dt phase c n axis transpose opposite (h : R -> shear),
    (forall f, oscillatory_shear A T f dt phase c n axis transpose opposite = Ok (h f)) ->
    forall frameno,
    (forall l, derivable_pt_lim (fun f => h_Ot (h f) l) frameno (dt * h_O (h frameno) l)) /\
    (forall i j, derivable_pt_lim (fun f => h_Et (h f) i j) frameno (dt * nth 0 (h_Ea (h frameno)) mzero i j)).
Proof. exact osc_rate. Qed.
Print Assumptions C32_oscillatory_rate.

(** and describe the displacement by the shear strain gammadot t, and
    a sin(w t + phase): not zero at time zero if the phase is not. *)
Theorem C32_constant_strain :
  forall gammadot frameno dt c n x l, (l < 3)%nat ->
    let h := constant_shear gammadot frameno dt c n in
    cross (h_Ot h) x l + rsum 3 (fun k => h_Et h l k * x k) = simple_shear 0 2 (gammadot * (frameno * dt)) x l.
Proof. intros g f dt c n x l Hl. exact (constant_moves g f dt c n x l Hl). Qed.
Print Assumptions C32_constant_strain.

Theorem C32_oscillatory_strain :
  forall A T frameno dt phase c n axis transpose opposite h x l,
    oscillatory_shear A T frameno dt phase c n axis transpose opposite = Ok h -> (l < 3)%nat ->
    cross (h_Ot h) x l + rsum 3 (fun k => h_Et h l k * x k) =
    simple_shear (fst (osc_axes axis transpose)) (snd (osc_axes axis transpose))
      (osc_sign axis opposite * (A * sin (2 * PI / T * (frameno * dt) + phase))) x l.
Proof. exact osc_moves. Qed.
Print Assumptions C32_oscillatory_strain.

Example C32_example :
  exists h, oscillatory_shear (1 / 3) 10 0 (1 / 10) 0 (v3 (9 / 4) 0 (9 / 4)) 2 1 false false = Ok h /\
    length (h_Ea h) = 2%nat /\ 0 < h_O h 1%nat.
Proof.
  destruct (osc_total (1 / 3) 10 0 (1 / 10) 0 (v3 (9 / 4) 0 (9 / 4)) 2 1 false false) as (h & H); [lra|auto|].
  exists h. split; [exact H|]. unfold oscillatory_shear, Reqb in H. destruct (Req_EM_T 10 0); [lra|]. injection H as <-.
  cbn [h_Ea h_O v3]. split; [reflexivity|].
  replace (0 * (1 / 10) * (2 * PI / 10) + 0) with 0 by field. rewrite cos_0. pose proof PI_RGT_0. lra.
Qed.

(** C33: the box keeps its volume and its lattice is the one carried by the
    flow. *)
Theorem C33_constant :
  forall gammadot frameno dt c n box,
    let h := constant_shear gammadot frameno dt c n in
    let B := shear_basis_vectors (diag3 box) box (h_Ot h) (h_Et h) in
    volume B = box 0%nat * box 1%nat * box 2%nat /\
    forall v, in_lattice B v <-> in_lattice (fun k => carried 0 2 (gammadot * (frameno * dt)) (edges box k)) v.
Proof.
  intros g f dt c n box h B. split; [apply (sheared_volume _ _ _ 0 2 (g * (f * dt)))|intros v; apply sheared_lattice];
    try lia; intros; apply constant_moves; assumption.
Qed.
Print Assumptions C33_constant.

Theorem C33_oscillatory :
  forall A T frameno dt phase c n axis transpose opposite h box,
    oscillatory_shear A T frameno dt phase c n axis transpose opposite = Ok h ->
    let B := shear_basis_vectors (diag3 box) box (h_Ot h) (h_Et h) in
    volume B = box 0%nat * box 1%nat * box 2%nat /\
    forall v, in_lattice B v <->
      in_lattice (fun k => carried (fst (osc_axes axis transpose)) (snd (osc_axes axis transpose))
                    (osc_sign axis opposite * (A * sin (2 * PI / T * (frameno * dt) + phase))) (edges box k)) v.
Proof. exact osc_lattice. Qed.
Print Assumptions C33_oscillatory.

(** In constant shear, Euler steps of a particle and its image, with the same
    velocity relative to the flow, lead to images in the box of the next frame. *)
Theorem C33_euler_images :
  forall gammadot frameno dt c n box x y k k' Ua Oa,
    let h := constant_shear gammadot frameno dt c n in
    let h' := constant_shear gammadot (frameno + 1) dt c n in
    (k < Nat.max 1 n)%nat -> (k' < Nat.max 1 n)%nat ->
    images (shear_basis_vectors (diag3 box) box (h_Ot h) (h_Et h)) x y ->
    images (shear_basis_vectors (diag3 box) box (h_Ot h') (h_Et h'))
      (euler_timestep x (fst (add_background_flow_sphere Ua Oa (nth k (h_Ea h) mzero) (h_U h) (h_O h) x (h_centre h))) dt)
      (euler_timestep y (fst (add_background_flow_sphere Ua Oa (nth k' (h_Ea h) mzero) (h_U h) (h_O h) y (h_centre h))) dt).
Proof. exact constant_euler. Qed.
Print Assumptions C33_euler_images.

(** Not so in oscillatory shear, where the box moves by the exact strain. *)
Theorem C33_oscillatory_euler_refuted :
  exists A T dt h h' box x y,
    oscillatory_shear A T 0 dt 0 (v3 0 0 0) 1 1 false false = Ok h /\
    oscillatory_shear A T 1 dt 0 (v3 0 0 0) 1 1 false false = Ok h' /\
    (forall k, (k < 3)%nat -> 0 < box k) /\
    images (shear_basis_vectors (diag3 box) box (h_Ot h) (h_Et h)) x y /\
    let u := fun x => fst (add_background_flow_sphere (v3 0 0 0) (v3 0 0 0) (nth 0 (h_Ea h) mzero) (h_U h) (h_O h) x (h_centre h)) in
    ~ images (shear_basis_vectors (diag3 box) box (h_Ot h') (h_Et h')) (euler_timestep x (u x) dt) (euler_timestep y (u y) dt).
Proof. exact osc_euler_refuted. Qed.
Print Assumptions C33_oscillatory_euler_refuted.

(** After a step, positions are wrapped with the box of the start of the step.
    In the next box the wrapped position is an image of the unwrapped one
    exactly if the strain of the step moves the crossed top face by a multiple
    of the box length. *)
Theorem C33_wrapping_box :
  forall inv gammadot frameno dt c n bl tr x,
    let box := vsub tr bl in
    let h := constant_shear gammadot frameno dt c n in
    let h' := constant_shear gammadot (frameno + 1) dt c n in
    let B := shear_basis_vectors (diag3 box) box (h_Ot h) (h_Et h) in
    let B' := shear_basis_vectors (diag3 box) box (h_Ot h') (h_Et h') in
    (forall k, (k < 3)%nat -> 0 < box k) ->
    is_inv 3 B (inv B) ->
    exists m : nat -> Z,
      (forall l, (l < 3)%nat -> wrap_around inv x bl tr (h_Ot h) (h_Et h) l = x l + lattice_shift B m l) /\
      (images B' x (wrap_around inv x bl tr (h_Ot h) (h_Et h)) <->
       exists k : Z, IZR (m 2%nat) * (gammadot * dt * box 2%nat) = IZR k * box 0%nat).
Proof. exact wrapped_old_box. Qed.
Print Assumptions C33_wrapping_box.

(** A run: one sphere crosses the top face in the first frame of unit shear;
    its new position is not an image of where it went, in the box of the next
    frame. *)
Theorem C33_wrapping_box_refuted :
  exists st,
    run_frames inv3 1 0 (fun _ _ => no_matrix) lift_rest (box_settings euler) (fresh lift_config) (seq 0 1) = Ok st /\
    let h := constant_shear 1 1 (1 / 5) (v3 0 0 0) 1 in let box := vsub (v3 1 1 1) (v3 (-1) (-1) (-1)) in
    ~ images (shear_basis_vectors (diag3 box) box (h_Ot h) (h_Et h)) lift_moved (c_spos (s_pos st) 0%nat).
Proof. exact lift_lost. Qed.
Print Assumptions C33_wrapping_box_refuted.

Example C33_example :
  let h := constant_shear 1 3 (1 / 5) (v3 0 0 0) 1 in let box := v3 2 2 2 in
  images (shear_basis_vectors (diag3 box) box (h_Ot h) (h_Et h)) (v3 0 0 0) (v3 (6 / 5) 0 2).
Proof.
  intros h box. unfold images, h.
  apply (sheared_lattice box _ _ 0 2 (1 * (3 * (1 / 5)))); try lia; [intros; apply constant_moves; assumption|].
  exists (fun k => match k with 2%nat => 1%Z | _ => 0%Z end). intros l Hl. cbn [rsum].
  unfold carried, simple_shear, edges, box. idx3 Hl; simpl; lra.
Qed.
