(** RK4 in a background flow; AB2 in its first frame and with dumbbells;
    orientations along a run. *)
From Coq Require Import Reals List Arith Bool Lia Lra ZArith.
From Verif Require Import Base Py Model_Mob Model_Close Spec_Close Model_Step Model_Frame Spec_Frame Spec_Scheme Spec_Step
  Proof_Close Proof_Periodic Proof_Step Proof_Step2 Proof_Step3 Proof_Frame Proof_Frame3 Proof_Frame4 Proof_Frame5 Proof_Scheme.
Import ListNotations.
Local Open Scope R_scope.

Section Back.
Variable inv : mat -> mat.
Variables Ns Nd : nat.
Variable far : config -> R -> mat.
Variable rest : config -> R -> velocities -> mat -> res solution.
Variable g : settings.

(** Force-free, with the steady background flow (U, W, E) about c. *)
Definition background (U W : vec) (E : mat) (c : vec) : Prop := forall p t v M s, rest p t v M = Ok s ->
  o_Uinf s = U /\ o_Oinf s = W /\ o_centre s = c /\ (forall E', In E' (o_Ea s) -> E' = E) /\
  (forall i l, (i < Ns)%nat -> (l < 3)%nat -> o_Ua s i l = 0).

Lemma flow_back s pos V Om U W E c i l :
  o_Uinf s = U /\ o_Oinf s = W /\ o_centre s = c /\ (forall E', In E' (o_Ea s) -> E' = E) /\
  (forall i l, (i < Ns)%nat -> (l < 3)%nat -> o_Ua s i l = 0) ->
  flow_spheres Ns s pos = Ok (V, Om) -> (i < Ns)%nat -> (l < 3)%nat -> V i l = linear_flow U W E c (pos i) l.
Proof.
  intros (H1 & H2 & H3 & H4 & H5) H Hi Hl. unfold flow_spheres in H.
  destruct (Nat.ltb_spec (length (o_Ea s)) Ns) as [|HL]; [discriminate|]. injection H as <- <-.
  unfold add_background_flow_sphere, linear_flow. cbn [fst]. rewrite H1, H2, H3, H5 by auto.
  rewrite (H4 (nth i (o_Ea s) mzero)) by (apply nth_In; lia). ring.
Qed.

Lemma rk4_background U W E c f regen p err minv vel r i l :
  periodic g = false -> g_fully_2d g = false -> background U W E c ->
  step_rk4 inv Ns Nd far rest g f regen p err minv vel = Ok r -> (i < Ns)%nat -> (l < 3)%nat ->
  c_spos (t_pos r) i l = c_spos p i l + g_dt g * linear_flow U W E c (c_spos p i) l.
Proof.
  intros Hp H2 HB H Hi Hl. apply rk4_inv in H.
  destruct H as (s1 & p1 & U1 & B1 & D1 & O1 & e1 & s2 & p2 & U2 & B2 & D2 & O2 & e2 & s3 & p3 & U3 & B3 & D3 & O3 & e3 & s4 & U4 & B4 & D4 & O4
     & A1 & A2 & A3 & A4 & A5 & A6 & A7 & A8 & A9 & A10 & A11 & A12 & A13 & A14).
  apply HB in A2, A4, A6, A8. apply stage_inv in A3, A5, A7.
  assert (HN : Ns <> 0%nat) by lia.
  destruct A3 as (A3 & _). destruct A5 as (A5 & _). destruct A7 as (A7 & _).
  rewrite A13, H2. cbn [c_spos]. destruct (Nat.eqb_spec Ns 0); [lia|]. rewrite wrap_off by exact Hp.
  unfold eul, euler_timestep, blend.
  rewrite (flow_back _ _ _ _ _ _ _ _ _ _ A2 (A3 HN) Hi Hl), (flow_back _ _ _ _ _ _ _ _ _ _ A4 (A5 HN) Hi Hl),
    (flow_back _ _ _ _ _ _ _ _ _ _ A6 (A7 HN) Hi Hl), (flow_back _ _ _ _ _ _ _ _ _ _ A8 (A9 HN) Hi Hl). field.
Qed.

Lemma ab2_dumbbells st f st' : g_scheme g = ab2 -> (0 < Nd)%nat -> s_error st = false ->
  generate_frame inv Ns Nd far rest g st f <> Ok st'.
Proof.
  intros Hs Hd He H. destruct (frame_inv _ _ _ _ _ _ _ _ _ He H) as (regen & r & R1 & R2 & _).
  unfold step in R2. rewrite Hs in R2. apply euler_inv in R2.
  destruct R2 as (s & U & W & B & D & A1 & A2 & A3 & A4 & A5 & _). rewrite A5 in Hs by lia. discriminate.
Qed.

Lemma ab2_first st : Nd = 0%nat ->
  generate_frame inv Ns Nd far rest (with_scheme g ab2) st (g_start g) =
  generate_frame inv Ns Nd far rest (with_scheme g euler) st (g_start g).
Proof.
  intros Hd. subst Nd. unfold generate_frame. destruct (s_error st); [reflexivity|].
  unfold regenerate_now. cbn [g_invert_every g_start g_scheme with_scheme].
  destruct (divides (g_invert_every g) (g_start g)) as [d|]; [|reflexivity]. cbn [bind].
  unfold step_euler_ab2. cbn [g_start g_scheme with_scheme Nat.eqb]. rewrite Nat.eqb_refl.
  reflexivity.
Qed.

(** Orientations. *)
Definition arm (p : config) (i j : nat) : vec := vsub (c_srot p i j) (c_spos p i).
Definition arms_ok (p : config) (i : nat) : Prop := forall j, (j < 2)%nat -> arm_ok (c_spos p) (c_srot p) i j.

Lemma rot_arms x pos rot W dt i : inverts inv ->
  (forall j, (j < 2)%nat -> arm_ok pos rot i j) ->
  let new := euler_timestep_rotation inv pos rot x W dt in
  (forall j, (j < 2)%nat -> arm_ok x new i j) /\
  forall j j', (j < 2)%nat -> (j' < 2)%nat ->
    dot3 (vsub (new i j) (x i)) (vsub (new i j') (x i)) = dot3 (vsub (rot i j) (pos i)) (vsub (rot i j') (pos i)).
Proof.
  intros Hi Ha new. split.
  - intros j Hj. apply (new_ne inv pos x rot W dt Hi i j). apply Ha, Hj.
  - intros j j' Hj Hj'. apply new_dot; auto.
Qed.

Lemma step_arms f regen p err minv vel r i :
  inverts inv -> periodic g = false \/ g_scheme g = rk4 ->
  step inv Ns Nd far rest g f regen p err minv vel = Ok r ->
  arms_ok p i ->
  arms_ok (t_pos r) i /\ c_ssizes (t_pos r) = c_ssizes p /\
  forall j j', (j < 2)%nat -> (j' < 2)%nat -> dot3 (arm (t_pos r) i j) (arm (t_pos r) i j') = dot3 (arm p i j) (arm p i j').
Proof.
  intros Hi Hp H Ha. unfold step in H.
  assert (HC : exists x W, c_ssizes (t_pos r) = c_ssizes p /\
     ((c_spos (t_pos r) = c_spos p /\ c_srot (t_pos r) = c_srot p) \/
      (c_spos (t_pos r) = x /\ c_srot (t_pos r) = euler_timestep_rotation inv (c_spos p) (c_srot p) x W (g_dt g)))).
  { destruct (g_scheme g) eqn:Es; [| | |discriminate].
    1, 2: destruct Hp as [Hp|]; [|discriminate]; apply euler_inv in H;
      destruct H as (s & U & W & B & D & A1 & A2 & A3 & A4 & A5 & A6 & A7 & A8 & A9 & A10 & _);
      rewrite Es, !(wrap_off _ _ Hp) in A10; cbv zeta iota in A10; rewrite A10; cbn [c_spos c_srot c_ssizes];
      destruct (Nat.eqb Ns 0); [exists (c_spos p), (c_spos p); auto|].
    - eexists _, W. split; [reflexivity|]. right. split; reflexivity.
    - destruct (Nat.eqb f (g_start g)).
      + eexists _, W. split; [reflexivity|]. right. split; reflexivity.
      + eexists _, _. split; [reflexivity|]. right. split; reflexivity.
    - apply rk4_inv in H.
      destruct H as (s1 & p1 & U1 & B1 & D1 & O1 & e1 & s2 & p2 & U2 & B2 & D2 & O2 & e2 & s3 & p3 & U3 & B3 & D3 & O3 & e3 & s4 & U4 & B4 & D4 & O4
       & A1 & A2 & A3 & A4 & A5 & A6 & A7 & A8 & A9 & A10 & A11 & A12 & A13 & A14).
      rewrite A13. cbn [c_spos c_srot c_ssizes].
      destruct (Nat.eqb Ns 0); [exists (c_spos p), (c_spos p); auto|]. eexists _, _. split; [reflexivity|]. right. split; reflexivity. }
  destruct HC as (x & W & Hsz & [[E1 E2]|[E1 E2]]).
  - unfold arms_ok, arm. rewrite E1, E2, Hsz. auto.
  - unfold arms_ok, arm. rewrite E1, E2, Hsz. destruct (rot_arms x (c_spos p) (c_srot p) W (g_dt g) i Hi Ha) as [B1 B2]. auto.
Qed.

Lemma run_arms st l st' i :
  inverts inv -> periodic g = false \/ g_scheme g = rk4 ->
  run_frames inv Ns Nd far rest g st l = Ok st' -> arms_ok (s_pos st) i ->
  c_ssizes (s_pos st') = c_ssizes (s_pos st) /\
  forall j j', (j < 2)%nat -> (j' < 2)%nat ->
    dot3 (arm (s_pos st') i j) (arm (s_pos st') i j') = dot3 (arm (s_pos st) i j) (arm (s_pos st) i j').
Proof.
  intros Hi Hp. revert st. induction l as [|f l IH]; intros st H Ha.
  - injection H as <-. auto.
  - cbn [run_frames] in H. binv H. destruct (s_error st) eqn:He.
    + rewrite latch in E by exact He. injection E as <-. auto.
    + destruct (frame_inv _ _ _ _ _ _ _ _ _ He E) as (regen & r & R1 & R2 & R3 & _).
      destruct (step_arms _ _ _ _ _ _ _ _ Hi Hp R2 Ha) as (B1 & B2 & B3). rewrite <- R3 in B1, B2, B3.
      destruct (IH _ H B1) as [C1 C2]. split; [congruence|]. intros j j' Hj Hj'. rewrite C2, B3 by auto. reflexivity.
Qed.

Definition axes (j : nat) : vec := match j with O => v3 1 0 0 | _ => v3 0 0 1 end.
Lemma attached p0 l st i :
  inverts inv -> periodic g = false \/ g_scheme g = rk4 ->
  c_srot p0 = add_sphere_rotations (c_spos p0) (c_ssizes p0) axes -> 0 < c_ssizes p0 i ->
  run_frames inv Ns Nd far rest g (fresh p0) l = Ok st ->
  (forall j, (j < 2)%nat -> norm (vsub (c_srot (s_pos st) i j) (c_spos (s_pos st) i)) = c_ssizes (s_pos st) i) /\
  dot3 (vsub (c_srot (s_pos st) i 0%nat) (c_spos (s_pos st) i)) (vsub (c_srot (s_pos st) i 1%nat) (c_spos (s_pos st) i)) = 0.
Proof.
  intros Hi Hp Hr Hs H.
  assert (Hd : forall j j', (j < 2)%nat -> (j' < 2)%nat -> dot3 (arm p0 i j) (arm p0 i j') = if Nat.eqb j j' then c_ssizes p0 i * c_ssizes p0 i else 0).
  { intros j j' Hj Hj'. unfold arm. rewrite Hr. unfold add_sphere_rotations, vsub, dot3.
    destruct j as [|[|]]; try lia; destruct j' as [|[|]]; try lia; simpl; ring. }
  assert (Ha : arms_ok p0 i).
  { intros j Hj. unfold arm_ok. rewrite Hr. unfold add_sphere_rotations.
    destruct j as [|[|]]; try lia; [exists 0%nat|exists 2%nat]; split; try lia; simpl; lra. }
  destruct (run_arms _ _ _ i Hi Hp H Ha) as [C1 C2]. rewrite C1. split.
  - intros j Hj. rewrite norm_dot. fold (arm (s_pos st) i j). rewrite C2, Hd, Nat.eqb_refl by auto.
    apply sqrt_square. left. exact Hs.
  - fold (arm (s_pos st) i 0). fold (arm (s_pos st) i 1). rewrite C2, Hd by lia. reflexivity.
Qed.
End Back.

(** Periodic Euler: the sphere leaves the box on one side and comes back on the
    other, its orientation points do not. *)
Definition box_settings (sch : scheme) : settings :=
  mkSettings sch (1 / 5) 1 0 1 false false false true (v3 (-1) (-1) (-1)) (v3 1 1 1) 1 1 0 true 1.
Definition box_config : config :=
  mkConfig (fun _ => 1) (fun _ => v3 (9 / 10) 0 0) (add_sphere_rotations (fun _ => v3 (9 / 10) 0 0) (fun _ => 1) axes) (fun _ => 1)
           (fun _ => v3 0 0 0) (fun _ => v3 1 0 0).

Lemma box_basis : let B := shear_basis_vectors (diag3 (vsub (v3 1 1 1) (v3 (-1) (-1) (-1)))) (vsub (v3 1 1 1) (v3 (-1) (-1) (-1))) (v3 0 0 0) mzero in
  (forall i j, (i < 3)%nat -> (j < 3)%nat -> B i j = if Nat.eqb i j then 2 else 0) /\ is_inv 3 B (inv3 B).
Proof.
  intros B.
  assert (HB : forall i j, (i < 3)%nat -> (j < 3)%nat -> B i j = if Nat.eqb i j then 2 else 0).
  { intros i j Hi Hj. subst B. unfold shear_basis_vectors.
    replace (_ + rsum 3 _) with 0 by (idx3 Hj; idx3 Hi; unfold cross, diag3, mzero, v3, rsum; simpl; ring).
    rewrite rmod_0. idx3 Hi; idx3 Hj; unfold diag3, vsub; simpl; ring. }
  split; [exact HB|]. apply inv3_ok. unfold det3. rewrite !HB by lia. simpl. lra.
Qed.

Lemma detached : exists st,
  run_frames inv3 1 0 (fun _ _ => no_matrix) (ex_rest (v3 1 0 0)) (box_settings euler) (fresh box_config) (seq 0 1) = Ok st /\
  norm (vsub (c_srot box_config 0%nat 0%nat) (c_spos box_config 0%nat)) = 1 /\
  norm (vsub (c_srot (s_pos st) 0%nat 0%nat) (c_spos (s_pos st) 0%nat)) = 3.
Proof.
  assert (Hok : is_ok (run_frames inv3 1 0 (fun _ _ => no_matrix) (ex_rest (v3 1 0 0)) (box_settings euler) (fresh box_config) (seq 0 1)) (fun _ => true) = true)
    by (lazy; reflexivity).
  apply is_ok_spec in Hok. destruct Hok as (st & H & _). exists st. split; [exact H|].
  cbn [run_frames seq] in H. binv H. injection H as <-.
  destruct (frame_inv inv3 1 0 _ _ _ (fresh box_config) _ _ eq_refl E) as (regen & r & R1 & R2 & R3 & _). rewrite R3. clear R3 E.
  unfold step in R2. cbn [g_scheme box_settings] in R2. apply euler_inv in R2.
  destruct R2 as (s & U & W & B & D & A1 & A2 & A3 & A4 & A5 & A6 & A7 & A8 & A9 & A10 & _).
  injection A2 as <-. cbn [g_scheme box_settings g_dt fresh s_pos c_spos c_srot Nat.eqb box_config] in A10.
  destruct (A3 ltac:(lia)) as (U0 & E & EU). cbn [g_fully_2d box_settings] in EU. subst U0. clear A3.
  unfold flow_spheres in E. cbn in E. injection E as <- <-. cbv zeta in A10. rewrite A10. cbn [c_srot c_spos].
  assert (Hper : periodic (box_settings euler) = true).
  { unfold periodic. rewrite zero3_false; [reflexivity|]. exists 0%nat. split; [lia|]. unfold vsub. simpl. lra. }
  unfold wrap. rewrite Hper. cbn [g_box_bl g_box_tr box_settings].
  destruct box_basis as [HB HI].
  set (x := eul _ _ _). match goal with |- context [euler_timestep_rotation _ _ _ _ ?w _] => set (Om := w) end.
  assert (Hx : forall l, (l < 3)%nat -> x 0%nat l = v3 (11 / 10) 0 0 l).
  { intros l Hl. unfold x, eul, euler_timestep, mvec, cross, vsub, mzero. cbn [rsum ex_solution o_Ua o_Uinf o_Oinf o_centre]. idx3 Hl; simpl; lra. }
  assert (Hw : forall l, (l < 3)%nat -> wrap_around inv3 (x 0%nat) (v3 (-1) (-1) (-1)) (v3 1 1 1) (v3 0 0 0) mzero l = v3 (- (9 / 10)) 0 0 l).
  { intros l Hl. rewrite (wrap_unique inv3 _ _ _ _ HI _ (fun k => match k with O => (-1)%Z | _ => 0%Z end) (v3 (- (9 / 20)) 0 0)).
    - unfold rsum. rewrite !HB by lia. idx3 Hl; simpl; lra.
    - intros k Hk. idx3 Hk; simpl; lra.
    - intros k Hk. unfold lattice_shift, rsum. rewrite !HB, Hx by lia. idx3 Hk; simpl; lra. }
  cbn [ex_solution o_Ot o_Et].
  assert (Hr : forall l, (l < 3)%nat -> euler_timestep_rotation inv3 (fun _ => v3 (9 / 10) 0 0)
     (add_sphere_rotations (fun _ => v3 (9 / 10) 0 0) (fun _ => 1) axes) x Om (1 / 5) 0%nat 0%nat l = v3 (21 / 10) 0 0 l).
  { intros l Hl. rewrite new_still; [| exact inv3_inverts | exists 0%nat; split; [lia|]; unfold add_sphere_rotations; simpl; lra | exact Hl | ].
    - rewrite Hx by exact Hl. unfold add_sphere_rotations. idx3 Hl; simpl; lra.
    - intros k Hk. unfold Om. cbn [ex_solution o_Oa o_Oinf]. idx3 Hk; simpl; lra. }
  unfold norm, vsub. rewrite !Hr, !Hw by lia. unfold add_sphere_rotations. cbn [axes v3 c_srot c_spos box_config]. split.
  - unfold add_sphere_rotations. cbn [axes v3]. match goal with |- sqrt ?e = _ => replace e with (1 * 1) by field end. apply sqrt_square. lra.
  - match goal with |- sqrt ?e = _ => replace e with (3 * 3) by (simpl; field) end. apply sqrt_square. lra.
Qed.
