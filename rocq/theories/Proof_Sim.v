(** Translation of a whole run: the loop. *)
From Coq Require Import Reals List Arith Bool Lra Lia FunctionalExtensionality.
From Verif Require Import Base Py Model_Mob Model_Close Model_Step Model_Output Model_Frame Model_Inputs Spec_Sim.
Import ListNotations.
Local Open Scope R_scope.

Lemma vsub_moved x y d : vsub (vadd x d) (vadd y d) = vsub x y.
Proof. extensionality l. unfold vsub, vadd. ring. Qed.

Lemma rotate_point_moved inv R0 R1 O rb dt d :
  rotate_point inv (vadd R0 d) (vadd R1 d) O (vadd rb d) dt = vadd (rotate_point inv R0 R1 O rb dt) d.
Proof. unfold rotate_point. rewrite vsub_moved. extensionality l. unfold vadd at 2. unfold vadd. ring. Qed.

Definition mv (d : vec) (x : nat -> vec) : nat -> vec := fun i => vadd (x i) d.
Definition mv2 (d : vec) (x : nat -> nat -> vec) : nat -> nat -> vec := fun i j => vadd (x i j) d.

Lemma rotation_moved inv x r y W dt d :
  euler_timestep_rotation inv (mv d x) (mv2 d r) (mv d y) W dt = mv2 d (euler_timestep_rotation inv x r y W dt).
Proof. extensionality i. extensionality j. apply rotate_point_moved. Qed.
Lemma rotation_ab2_moved inv x r y W V dt d :
  ab2_timestep_rotation inv (mv d x) (mv2 d r) (mv d y) W V dt = mv2 d (ab2_timestep_rotation inv x r y W V dt).
Proof. apply rotation_moved. Qed.
Lemma eul_moved x u h d : eul (mv d x) u h = mv d (eul x u h).
Proof. extensionality i. extensionality l. unfold eul, mv, euler_timestep, vadd. ring. Qed.
Lemma ab2_moved x u v h d :
  (fun i => ab2_timestep (mv d x i) (u i) (v i) h) = mv d (fun i => ab2_timestep (x i) (u i) (v i) h).
Proof. extensionality i. extensionality l. unfold mv, ab2_timestep, vadd. ring. Qed.
Lemma append_moved Ns x y d : append_rows Ns (mv d x) (mv d y) = mv d (append_rows Ns x y).
Proof. extensionality i. unfold append_rows, mv. destruct (Nat.ltb i Ns); reflexivity. Qed.

Definition recentre (c : vec) (s : solution) : solution :=
  mkSol (o_Fa s) (o_Sa s) (o_Fb s) (o_DFb s) (o_Ua s) (o_Oa s) (o_Ea s) (o_Ub s) (o_HalfDUb s)
    (o_Uinf s) (o_Oinf s) c (o_Ot s) (o_Et s) (o_wall s).

Section Move.
Variable inv : mat -> mat.
Variables Ns Nd : nat.
Variables far far' : config -> R -> mat.
Variables rest rest' : config -> R -> velocities -> mat -> res solution.
Variable g : settings.
Variable d : vec.
Hypothesis Hper : periodic g = false.
Hypothesis Hfar : forall p t, far' (moved d p) t = far p t.
(** The displaced problem has the centre [nc s].  [Q] holds of all strains in
    use, and for them the background velocity at a displaced point about the
    new centre is the one at the point about the old centre. *)
Variable nc : solution -> vec.
Variable Q : mat -> Prop.
Hypothesis HQ0 : Q mzero.
Definition along (s : solution) : solution := recentre (nc s) s.
Definition good (s : solution) : Prop :=
  (forall E, In E (o_Ea s) -> Q E) /\
  forall E x l, Q E ->
    cross (o_Oinf s) (vsub (vadd x d) (nc s)) l + mvec 3 E (vsub (vadd x d) (nc s)) l =
    cross (o_Oinf s) (vsub x (o_centre s)) l + mvec 3 E (vsub x (o_centre s)) l.
Hypothesis Hgood : forall p t vel mi s, rest p t vel mi = Ok s -> good s.
Hypothesis Hrest : forall p t vel mi, rest' (moved d p) t vel mi = map_res along (rest p t vel mi).

Lemma gen_moved p t vel last regen :
  gen far' rest' g (moved d p) t vel last regen = map_res (fun r => (fst r, along (snd r))) (gen far rest g p t vel last regen).
Proof.
  unfold gen. rewrite Hfar, Hrest. destruct (rest p t vel _); reflexivity.
Qed.
Lemma gen_good p t vel last regen mi s : gen far rest g p t vel last regen = Ok (mi, s) -> good s.
Proof.
  unfold gen. intros H. destruct (rest p t vel _) as [s0|e] eqn:E in H; [|discriminate H]. injection H as _ <-.
  eapply Hgood. exact E.
Qed.

Lemma flow_spheres_moved s x : good s -> flow_spheres Ns (along s) (mv d x) = flow_spheres Ns s x.
Proof.
  intros [HE HF]. unfold flow_spheres. cbn [along recentre o_Ea o_Ua o_Oa o_Uinf o_Oinf o_centre].
  destruct (Nat.ltb _ _); [reflexivity|]. unfold mv, add_background_flow_sphere. f_equal. f_equal.
  extensionality i. cbn [fst]. extensionality l. rewrite !Rplus_assoc. f_equal. f_equal. apply HF.
  destruct (lt_dec i (length (o_Ea s))) as [Hi|Hi]; [apply HE, nth_In, Hi|].
  rewrite nth_overflow by lia. exact HQ0.
Qed.
Lemma flow_dumbbells_moved s Ea x dx : good s -> (forall E, In E Ea -> Q E) ->
  flow_dumbbells (along s) Ea (mv d x) dx = flow_dumbbells s Ea x dx.
Proof.
  intros [_ HF] HE. unfold flow_dumbbells. cbn [along recentre o_Ub o_HalfDUb o_Uinf o_Oinf o_centre].
  destruct Ea as [|E0 Ea]; [reflexivity|]. unfold mv, add_background_flow_dumbbell. f_equal. f_equal.
  extensionality i. cbn [fst]. extensionality l. rewrite !Rplus_assoc. f_equal. f_equal. apply HF, HE. left. reflexivity.
Qed.
Lemma wrap_id s x : wrap inv g s x = x.
Proof. unfold wrap. rewrite Hper. reflexivity. Qed.

Definition moved_step (r : stepped) : stepped :=
  mkStepped (moved d (t_pos r)) (t_minv r) (t_vel r) (t_error r) (t_forces r).

Lemma moved_mv p : moved d p = mkConfig (c_ssizes p) (mv d (c_spos p)) (mv2 d (c_srot p)) (c_dsizes p) (mv d (c_dpos p)) (c_ddx p).
Proof. reflexivity. Qed.

Lemma step_euler_ab2_moved f regen p err mi vel :
  step_euler_ab2 inv Ns Nd far' rest' g f regen (moved d p) err mi vel =
  map_res moved_step (step_euler_ab2 inv Ns Nd far rest g f regen p err mi vel).
Proof.
  unfold step_euler_ab2. rewrite gen_moved. destruct (gen far rest g p (INR f) vel mi regen) as [[mi' s]|e] eqn:G; [|reflexivity].
  apply gen_good in G.
  cbn [map_res bind fst snd]. rewrite moved_mv. cbn [c_spos c_srot c_dpos c_ddx c_ssizes c_dsizes].
  assert (HS : forall (B : Type) (k k' : (nat -> vec) * (nat -> nat -> vec) * (nat -> vec) * (nat -> vec) -> res B) h,
    (forall x r U W, k' (mv d x, mv2 d r, U, W) = map_res h (k (x, r, U, W))) ->
    bind (if Nat.eqb Ns 0 then Ok (mv d (c_spos p), mv2 d (c_srot p), v_U zero_vel, v_O zero_vel)
     else
       do (U, W) <- flow_spheres Ns (along s) (mv d (c_spos p)) ;;
       let U := if g_fully_2d g then flatten_y U else U in
       let first := match g_scheme g with euler => true | _ => Nat.eqb f (g_start g) end in
       let x := if first then eul (mv d (c_spos p)) U (g_dt g)
                else fun i => ab2_timestep (mv d (c_spos p) i) (U i) (v_U vel i) (g_dt g) in
       let r := if first then euler_timestep_rotation inv (mv d (c_spos p)) (mv2 d (c_srot p)) x W (g_dt g)
                else ab2_timestep_rotation inv (mv d (c_spos p)) (mv2 d (c_srot p)) x W (v_O vel) (g_dt g) in
       Ok (wrap inv g (along s) x, r, U, W)) k' =
    map_res h (bind (if Nat.eqb Ns 0 then Ok (c_spos p, c_srot p, v_U zero_vel, v_O zero_vel)
     else
       do (U, W) <- flow_spheres Ns s (c_spos p) ;;
       let U := if g_fully_2d g then flatten_y U else U in
       let first := match g_scheme g with euler => true | _ => Nat.eqb f (g_start g) end in
       let x := if first then eul (c_spos p) U (g_dt g)
                else fun i => ab2_timestep (c_spos p i) (U i) (v_U vel i) (g_dt g) in
       let r := if first then euler_timestep_rotation inv (c_spos p) (c_srot p) x W (g_dt g)
                else ab2_timestep_rotation inv (c_spos p) (c_srot p) x W (v_O vel) (g_dt g) in
       Ok (wrap inv g s x, r, U, W)) k)).
  { intros B k k' h H. destruct (Nat.eqb Ns 0); [apply H|].
    rewrite flow_spheres_moved by assumption. destruct (flow_spheres Ns s (c_spos p)) as [[U W]|e]; [|reflexivity].
    cbn [bind]. cbv zeta. rewrite !wrap_id. set (U' := if g_fully_2d g then _ else _).
    destruct (match g_scheme g with euler => true | _ => Nat.eqb f (g_start g) end).
    - rewrite eul_moved, rotation_moved. apply H.
    - rewrite ab2_moved, rotation_ab2_moved. apply H. }
  apply HS. clear HS. intros x r U W. cbv beta iota.
  destruct (Nat.eqb Nd 0); [reflexivity|].
  cbn [along recentre o_Ea]. rewrite flow_dumbbells_moved by (try assumption; apply G).
  destruct (flow_dumbbells s (o_Ea s) (c_dpos p) (c_ddx p)) as [[B D]|e]; [|reflexivity].
  cbn [bind]. destruct (g_scheme g); try reflexivity.
  cbv zeta. rewrite !wrap_id, eul_moved. reflexivity.
Qed.

Lemma rk4_stage_moved s Ea p err h : good s -> (forall E, In E Ea -> Q E) ->
  rk4_stage inv Ns Nd g (along s) Ea (moved d p) err h =
  map_res (fun '(q, U, B, D, W, e) => (moved d q, U, B, D, W, e)) (rk4_stage inv Ns Nd g s Ea p err h).
Proof.
  intros G HE. unfold rk4_stage. rewrite moved_mv. cbn [c_spos c_srot c_dpos c_ddx c_ssizes c_dsizes].
  assert (HS : forall (B : Type) (k k' : (nat -> vec) * (nat -> nat -> vec) * (nat -> vec) * (nat -> vec) -> res B) hh,
    (forall x r U W, k' (mv d x, mv2 d r, U, W) = map_res hh (k (x, r, U, W))) ->
    bind (if Nat.eqb Ns 0 then Ok (mv d (c_spos p), mv2 d (c_srot p), v_U zero_vel, v_O zero_vel)
     else
       do (U, W) <- flow_spheres Ns (along s) (mv d (c_spos p)) ;;
       let x := eul (mv d (c_spos p)) U h in
       Ok (wrap inv g (along s) x, euler_timestep_rotation inv (mv d (c_spos p)) (mv2 d (c_srot p)) x W h, U, W)) k' =
    map_res hh (bind (if Nat.eqb Ns 0 then Ok (c_spos p, c_srot p, v_U zero_vel, v_O zero_vel)
     else
       do (U, W) <- flow_spheres Ns s (c_spos p) ;;
       let x := eul (c_spos p) U h in
       Ok (wrap inv g s x, euler_timestep_rotation inv (c_spos p) (c_srot p) x W h, U, W)) k)).
  { intros B k k' hh H. destruct (Nat.eqb Ns 0); [apply H|].
    rewrite flow_spheres_moved by assumption. destruct (flow_spheres Ns s (c_spos p)) as [[U W]|e]; [|reflexivity].
    cbn [bind]. cbv zeta. rewrite !wrap_id, eul_moved, rotation_moved. apply H. }
  apply HS. clear HS. intros x r U W. cbv beta iota.
  destruct (Nat.eqb Nd 0); [reflexivity|].
  rewrite flow_dumbbells_moved by assumption.
  destruct (flow_dumbbells s Ea (c_dpos p) (c_ddx p)) as [[B D]|e]; [|reflexivity].
  cbn [bind]. cbv zeta. rewrite !wrap_id, eul_moved. reflexivity.
Qed.

Lemma step_rk4_moved f regen p err mi vel :
  step_rk4 inv Ns Nd far' rest' g f regen (moved d p) err mi vel =
  map_res moved_step (step_rk4 inv Ns Nd far rest g f regen p err mi vel).
Proof.
  unfold step_rk4. cbv zeta. rewrite gen_moved. destruct (gen far rest g p (INR f) vel mi regen) as [[mi' s1]|e] eqn:G1; [|reflexivity]. apply gen_good in G1.
  cbn [map_res bind fst snd]. change (o_Ea (along s1)) with (o_Ea s1).
  rewrite rk4_stage_moved by (try assumption; apply G1). destruct (rk4_stage inv Ns Nd g s1 (o_Ea s1) p err (g_dt g / 2)) as [[[[[[p1 U1] B1] D1] O1] e1]|e]; [|reflexivity].
  cbn [map_res bind].
  set (rg := if g_rk4_each g then regen else false).
  rewrite gen_moved. destruct (gen far rest g p1 (INR f + 5 / 10) vel mi' rg) as [[m2 s2]|e] eqn:G2; [|reflexivity]. apply gen_good in G2.
  cbn [map_res bind fst snd].
  rewrite rk4_stage_moved by (try assumption; apply G1). destruct (rk4_stage inv Ns Nd g s2 (o_Ea s1) p e1 (g_dt g / 2)) as [[[[[[p2 U2] B2] D2] O2] e2]|e]; [|reflexivity].
  cbn [map_res bind].
  rewrite gen_moved. destruct (gen far rest g p2 (INR f + 5 / 10) vel mi' rg) as [[m3 s3]|e] eqn:G3; [|reflexivity]. apply gen_good in G3.
  cbn [map_res bind fst snd]. change (o_Ea (along s3)) with (o_Ea s3).
  rewrite rk4_stage_moved by (try assumption; apply G3). destruct (rk4_stage inv Ns Nd g s3 (o_Ea s3) p e2 (g_dt g)) as [[[[[[p3 U3] B3] D3] O3] e3]|e]; [|reflexivity].
  cbn [map_res bind].
  rewrite gen_moved. destruct (gen far rest g p3 (INR f + 1) vel mi' rg) as [[m4 s4]|e] eqn:G4; [|reflexivity]. apply gen_good in G4.
  cbn [map_res bind fst snd]. change (o_Ea (along s4)) with (o_Ea s4).
  rewrite moved_mv. cbn [c_spos c_srot c_dpos c_ddx c_ssizes c_dsizes].
  rewrite flow_spheres_moved, flow_dumbbells_moved by (try assumption; apply G4).
  destruct (if Nat.eqb Ns 0 then Ok (v_U zero_vel, v_O zero_vel) else flow_spheres Ns s4 (c_spos p)) as [[U4 O4]|e]; [|reflexivity].
  cbn [bind].
  destruct (if Nat.eqb Nd 0 then Ok (v_B zero_vel, v_D zero_vel) else flow_dumbbells s4 (o_Ea s4) (c_dpos p) (c_ddx p)) as [[B4 D4]|e]; [|reflexivity].
  cbn [bind]. rewrite !wrap_id, !eul_moved, rotation_moved.
  destruct (Nat.eqb Ns 0), (Nat.eqb Nd 0); reflexivity.
Qed.

Lemma snap_moved p : snap Ns (moved d p) = moved_snap d (snap Ns p).
Proof. unfold snap, moved_snap. cbn [n_pos n_rot n_dx]. rewrite moved_mv. cbn [c_spos c_dpos c_srot c_ddx]. rewrite append_moved. reflexivity. Qed.

Lemma save_positions_moved f p p' sv :
  save_positions Ns g f (moved d p) (moved d p') (option_map (map (moved_snap d)) sv) =
  map_res (option_map (map (moved_snap d))) (save_positions Ns g f p p' sv).
Proof.
  unfold save_positions. destruct (g_save_pos g) as [|k]; [reflexivity|].
  destruct (_ && _)%bool; [|reflexivity].
  rewrite !snap_moved.
  destruct (Nat.eqb f (g_save_after g)).
  - cbn [bind]. destruct (Nat.eqb f (g_num_frames g - 1)); [|reflexivity].
    destruct sv; reflexivity.
  - destruct (negb (Nat.eqb f (g_start g))).
    + destruct sv as [l|]; [|reflexivity]. cbn [option_map bind].
      destruct (Nat.eqb f (g_num_frames g - 1)); cbn [map_res option_map]; rewrite !map_app; reflexivity.
    + cbn [bind]. destruct (Nat.eqb f (g_num_frames g - 1)); [|destruct sv; reflexivity].
      destruct sv as [l|]; [|reflexivity]. cbn [option_map map_res]. rewrite map_app. reflexivity.
Qed.

Lemma savez_moved s f : savez (option_map (map (moved_snap d)) s) f = map_res (moved_file d) (savez s f).
Proof. unfold savez. destruct f, s; reflexivity. Qed.

Lemma backup_moved fr s f old :
  backup g fr (option_map (map (moved_snap d)) s) f (option_map (moved_file d) old) =
  map_res (option_map (moved_file d)) (backup g fr s f old).
Proof.
  unfold backup. destruct (g_save_pos g); [reflexivity|]. destruct (divides _ _) as [due|e]; [|reflexivity].
  cbn [bind]. destruct (_ && _ && _ && _)%bool; [|reflexivity].
  rewrite savez_moved. destruct (savez s f); reflexivity.
Qed.

Lemma generate_frame_moved st f :
  generate_frame inv Ns Nd far' rest' g (moved_state d st) f =
  map_res (moved_state d) (generate_frame inv Ns Nd far rest g st f).
Proof.
  unfold generate_frame. cbn [moved_state s_error s_minv s_vel s_pos s_saved s_fsaved s_tempfile].
  destruct (s_error st) eqn:Ee; [cbn [map_res]; unfold moved_state; rewrite Ee; reflexivity|].
  destruct (regenerate_now g f) as [regen|e]; [|reflexivity]. cbn [bind]. cbv zeta.
  set (mi := if regen then _ else _). set (vel := if (_ || _)%bool then _ else _).
  assert (ES : match g_scheme g with
            | euler | ab2 => step_euler_ab2 inv Ns Nd far' rest' g f regen (moved d (s_pos st)) false mi vel
            | rk4 => step_rk4 inv Ns Nd far' rest' g f regen (moved d (s_pos st)) false mi vel
            | other_scheme => Raise SystemExit
            end = map_res moved_step match g_scheme g with
            | euler | ab2 => step_euler_ab2 inv Ns Nd far rest g f regen (s_pos st) false mi vel
            | rk4 => step_rk4 inv Ns Nd far rest g f regen (s_pos st) false mi vel
            | other_scheme => Raise SystemExit
            end).
  { destruct (g_scheme g); try apply step_euler_ab2_moved; try apply step_rk4_moved; reflexivity. }
  rewrite ES. clear ES. destruct (match g_scheme g with euler | ab2 => _ | rk4 => _ | other_scheme => _ end) as [r|e]; [|reflexivity].
  cbn [map_res bind moved_step t_pos t_forces t_error t_minv t_vel].
  rewrite save_positions_moved. destruct (save_positions Ns g f (s_pos st) (t_pos r) (s_saved st)) as [sv|e]; [|reflexivity].
  cbn [map_res bind]. destruct (save_forces g f (t_forces r) (s_fsaved st)) as [fs|e]; [|reflexivity].
  cbn [bind]. rewrite backup_moved. destruct (backup g f sv fs (s_tempfile st)) as [tp|e]; reflexivity.
Qed.

Lemma run_frames_moved l : forall st,
  run_frames inv Ns Nd far' rest' g (moved_state d st) l = map_res (moved_state d) (run_frames inv Ns Nd far rest g st l).
Proof.
  induction l as [|f l IH]; intros st; [reflexivity|]. cbn [run_frames]. rewrite generate_frame_moved.
  destruct (generate_frame inv Ns Nd far rest g st f) as [st'|e]; [|reflexivity]. cbn [map_res bind]. apply IH.
Qed.

Lemma run_moved st : run inv Ns Nd far' rest' g (moved_state d st) = map_res (moved_state d) (run inv Ns Nd far rest g st).
Proof. apply run_frames_moved. Qed.

Lemma simulate_moved p :
  simulate inv Ns Nd far' rest' g (fresh (moved d p)) =
  map_res (option_map (moved_file d)) (simulate inv Ns Nd far rest g (fresh p)).
Proof.
  unfold simulate. change (fresh (moved d p)) with (moved_state d (fresh p)). rewrite run_moved.
  destruct (run inv Ns Nd far rest g (fresh p)) as [st|e]; [|reflexivity]. cbn [map_res bind].
  unfold final_save. destruct (_ && _)%bool; [reflexivity|].
  cbn [moved_state s_saved s_fsaved]. rewrite savez_moved. destruct (savez (s_saved st) (s_fsaved st)); reflexivity.
Qed.
End Move.
