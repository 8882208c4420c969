(** Model of the simulation loop.
    Source: stokesian_dynamics/run_simulation.py (line numbers below) calling
    functions/timestepping.py (Model_Step).

    Not modelled: printing, timings, graphics ([view_graphics] is false),
    e-mail, and [last_velocity_vector], which is only passed
    around.  The solution of the grand mobility problem for one configuration
    ([generate_output_FTSUOE], see Model_Output) enters as the parameters [far]
    (inverse of the far-field mobility of a configuration at a time) and [rest]
    (everything else).  Python's global variables are the fields of [state]. *)
From Coq Require Import Reals List Arith Bool.
From Verif Require Import Base Py Model_Mob Model_Close Model_Step.
Import ListNotations.
Local Open Scope R_scope.

(** The tuple [posdata]; the numbers of spheres and dumbbells are parameters. *)
Record config := mkConfig {
  c_ssizes : nat -> R; c_spos : nat -> vec; c_srot : nat -> nat -> vec;
  c_dsizes : nat -> R; c_dpos : nat -> vec; c_ddx : nat -> vec }.

(** [last_velocities]: sphere, dumbbell, dumbbell difference, angular. *)
Record velocities := mkVel { v_U : nat -> vec; v_B : nat -> vec; v_D : nat -> vec; v_O : nat -> vec }.

(** What [generate_output_FTSUOE] returns and the loop uses. *)
Record solution := mkSol {
  o_Fa : nat -> vec; o_Sa : nat -> mat; o_Fb : nat -> vec; o_DFb : nat -> vec;
  o_Ua : nat -> vec; o_Oa : nat -> vec; o_Ea : list mat; o_Ub : nat -> vec; o_HalfDUb : nat -> vec;
  o_Uinf : vec; o_Oinf : vec; o_centre : vec; o_Ot : vec; o_Et : mat; o_wall : nat -> R }.

(** One entry of each of the saved arrays: positions, rotations, dumbbell
    vectors; forces and stresslets. *)
Record snapshot := mkSnap { n_pos : nat -> vec; n_rot : nat -> nat -> vec; n_dx : nat -> vec }.
Record fsnapshot := mkFsnap { n_Fa : nat -> vec; n_Fb : nat -> vec; n_DFb : nat -> vec; n_Sa : nat -> mat; n_wall : nat -> R }.

Inductive scheme := euler | ab2 | rk4 | other_scheme.

(** settings.py, and the periodic box (run_simulation.py 894-900). *)
Record settings := mkSettings {
  g_scheme : scheme; g_dt : R; g_num_frames : nat; g_start : nat;
  g_invert_every : nat; g_use_drag : bool; g_rk4_each : bool;
  g_fully_2d : bool; g_explosion : bool;
  g_box_bl : vec; g_box_tr : vec;
  g_save_pos : nat; g_save_forces : nat; g_save_after : nat;
  g_temp : bool; g_temp_every : nat }.

Record state := mkState {
  s_pos : config; s_error : bool; s_minv : mat; s_vel : velocities;
  s_saved : option (list snapshot); s_fsaved : option (list fsnapshot);
  s_tempfile : option (list snapshot * list fsnapshot) }.

(** [a % b == 0] on integers *)
Definition divides (b a : nat) : res bool :=
  match b with O => Raise ZeroDivisionError | _ => Ok (Nat.eqb (a mod b) 0) end.

(** [np.array([0])] in place of a matrix not yet computed (214) *)
Definition no_matrix : mat := fun _ _ => 0.

Definition zero_vel : velocities := mkVel (fun _ _ => 0) (fun _ _ => 0) (fun _ _ => 0) (fun _ _ => 0).

(** [Ua[:, 1] = 0] *)
Definition flatten_y (u : nat -> vec) : nat -> vec := fun i l => if Nat.eqb l 1 then 0 else u i l.

(** shared.py 203 [np.append(sphere_positions, dumbbell_positions, 0)] *)
Definition append_rows (Ns : nat) (a b : nat -> vec) : nat -> vec :=
  fun i => if Nat.ltb i Ns then a i else b (i - Ns)%nat.

Section Frame.
Variable inv : mat -> mat.                       (* np.linalg.inv, 3 by 3 *)
Variables Ns Nd : nat.
Variable far : config -> R -> mat.
Variable rest : config -> R -> velocities -> mat -> res solution.
Variable g : settings.

(** generate_output_FTSUOE as far as the loop is concerned: the inverse used
    (and returned), and the solution. *)
Definition gen (p : config) (t : R) (vel : velocities) (last : mat) (regenerate : bool) : res (mat * solution) :=
  let mi := if (g_use_drag g || regenerate)%bool then far p t else last in
  do s <- rest p t vel mi ;; Ok (mi, s).

(** timestepping.py 681-699 for all spheres; [Ea_out[i]] may be missing. *)
Definition flow_spheres (s : solution) (pos : nat -> vec) : res ((nat -> vec) * (nat -> vec)) :=
  if Nat.ltb (length (o_Ea s)) Ns then Raise IndexError
  else
    let E := fun i => nth i (o_Ea s) mzero in
    let r := fun i => add_background_flow_sphere (o_Ua s i) (o_Oa s i) (E i) (o_Uinf s) (o_Oinf s) (pos i) (o_centre s) in
    Ok (fun i => fst (r i), fun i => snd (r i)).

(** timestepping.py 702-725 for all dumbbells, with [Ea_out] given separately. *)
Definition flow_dumbbells (s : solution) (Ea : list mat) (pos dx : nat -> vec) : res ((nat -> vec) * (nat -> vec)) :=
  match Ea with
  | [] => Raise IndexError
  | E0 :: _ =>
      let r := fun i => add_background_flow_dumbbell (o_Ub s i) (o_HalfDUb s i) E0 (o_Uinf s) (o_Oinf s) (pos i) (dx i) (o_centre s) in
      Ok (fun i => fst (r i), fun i => snd (r i))
  end.

Definition eul (x u : nat -> vec) (dt : R) : nat -> vec := fun i => euler_timestep (x i) (u i) dt.
Definition twice (u : nat -> vec) : nat -> vec := fun i l => 2 * u i l.

(** 184-187 *)
Definition periodic : bool := negb (is_zero3 (vsub (g_box_bl g) (g_box_tr g))).
Definition wrap (s : solution) (x : nat -> vec) : nat -> vec :=
  if periodic then fun i => wrap_around inv (x i) (g_box_bl g) (g_box_tr g) (o_Ot s) (o_Et s) else x.

(** The results of a step: new positions, far-field inverse, velocities, error
    flag, forces. *)
Record stepped := mkStepped { t_pos : config; t_minv : mat; t_vel : velocities; t_error : bool; t_forces : fsnapshot }.

(** 234-313: Euler and AB2. *)
Definition step_euler_ab2 (frameno : nat) (regenerate : bool) (p : config) (error : bool) (minv : mat) (vel : velocities) : res stepped :=
  do (mi, s) <- gen p (INR frameno) vel minv regenerate ;;
  do (spos, srot, U, W) <-
    (if Nat.eqb Ns 0 then Ok (c_spos p, c_srot p, v_U zero_vel, v_O zero_vel)
     else
       do (U, W) <- flow_spheres s (c_spos p) ;;
       let U := if g_fully_2d g then flatten_y U else U in
       let first := match g_scheme g with euler => true | _ => Nat.eqb frameno (g_start g) end in
       let x := if first then eul (c_spos p) U (g_dt g)
                else fun i => ab2_timestep (c_spos p i) (U i) (v_U vel i) (g_dt g) in
       let r := if first then euler_timestep_rotation inv (c_spos p) (c_srot p) x W (g_dt g)
                else ab2_timestep_rotation inv (c_spos p) (c_srot p) x W (v_O vel) (g_dt g) in
       Ok (wrap s x, r, U, W)) ;;
  do (dpos, ddx, B, D, err) <-
    (if Nat.eqb Nd 0 then Ok (c_dpos p, c_ddx p, v_B zero_vel, v_D zero_vel, error)
     else
       do (B, D) <- flow_dumbbells s (o_Ea s) (c_dpos p) (c_ddx p) ;;
       match g_scheme g with
       | euler =>
           let x := eul (c_dpos p) B (g_dt g) in
           let dx := eul (c_ddx p) (twice D) (g_dt g) in
           Ok (wrap s x, dx, B, D, did_something_go_wrong error Nd dx (g_explosion g))
       | _ => Raise TypeError       (* 282: [frameno - checkpoint_filename], int - str *)
       end) ;;
  Ok (mkStepped (mkConfig (c_ssizes p) spos srot (c_dsizes p) dpos ddx) mi (mkVel U B D W) err
        (mkFsnap (o_Fa s) (o_Fb s) (o_DFb s) (o_Sa s) (o_wall s))).

(** One of the stages 1-3 of RK4 (347-383, 399-428, 441-470): from the solution
    [s] step from the positions at the start of the frame by [h].  [Ea] is the
    strain used for the dumbbells. *)
Definition rk4_stage (s : solution) (Ea : list mat) (p : config) (error : bool) (h : R)
    : res (config * (nat -> vec) * (nat -> vec) * (nat -> vec) * (nat -> vec) * bool) :=
  do (spos, srot, U, W) <-
    (if Nat.eqb Ns 0 then Ok (c_spos p, c_srot p, v_U zero_vel, v_O zero_vel)
     else
       do (U, W) <- flow_spheres s (c_spos p) ;;
       let x := eul (c_spos p) U h in
       Ok (wrap s x, euler_timestep_rotation inv (c_spos p) (c_srot p) x W h, U, W)) ;;
  do (dpos, ddx, B, D, err) <-
    (if Nat.eqb Nd 0 then Ok (c_dpos p, c_ddx p, v_B zero_vel, v_D zero_vel, error)
     else
       do (B, D) <- flow_dumbbells s Ea (c_dpos p) (c_ddx p) ;;
       let x := eul (c_dpos p) B h in
       let dx := eul (c_ddx p) (twice D) h in
       Ok (wrap s x, dx, B, D, did_something_go_wrong error Nd dx (g_explosion g))) ;;
  Ok (mkConfig (c_ssizes p) spos srot (c_dsizes p) dpos ddx, U, B, D, W, err).

(** [1/6 * (a + 2*b + 2*c + d)] *)
Definition blend (a b c d : nat -> vec) : nat -> vec := fun i l => 1 / 6 * (a i l + 2 * b i l + 2 * c i l + d i l).
Definition blend_m (a b c d : nat -> mat) : nat -> mat := fun i k l => 1 / 6 * (a i k l + 2 * b i k l + 2 * c i k l + d i k l).
Definition blend_v (a b c d : vec) : vec := fun l => 1 / 6 * (a l + 2 * b l + 2 * c l + d l).

(** 315-583: RK4. *)
Definition step_rk4 (frameno : nat) (regenerate : bool) (p : config) (error : bool) (minv : mat) (vel : velocities) : res stepped :=
  let dt := g_dt g in
  do (mi, s1) <- gen p (INR frameno) vel minv regenerate ;;
  do (p1, U1, B1, D1, O1, error) <- rk4_stage s1 (o_Ea s1) p error (dt / 2) ;;
  let regenerate := if g_rk4_each g then regenerate else false in
  do (_, s2) <- gen p1 (INR frameno + 5 / 10) vel mi regenerate ;;
  do (p2, U2, B2, D2, O2, error) <- rk4_stage s2 (o_Ea s1) p error (dt / 2) ;;     (* 416: Ea_out_k1 *)
  do (_, s3) <- gen p2 (INR frameno + 5 / 10) vel mi regenerate ;;
  do (p3, U3, B3, D3, O3, error) <- rk4_stage s3 (o_Ea s3) p error dt ;;
  do (_, s4) <- gen p3 (INR frameno + 1) vel mi regenerate ;;
  do (U4, O4) <- (if Nat.eqb Ns 0 then Ok (v_U zero_vel, v_O zero_vel) else flow_spheres s4 (c_spos p)) ;;
  do (B4, D4) <- (if Nat.eqb Nd 0 then Ok (v_B zero_vel, v_D zero_vel) else flow_dumbbells s4 (o_Ea s4) (c_dpos p) (c_ddx p)) ;;
  let U := if g_fully_2d g then flatten_y (blend U1 U2 U3 U4) else blend U1 U2 U3 U4 in
  let W := blend O1 O2 O3 O4 in
  let B := blend B1 B2 B3 B4 in
  let D := fun i l => 2 / 6 * (D1 i l + 2 * D2 i l + 2 * D3 i l + D4 i l) in
  let '(spos, srot) :=
    (if Nat.eqb Ns 0 then (c_spos p, c_srot p)
     else let x := wrap s1 (eul (c_spos p) U dt) in
          (x, euler_timestep_rotation inv (c_spos p) (c_srot p) x W dt)) in
  let '(dpos, ddx, err) :=
    (if Nat.eqb Nd 0 then (c_dpos p, c_ddx p, error)
     else let x := eul (c_dpos p) B dt in
          let dx := eul (c_ddx p) D dt in
          (wrap s1 x, dx, did_something_go_wrong error Nd dx (g_explosion g))) in
  Ok (mkStepped (mkConfig (c_ssizes p) spos srot (c_dsizes p) dpos ddx) mi (mkVel U B D W) err
        (mkFsnap (blend (o_Fa s1) (o_Fa s2) (o_Fa s3) (o_Fa s4))
                 (blend (o_Fb s1) (o_Fb s2) (o_Fb s3) (o_Fb s4))
                 (blend (o_DFb s1) (o_DFb s2) (o_DFb s3) (o_DFb s4))
                 (blend_m (o_Sa s1) (o_Sa s2) (o_Sa s3) (o_Sa s4))
                 (blend_v (o_wall s1) (o_wall s2) (o_wall s3) (o_wall s4)))).

Definition snap (p : config) : snapshot := mkSnap (append_rows Ns (c_spos p) (c_dpos p)) (c_srot p) (c_ddx p).

(** 601-625: saving positions, before ([p]) and after ([p']) the step.  Until
    the first save the arrays are an empty one-dimensional array or undefined,
    and appending raises ValueError. *)
Definition save_positions (frameno : nat) (p p' : config) (saved : option (list snapshot)) : res (option (list snapshot)) :=
  match g_save_pos g with
  | O => Ok saved
  | S _ =>
    if (Nat.eqb (frameno mod g_save_pos g) 0 && Nat.leb (g_save_after g) frameno)%bool then
      do saved1 <- (if Nat.eqb frameno (g_save_after g) then Ok (Some [snap p])
                    else if negb (Nat.eqb frameno (g_start g)) then
                      match saved with None => Raise ValueError | Some l => Ok (Some (l ++ [snap p])) end
                    else Ok saved) ;;
      if Nat.eqb frameno (g_num_frames g - 1) then
        match saved1 with None => Raise ValueError | Some l => Ok (Some (l ++ [snap p'])) end
      else Ok saved1
    else Ok saved
  end.

(** 626-647: saving forces; undefined before the first save. *)
Definition save_forces (frameno : nat) (f : fsnapshot) (saved : option (list fsnapshot)) : res (option (list fsnapshot)) :=
  match g_save_forces g with
  | O => Ok saved
  | S _ =>
    if (Nat.eqb (frameno mod g_save_forces g) 0 && Nat.leb (g_save_after g) frameno)%bool then
      if Nat.eqb frameno (g_save_after g) then Ok (Some [f])
      else if negb (Nat.eqb frameno (g_start g)) then
        match saved with None => Raise NameError | Some l => Ok (Some (l ++ [f])) end
      else Ok saved
    else Ok saved
  end.

(** [np.savez_compressed(..., Fa=saved_Fa_out, ..., centres=..., deltax=...)]:
    evaluating an undefined name raises. *)
Definition savez (s : option (list snapshot)) (f : option (list fsnapshot)) : res (list snapshot * list fsnapshot) :=
  match f, s with Some f, Some s => Ok (s, f) | _, _ => Raise NameError end.

(** 649-659: the backup file. *)
Definition backup (frameno : nat) (s : option (list snapshot)) (f : option (list fsnapshot))
    (old : option (list snapshot * list fsnapshot)) : res (option (list snapshot * list fsnapshot)) :=
  match g_save_pos g with
  | O => Ok old
  | S _ =>
    do due <- divides (g_temp_every g) frameno ;;
    if (due && negb (Nat.eqb (g_save_forces g) 0) && g_temp g && Nat.leb (g_save_after g) frameno)%bool
    then do c <- savez s f ;; Ok (Some c)
    else Ok old
  end.

(** 211-217 *)
Definition regenerate_now (frameno : nat) : res bool :=
  do d <- divides (g_invert_every g) frameno ;; Ok (d || Nat.eqb frameno (g_start g))%bool.

(** 139-732 [generate_frame] *)
Definition generate_frame (st : state) (frameno : nat) : res state :=
  if s_error st then Ok st
  else
    do regen <- regenerate_now frameno ;;
    let minv := if regen then no_matrix else s_minv st in
    let vel := if (Nat.eqb frameno 0 || Nat.eqb frameno (g_start g))%bool then zero_vel else s_vel st in
    do r <- match g_scheme g with
            | euler | ab2 => step_euler_ab2 frameno regen (s_pos st) (s_error st) minv vel
            | rk4 => step_rk4 frameno regen (s_pos st) (s_error st) minv vel
            | other_scheme => Raise SystemExit
            end ;;
    do saved <- save_positions frameno (s_pos st) (t_pos r) (s_saved st) ;;
    do fsaved <- save_forces frameno (t_forces r) (s_fsaved st) ;;
    do temp <- backup frameno saved fsaved (s_tempfile st) ;;
    Ok (mkState (t_pos r) (t_error r) (t_minv r) (t_vel r) saved fsaved temp).

(** 902-908: the loop over [range(checkpoint_start_from_frame, num_frames)]. *)
Fixpoint run_frames (st : state) (frames : list nat) : res state :=
  match frames with
  | [] => Ok st
  | f :: l => do st' <- generate_frame st f ;; run_frames st' l
  end.
Definition run (st : state) : res state :=
  run_frames st (seq (g_start g) (g_num_frames g - g_start g)).

(** 910-923: the final save; the backup file is deleted.  The result is the
    content of the output file, if one is written. *)
Definition final_save (st : state) : res (option (list snapshot * list fsnapshot)) :=
  if (Nat.eqb (g_save_forces g) 0 && Nat.eqb (g_save_pos g) 0)%bool then Ok None
  else do c <- savez (s_saved st) (s_fsaved st) ;; Ok (Some c).

Definition simulate (st : state) : res (option (list snapshot * list fsnapshot)) :=
  do st' <- run st ;; final_save st'.

(** 74-80: the state of a fresh run. *)
Definition fresh (p : config) : state := mkState p false no_matrix zero_vel None None None.
End Frame.

(** shared.py 221-244 [add_sphere_rotations_to_positions] *)
Definition add_sphere_rotations (pos : nat -> vec) (sizes : nat -> R) (r : nat -> vec) : nat -> nat -> vec :=
  fun i j l => pos i l + sizes i * r j l.

(** setups/positions.py 208-232 and run_simulation.py 792-801: continuing from a
    backup file.  [setup] is the configuration of the setup (only its sizes are
    used).  Returns the state and the frame to start from. *)
Definition resume (Ns : nat) (setup : config) (file : list snapshot * list fsnapshot) : state * nat :=
  let '(s, f) := file in
  let lastsnap := last s (mkSnap (fun _ _ => 0) (fun _ _ _ => 0) (fun _ _ => 0)) in
  let spos := n_pos lastsnap in
  let p := mkConfig (c_ssizes setup) spos
             (add_sphere_rotations spos (c_ssizes setup) (fun j => match j with O => v3 1 0 0 | _ => v3 0 0 1 end))
             (c_dsizes setup) (fun i => n_pos lastsnap (Ns + i)%nat) (n_dx lastsnap) in
  (mkState p false no_matrix zero_vel (Some s) (Some f) None, length s).
