(** Model of the example inputs.
    Source: stokesian_dynamics/setups/inputs.py [input_ftsuoe],
            stokesian_dynamics/setups/tests/inputs.py [input_ftsuoe_tests] and
            functions_positions.py 402-411 [simple_cubic_8].

    Of the returned tuple the description, Sa_c_in and Ea_c_in (never used) are
    omitted.  The arguments [last_velocities], [skip_computation] and
    [grand_resistance_matrix_fte] are not used by any of these inputs.  The
    frame number is real, as RK4 passes half frames. *)
From Coq Require Import Reals List Arith ZArith Bool.
From Verif Require Import Base Py Model_Mob Model_Shear Model_Repulsion Model_Output Model_Frame.
Import ListNotations.
Local Open Scope R_scope.

(** U_infinity, O_infinity, centre_of_background_flow, Ot_infinity,
    Et_infinity, box_bottom_left, box_top_right, mu. *)
Record flow := mkFlow {
  f_U : vec; f_O : vec; f_centre : vec; f_Ot : vec; f_Et : mat; f_bl : vec; f_tr : vec; f_mu : R }.

Definition zeros3 : list R := [0; 0; 0].
Definition zeros33 : list (list R) := [zeros3; zeros3; zeros3].

(** inputs.py 88-104: defaults; in the other forms nothing is given. *)
Definition default_inputs (fm : form) (Ns Nd : nat) : inputs :=
  let e := empty_vectors Ns Nd in
  match fm with
  | fte => mkInputs (repeat (Some zeros3) Ns) (repeat (Some zeros3) Ns) (i_Sa e)
                    (repeat (Some zeros3) Nd) (repeat (Some zeros3) Nd)
                    (i_Ua e) (i_Oa e) (repeat (Some zeros33) Ns) (i_Ub e) (i_HalfDUb e)
  | fts => mkInputs (repeat (Some zeros3) Ns) (repeat (Some zeros3) Ns) (repeat (Some zeros33) Ns)
                    (repeat (Some zeros3) Nd) (repeat (Some zeros3) Nd)
                    (i_Ua e) (i_Oa e) (i_Ea e) (i_Ub e) (i_HalfDUb e)
  | ufte => mkInputs (i_Fa e) (repeat (Some zeros3) Ns) (i_Sa e)
                     (repeat (Some zeros3) Nd) (repeat (Some zeros3) Nd)
                     (i_Ua e) (i_Oa e) (repeat (Some zeros33) Ns) (i_Ub e) (i_HalfDUb e)
  | _ => e
  end.
Definition default_flow : flow :=
  mkFlow (v3 0 0 0) (v3 0 0 0) (v3 0 0 0) (v3 0 0 0) mzero (v3 0 0 0) (v3 0 0 0) 1.

Definition with_Fa (i : inputs) (x : rows) : inputs :=
  mkInputs x (i_Ta i) (i_Sa i) (i_Fb i) (i_DFb i) (i_Ua i) (i_Oa i) (i_Ea i) (i_Ub i) (i_HalfDUb i).
Definition with_Ta (i : inputs) (x : rows) : inputs :=
  mkInputs (i_Fa i) x (i_Sa i) (i_Fb i) (i_DFb i) (i_Ua i) (i_Oa i) (i_Ea i) (i_Ub i) (i_HalfDUb i).
Definition with_Fb (i : inputs) (x : rows) : inputs :=
  mkInputs (i_Fa i) (i_Ta i) (i_Sa i) x (i_DFb i) (i_Ua i) (i_Oa i) (i_Ea i) (i_Ub i) (i_HalfDUb i).
Definition with_DFb (i : inputs) (x : rows) : inputs :=
  mkInputs (i_Fa i) (i_Ta i) (i_Sa i) (i_Fb i) x (i_Ua i) (i_Oa i) (i_Ea i) (i_Ub i) (i_HalfDUb i).
Definition with_Ua (i : inputs) (x : rows) : inputs :=
  mkInputs (i_Fa i) (i_Ta i) (i_Sa i) (i_Fb i) (i_DFb i) x (i_Oa i) (i_Ea i) (i_Ub i) (i_HalfDUb i).
Definition with_Ea (i : inputs) (x : tensors) : inputs :=
  mkInputs (i_Fa i) (i_Ta i) (i_Sa i) (i_Fb i) (i_DFb i) (i_Ua i) (i_Oa i) x (i_Ub i) (i_HalfDUb i).

(** [l[k] = x] *)
Definition set_row {A} (l : list A) (k : nat) (x : A) : res (list A) :=
  if Nat.ltb k (length l) then Ok (firstn k l ++ x :: skipn (S k) l) else Raise IndexError.

(** tests/inputs.py 38-98.  [Ea_in[0]] and [Ea_in[1]] get equal values. *)
Definition input_ftsuoe_tests (n : Z) (i : inputs) : res inputs :=
  let F k r := do x <- set_row (i_Fa i) k (Some r) ;; Ok (with_Fa i x) in
  let T k r := do x <- set_row (i_Ta i) k (Some r) ;; Ok (with_Ta i x) in
  let E m := do x <- set_row (i_Ea i) 0 (Some m) ;; do y <- set_row x 1 (Some m) ;; Ok (with_Ea i y) in
  match n with
  | (-1)%Z => F 0%nat [1; 0; 0]
  | (-2)%Z => F 0%nat [0; 1; 0]
  | (-3)%Z => F 1%nat [1; 0; 0]
  | (-4)%Z => F 1%nat [0; 1; 0]
  | (-5)%Z => T 0%nat [1; 0; 0]
  | (-6)%Z => T 0%nat [0; 1; 0]
  | (-7)%Z => T 1%nat [1; 0; 0]
  | (-8)%Z => T 1%nat [0; 1; 0]
  | (-9)%Z => E [[1; 0; 0]; [0; - (5 / 10); 0]; [0; 0; - (5 / 10)]]
  | (-10)%Z => E [[0; 0; 0]; [0; 0; 1]; [0; 1; 0]]
  | (-11)%Z => E [[0; 1; 0]; [1; 0; 0]; [0; 0; 0]]
  | (-12)%Z => do x <- set_row (i_Fa i) 0 (Some [1; 0; 0]) ;;
               do y <- set_row x 1 (Some [- (1); 0; 0]) ;; Ok (with_Fa i y)
  | (-13)%Z => do x <- set_row (i_Ta i) 0 (Some [1; 0; 0]) ;;
               do y <- set_row x 1 (Some [- (1); 0; 0]) ;; Ok (with_Ta i y)
  | _ => Raise SystemExit
  end.

(** functions_positions.py 402-411 [simple_cubic_8]: sphere positions (i
    outermost, k innermost), box corners. *)
Definition simple_cubic_8 (s : R) : list vec * vec * vec :=
  let side := [- s / 4; s / 4] in
  (flat_map (fun i => flat_map (fun j => map (fun k => v3 i j k) side) side) side,
   v3 (- s / 2) (- s / 2) (- s / 2), v3 (s / 2) (s / 2) (s / 2)).

Definition row (v : vec) : list R := [v 0%nat; v 1%nat; v 2%nat].
Definition row2 (m : mat) : list (list R) := [row (m 0%nat); row (m 1%nat); row (m 2%nat)].
(** Rows of a list as a function of the row number. *)
Definition unrow (l : list (list R)) : nat -> vec := fun i k => nth k (nth i l []) 0.

(** inputs.py 130-136: spring force of a dumbbell with end-to-end vector [dx].
    (For [dx = 0] python gets NaN.) *)
Definition spring_force (dx : vec) : list R :=
  row (fun l => - (1) * (dx l - 2 * dx l / norm dx)).

(** The result of a shear function put in place. *)
Definition with_shear (i : inputs) (h : shear) : inputs * flow :=
  (with_Ea i (map (fun m => Some (row2 m)) (h_Ea h)),
   mkFlow (h_U h) (h_O h) (h_centre h) (h_Ot h) (h_Et h) (v3 0 0 0) (v3 0 0 0) 1).

(** [Ua_in[:] = [[-1,0,0]]*(m//2) + [[1,0,0]]*(m - m//2)] *)
Definition opposed (m : nat) : rows := repeat (Some [- (1); 0; 0]) (m / 2) ++ repeat (Some [1; 0; 0]) (m - m / 2).

(** inputs.py 14-193 [input_ftsuoe].  In case 4 a placeholder among the forces
    meets a subtraction (TypeError). *)
Definition input_ftsuoe (n : Z) (fm : form) (Ns Nd : nat) (p : config) (frameno timestep : R) : res (inputs * flow) :=
  let i := default_inputs fm Ns Nd in
  if (n <? 0)%Z then do i' <- input_ftsuoe_tests n i ;; Ok (i', default_flow)
  else match n with
  | 1%Z => Ok (with_Fa i (repeat (Some [0; 0; - (1)]) Ns), default_flow)
  | 2%Z =>
      let '(_, bl, tr) := simple_cubic_8 8 in
      Ok (with_Fa i (repeat (Some [0; 0; - (1)]) Ns), mkFlow (v3 0 0 0) (v3 0 0 0) (v3 0 0 0) (v3 0 0 0) mzero bl tr 1)
  | 3%Z =>
      let i := with_DFb i (map (fun k => Some (spring_force (c_ddx p k))) (seq 0 Nd)) in
      do h <- oscillatory_shear (1 / 3) 10 frameno timestep 0 (v3 (225 / 100) 0 (225 / 100)) Ns 1 false false ;;
      Ok (with_shear i h)
  | 4%Z =>
      do Fa <- given TypeError (i_Fa i) ;;
      do Fb <- given TypeError (i_Fb i) ;;
      do DFb <- given TypeError (i_DFb i) ;;
      do (Fa', Fb', DFb') <- repulsion_forces 50 20 Ns Nd (c_spos p) (c_dpos p) (c_ddx p) (c_ssizes p) (c_dsizes p) 0
                               (unrow Fa) (unrow Fb) (unrow DFb) ;;
      Ok (with_DFb (with_Fb (with_Fa i (map (fun k => Some (row (Fa' k))) (seq 0 Ns)))
                            (map (fun k => Some (row (Fb' k))) (seq 0 Nd)))
                   (map (fun k => Some (row (DFb' k))) (seq 0 Nd)), default_flow)
  | 5%Z => Ok (with_Ua i (opposed Ns), default_flow)
  | 6%Z => Ok (with_Fa (with_Ua i (set_slice (i_Ua i) 0 90 (opposed 90)))
                 (set_slice (i_Fa i) 90 (length (i_Fa i)) (repeat (Some [10; 0; 0]) 9)), default_flow)
  | 7%Z => Ok (with_shear i (constant_shear 1 frameno timestep (v3 0 0 0) Ns))
  | _ => Raise SystemExit
  end.
