(** What a run must do: solve the equations of Stokesian dynamics for each
    configuration and move the particles with the result. *)
From Coq Require Import Reals List Arith Bool.
From Verif Require Import Base Py Model_Mob Model_Minf Model_Grand Model_Close Model_R2B Model_MinfP Model_GrandP Model_Step
  Model_Output Model_Frame Model_Inputs Model_Sim Spec_Pack Spec_Convert Spec_Output Spec_Step Spec_Frame Spec_Posdef.
Import ListNotations.
Local Open Scope R_scope.

(** Row [j] of a table, and matrix [j] of a list of matrices. *)
Definition rowof (l : list (list R)) (j : nat) : vec := fun a => nth a (nth j l []) 0.
Definition matof (l : list (list (list R))) (j : nat) : mat := fun a b => nth b (nth a (nth j l []) []) 0.

Section Run.
Variable inv3 : mat -> mat.
Variable sc : nat -> nat -> R -> nat -> R.
Variable table : list R.
Variable h : nat.
Variable stale : nat -> nat -> R.
Variables Ns Nd : nat.
Variable fm : form.
Variables bb minf_only : bool.
Variable cutoff_factor : R.
Variable g : settings.
Variable input : config -> R -> res (inputs * flow).
Let n := (11 * Ns + 6 * Nd)%nat.

(** The inputs of the form: exactly one of force and velocity for each
    particle, torques, and strains (fts: stresslets). *)
Definition well_posed (i : inputs) : Prop :=
  all_given Ns 3 (i_Ta i) /\
  match fm with
  | fts => length (i_Ua i) = Ns /\ all_given Ns 3 (i_Fa i) /\ all_given33 Ns (i_Sa i) /\
           all_given Nd 3 (i_Fb i) /\ all_given Nd 3 (i_DFb i)
  | fte => all_given Ns 3 (i_Fa i) /\ all_given33 Ns (i_Ea i) /\ all_given Nd 3 (i_Fb i) /\ all_given Nd 3 (i_DFb i)
  | ufte => (exists nfix, split_given Ns nfix (i_Ua i) (i_Fa i) /\ rest_missing Ns nfix (i_Ua i)) /\ all_given33 Ns (i_Ea i) /\
            all_given Nd 3 (i_Fb i) /\ all_given Nd 3 (i_DFb i)
  | ufteu => (exists nfix, split_given Ns nfix (i_Ua i) (i_Fa i) /\ rest_missing Ns nfix (i_Ua i)) /\ all_given33 Ns (i_Ea i) /\
             exists nfixd, split_given Nd nfixd (i_Ub i) (i_Fb i) /\ rest_missing Nd nfixd (i_Ub i) /\
                           split_given Nd nfixd (i_HalfDUb i) (i_DFb i)
  | _ => False
  end.

(** The right numbers of rows and tensors; computed tensors are symmetric and
    traceless. *)
Definition of_shape (o : outputs) : Prop :=
  shaped Ns 3 (Model_Output.o_Fa o) /\ shaped Ns 3 (o_Ta o) /\ shaped Nd 3 (Model_Output.o_Fb o) /\ shaped Nd 3 (Model_Output.o_DFb o) /\
  shaped Ns 3 (Model_Output.o_Ua o) /\ shaped Ns 3 (Model_Output.o_Oa o) /\
  shaped Nd 3 (Model_Output.o_Ub o) /\ shaped Nd 3 (Model_Output.o_HalfDUb o) /\
  (length (Model_Output.o_Sa o) = Ns /\ forall s, In s (Model_Output.o_Sa o) -> is33 s) /\
  (length (Model_Output.o_Ea o) = Ns /\ forall e, In e (Model_Output.o_Ea o) -> is33 e) /\
  (if (match fm with fts => true | _ => false end) then shaped_st Ns (Model_Output.o_Ea o) else shaped_st Ns (Model_Output.o_Sa o)).

(** Every prescribed value is kept, and forces are [R0] times velocities. *)
Definition answers (i : inputs) (R0 : mat) (o : outputs) : Prop :=
  resistance_relation Ns Nd R0
    (Model_Output.o_Fa o) (o_Ta o) (Model_Output.o_Sa o) (Model_Output.o_Fb o) (Model_Output.o_DFb o)
    (Model_Output.o_Ua o) (Model_Output.o_Oa o) (Model_Output.o_Ea o) (Model_Output.o_Ub o) (Model_Output.o_HalfDUb o) /\
  of_shape o /\ keeps 0 Ns (i_Ta i) (o_Ta o) /\
  match fm with
  | fts => keeps 0 Ns (i_Fa i) (Model_Output.o_Fa o) /\ keeps 0 Ns (i_Sa i) (Model_Output.o_Sa o) /\
           keeps 0 Nd (i_Fb i) (Model_Output.o_Fb o) /\ keeps 0 Nd (i_DFb i) (Model_Output.o_DFb o)
  | fte => keeps 0 Ns (i_Fa i) (Model_Output.o_Fa o) /\ keeps 0 Ns (i_Ea i) (Model_Output.o_Ea o) /\
           keeps 0 Nd (i_Fb i) (Model_Output.o_Fb o) /\ keeps 0 Nd (i_DFb i) (Model_Output.o_DFb o)
  | ufte => (exists nfix, rest_missing Ns nfix (i_Ua i) /\
               keeps 0 nfix (i_Ua i) (Model_Output.o_Ua o) /\ keeps nfix Ns (i_Fa i) (Model_Output.o_Fa o)) /\
            keeps 0 Ns (i_Ea i) (Model_Output.o_Ea o) /\
            keeps 0 Nd (i_Fb i) (Model_Output.o_Fb o) /\ keeps 0 Nd (i_DFb i) (Model_Output.o_DFb o)
  | ufteu => (exists nfix, rest_missing Ns nfix (i_Ua i) /\
                keeps 0 nfix (i_Ua i) (Model_Output.o_Ua o) /\ keeps nfix Ns (i_Fa i) (Model_Output.o_Fa o)) /\
             keeps 0 Ns (i_Ea i) (Model_Output.o_Ea o) /\
             exists nfixd, rest_missing Nd nfixd (i_Ub i) /\
               keeps 0 nfixd (i_Ub i) (Model_Output.o_Ub o) /\ keeps nfixd Nd (i_Fb i) (Model_Output.o_Fb o) /\
               keeps 0 nfixd (i_HalfDUb i) (Model_Output.o_HalfDUb o) /\ keeps nfixd Nd (i_DFb i) (Model_Output.o_DFb o)
  | _ => False
  end.

(** The far-field mobility and the near-field resistance of a configuration,
    unbounded or in the periodic box of the inputs. *)
Definition unbounded (f : flow) : Prop := forall l, (l < 3)%nat -> f_bl f l = f_tr f l.
Definition far_mobility (p : config) (f : flow) (M : mat) : Prop :=
  (unbounded f -> M = generate_Minfinity bb (posdata_of Ns Nd p) (f_mu f)) /\
  (~ unbounded f -> M = generate_Minfinity_periodic h bb (posdata_of Ns Nd p) (f_bl f) (f_tr f) (f_mu f) (f_Ot f) (f_Et f) stale).
Definition near_field (p : config) (f : flow) (N : mat) : Prop :=
  if minf_only then N = mzero
  else (unbounded f -> generate_R2Bexact_free sc table bb (posdata_of Ns Nd p) cutoff_factor (f_mu f) = Some N) /\
       (~ unbounded f ->
        generate_R2Bexact_periodic inv3 sc table bb (posdata_of Ns Nd p) cutoff_factor (f_mu f) (vsub (f_tr f) (f_bl f)) (f_Ot f) (f_Et f) = Some N).

(** The far-field resistance used in frame [m] of the trajectory [pos]: the
    inverse of the mobility of the latest configuration due for inversion, or
    with the drag option the drag matrix (unbounded domains only). *)
Definition far_resistance (pos : nat -> config) (m : nat) (L : mat) : Prop :=
  if g_use_drag g then
    exists i f, input (pos m) (INR m) = Ok (i, f) /\ unbounded f /\ L = drag_Minfinity_inverse (posdata_of Ns Nd (pos m)) (f_mu f)
  else
    exists k i f M, latest_due 0 (g_invert_every g) m k /\ input (pos k) (INR k) = Ok (i, f) /\
      far_mobility (pos k) f M /\ is_inv n M L.

(** The grand problem of frame [m]. *)
Definition solved (pos : nat -> config) (m : nat) (f : flow) (o : outputs) : Prop :=
  exists i L N, input (pos m) (INR m) = Ok (i, f) /\ far_resistance pos m L /\ near_field (pos m) f N /\
    answers i (fun a b => L a b + N a b) o.

(** Velocities with the background flow; [fully_2d] removes the y component of
    the velocities of the spheres. *)
Definition sphere_speed (f : flow) (o : outputs) (p : config) (j : nat) : vec := fun l =>
  if (g_fully_2d g && Nat.eqb l 1)%bool then 0
  else rowof (Model_Output.o_Ua o) j l + linear_flow (f_U f) (f_O f) (matof (Model_Output.o_Ea o) j) (f_centre f) (c_spos p j) l.
Definition sphere_spin (f : flow) (o : outputs) (j : nat) : vec := fun l => rowof (Model_Output.o_Oa o) j l + f_O f l.
Definition bead_flow (f : flow) (o : outputs) (x : vec) (l : nat) : R :=
  linear_flow (f_U f) (f_O f) (matof (Model_Output.o_Ea o) 0) (f_centre f) x l.
Definition centre_speed (f : flow) (o : outputs) (p : config) (j : nat) : vec := fun l =>
  rowof (Model_Output.o_Ub o) j l +
  (bead_flow f o (bead_minus (c_dpos p j) (c_ddx p j)) l + bead_flow f o (bead_plus (c_dpos p j) (c_ddx p j)) l) / 2.
Definition stretch_speed (f : flow) (o : outputs) (p : config) (j : nat) : vec := fun l =>
  2 * rowof (Model_Output.o_HalfDUb o) j l +
  (bead_flow f o (bead_plus (c_dpos p j) (c_ddx p j)) l - bead_flow f o (bead_minus (c_dpos p j) (c_ddx p j)) l).

(** In a periodic box particles are put back into it (C29). *)
Definition landed (f : flow) (x y : vec) : Prop :=
  forall l, (l < 3)%nat -> y l = if periodic g then wrap_around inv3 x (g_box_bl g) (g_box_tr g) (f_Ot f) (f_Et f) l else x l.

(** An orientation vector [v] after a step with spin [w]: turned about [w] by
    the angle |w| dt (C28); [np.linalg.inv] inverts. *)
Definition turned_to (w v v' : vec) : Prop :=
  inverts inv3 -> (exists l, (l < 3)%nat /\ v l <> 0) -> forall l, (l < 3)%nat -> v' l = rodrigues w (norm w * g_dt g) v l.

(** One frame: Euler, or Adams-Bashforth with the speeds [V] and spins [W] of
    the frame before.  Orientation points turn about the new centre, taken
    before it is put back into the box (finding of C30). *)
Definition moved_on (m : nat) (f : flow) (o : outputs) (V W : nat -> vec) (p p' : config) : Prop :=
  let first := match g_scheme g with euler => true | _ => Nat.eqb m 0 end in
  c_ssizes p' = c_ssizes p /\ c_dsizes p' = c_dsizes p /\
  (forall j, (j < Ns)%nat -> exists x, landed f x (c_spos p' j) /\
     (forall l, (l < 3)%nat ->
        x l = c_spos p j l + g_dt g *
          (if first then sphere_speed f o p j l else 3 / 2 * sphere_speed f o p j l - 1 / 2 * V j l)) /\
     forall k, turned_to (fun l => if first then sphere_spin f o j l else 3 / 2 * sphere_spin f o j l - 1 / 2 * W j l)
                 (vsub (c_srot p j k) (c_spos p j)) (vsub (c_srot p' j k) x)) /\
  (forall j, (j < Nd)%nat -> (exists x, landed f x (c_dpos p' j) /\ forall l, (l < 3)%nat ->
       x l = c_dpos p j l + g_dt g * centre_speed f o p j l) /\
     forall l, (l < 3)%nat -> c_ddx p' j l = c_ddx p j l + g_dt g * stretch_speed f o p j l).

(** The saved forces. *)
Definition forces_of (o : outputs) : fsnapshot :=
  mkFsnap (rowof (Model_Output.o_Fa o)) (rowof (Model_Output.o_Fb o)) (rowof (Model_Output.o_DFb o))
    (matof (Model_Output.o_Sa o)) (fun _ => 0).
End Run.
