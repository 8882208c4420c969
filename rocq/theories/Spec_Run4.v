(** What a run with the Runge-Kutta scheme must do (Spec_Run: Euler and
    Adams-Bashforth). *)
From Coq Require Import Reals List Arith Bool.
From Verif Require Import Base Py Model_Mob Model_Minf Model_Grand Model_Close Model_R2B Model_MinfP Model_GrandP Model_Step
  Model_Output Model_Frame Model_Inputs Model_Sim Spec_Pack Spec_Convert Spec_Output Spec_Step Spec_Frame Spec_Posdef Spec_Run.
Import ListNotations.
Local Open Scope R_scope.

(** Stages 0 to 3 of frame [m] are at these times, with these steps from the
    start of the frame to the next. *)
Definition stage_time (m k : nat) : R :=
  match k with O => INR m | 1%nat | 2%nat => INR m + 1 / 2 | _ => INR m + 1 end.
Definition stage_step (dt : R) (k : nat) : R := match k with O | 1%nat => dt / 2 | _ => dt end.
(** Weighted mean over the stages. *)
Definition mean4 (a : nat -> R) : R := 1 / 6 * (a 0%nat + 2 * a 1%nat + 2 * a 2%nat + a 3%nat).
(** The strain added to the dumbbells in a stage is that of this stage
    (line 416 takes that of the stage before). *)
Definition strain_stage (k : nat) : nat := match k with 1%nat => 0%nat | _ => k end.

Section Run4.
Variable inv3 : mat -> mat.
Variable sc : nat -> nat -> R -> nat -> R.
Variable table : list R.
Variable h : nat.
Variable stale : nat -> nat -> R.
Variables Ns Nd : nat.
Variable fm : form.
Variables bb minf_only : bool.
Variable cutoff_factor : R.
Variable g : settings.
Variable input : config -> R -> res (inputs * flow).
Let n := (11 * Ns + 6 * Nd)%nat.

(** The far-field resistance of a configuration at a time. *)
Definition far_of (q : config) (t : R) (L : mat) : Prop :=
  if g_use_drag g then
    exists i f, input q t = Ok (i, f) /\ unbounded f /\ L = drag_Minfinity_inverse (posdata_of Ns Nd q) (f_mu f)
  else exists i f M, input q t = Ok (i, f) /\ far_mobility h stale Ns Nd bb q f M /\ is_inv n M L.

(** That used in a stage: in the first that of the latest configuration due for
    inversion; in the others the same, unless the drag matrix is used or, in a
    frame due, rk4_generate_minfinity_for_each_stage is set. *)
Definition stage_far (pos : nat -> config) (m k : nat) (q : config) (L0 L : mat) : Prop :=
  match k with
  | O => far_resistance h stale Ns Nd bb g input pos m L
  | _ => (g_use_drag g = true \/ (g_rk4_each g = true /\ inversion_due 0 (g_invert_every g) m) -> far_of q (stage_time m k) L) /\
         (g_use_drag g = false -> g_rk4_each g = false \/ ~ inversion_due 0 (g_invert_every g) m -> L = L0)
  end.
Definition stage_solved (q : config) (t : R) (L : mat) (f : flow) (o : outputs) : Prop :=
  exists i N, input q t = Ok (i, f) /\ near_field inv3 sc table Ns Nd bb minf_only cutoff_factor q f N /\
    answers Ns Nd fm i (fun a b => L a b + N a b) o.

(** Velocities of a stage: the background flow is taken at the positions [p] of
    the start of the frame (finding of C27). *)
Definition stage_speed (f : flow) (o : outputs) (p : config) (j : nat) : vec := fun l =>
  rowof (Model_Output.o_Ua o) j l + linear_flow (f_U f) (f_O f) (matof (Model_Output.o_Ea o) j) (f_centre f) (c_spos p j) l.
Definition flow_with (f : flow) (A : mat) (x : vec) (l : nat) : R := linear_flow (f_U f) (f_O f) A (f_centre f) x l.
Definition stage_centre (f : flow) (o : outputs) (A : mat) (p : config) (j : nat) : vec := fun l =>
  rowof (Model_Output.o_Ub o) j l +
  (flow_with f A (bead_minus (c_dpos p j) (c_ddx p j)) l + flow_with f A (bead_plus (c_dpos p j) (c_ddx p j)) l) / 2.
Definition stage_stretch (f : flow) (o : outputs) (A : mat) (p : config) (j : nat) : vec := fun l =>
  2 * rowof (Model_Output.o_HalfDUb o) j l +
  (flow_with f A (bead_plus (c_dpos p j) (c_ddx p j)) l - flow_with f A (bead_minus (c_dpos p j) (c_ddx p j)) l).

Definition turned_by (t : R) (w v v' : vec) : Prop :=
  inverts inv3 -> (exists l, (l < 3)%nat /\ v l <> 0) -> forall l, (l < 3)%nat -> v' l = rodrigues w (norm w * t) v l.

(** From [p] to [q] in time [t] with these velocities; [f] is the flow in whose
    box particles are put back.  [turn_after]: orientation points turn about
    the centre put back into the box, not about the one before. *)
Definition moved_by (turn_after : bool) (t : R) (f : flow) (U W B D : nat -> vec) (p q : config) : Prop :=
  c_ssizes q = c_ssizes p /\ c_dsizes q = c_dsizes p /\
  (forall j, (j < Ns)%nat -> exists x, landed inv3 g f x (c_spos q j) /\
     (forall l, (l < 3)%nat -> x l = c_spos p j l + t * U j l) /\
     forall k, turned_by t (W j) (vsub (c_srot p j k) (c_spos p j)) (vsub (c_srot q j k) (if turn_after then c_spos q j else x))) /\
  (forall j, (j < Nd)%nat -> (exists x, landed inv3 g f x (c_dpos q j) /\ forall l, (l < 3)%nat -> x l = c_dpos p j l + t * B j l) /\
     forall l, (l < 3)%nat -> c_ddx q j l = c_ddx p j l + t * D j l).

(** The first [K] stages of frame [m], and the configuration of stage [K]. *)
Definition stages (pos : nat -> config) (m K : nat) (q : nat -> config) (L : nat -> mat) (fl : nat -> flow) (o : nat -> outputs) : Prop :=
  q 0%nat = pos m /\
  (forall k, (k < K)%nat -> stage_far pos m k (q k) (L 0%nat) (L k) /\ stage_solved (q k) (stage_time m k) (L k) (fl k) (o k)) /\
  (forall k, (k < K)%nat -> (k < 3)%nat ->
     let A := matof (Model_Output.o_Ea (o (strain_stage k))) 0 in
     moved_by false (stage_step (g_dt g) k) (fl k) (stage_speed (fl k) (o k) (pos m)) (sphere_spin (fl k) (o k))
       (stage_centre (fl k) (o k) A (pos m)) (stage_stretch (fl k) (o k) A (pos m)) (pos m) (q (S k))).

(** The frame: velocities are the means over the stages. *)
Definition advanced (fl : nat -> flow) (o : nat -> outputs) (p p' : config) : Prop :=
  let A := fun k => matof (Model_Output.o_Ea (o (strain_stage k))) 0 in
  moved_by true (g_dt g) (fl 0%nat)
    (fun j l => if (g_fully_2d g && Nat.eqb l 1)%bool then 0 else mean4 (fun k => stage_speed (fl k) (o k) p j l))
    (fun j l => mean4 (fun k => sphere_spin (fl k) (o k) j l))
    (fun j l => mean4 (fun k => stage_centre (fl k) (o k) (A k) p j l))
    (fun j l => mean4 (fun k => stage_stretch (fl k) (o k) (A k) p j l)) p p'.

(** The saved forces: means over the stages. *)
Definition mean_forces (o : nat -> outputs) : fsnapshot :=
  mkFsnap (fun j l => mean4 (fun k => rowof (Model_Output.o_Fa (o k)) j l))
          (fun j l => mean4 (fun k => rowof (Model_Output.o_Fb (o k)) j l))
          (fun j l => mean4 (fun k => rowof (Model_Output.o_DFb (o k)) j l))
          (fun j a b => mean4 (fun k => matof (Model_Output.o_Sa (o k)) j a b)) (fun _ => 0).

(** What the output file of a run from [p0] must contain. *)
Definition correct_output4 (p0 : config) (s : list snapshot) (fs : list fsnapshot) : Prop :=
  let N := g_num_frames g in
  exists pos q L fl out, pos 0%nat = p0 /\
    (forall m, (m < N)%nat -> stages pos m 4 (q m) (L m) (fl m) (out m) /\ advanced (fl m) (out m) (pos m) (pos (S m))) /\
    s = map (fun m => snap Ns (pos m)) (due_frames (g_save_pos g) (g_save_after g) N)
        ++ (if save_due (g_save_pos g) (g_save_after g) (N - 1) then [snap Ns (pos N)] else []) /\
    fs = map (fun m => mean_forces (out m)) (due_frames (g_save_forces g) (g_save_after g) N).

(** In the configurations the equations lead to from those of the frames met
    ([reached]), inputs are what the form asks for and matrices are positive
    definite. *)
Definition posed_stages (reached : nat -> config -> Prop) : Prop :=
  forall m pos K q L fl o, (m < g_num_frames g)%nat -> (K < 4)%nat -> (forall k, (k <= m)%nat -> reached k (pos k)) ->
    stages pos m K q L fl o -> forall i f, input (q K) (stage_time m K) = Ok (i, f) ->
    well_posed Ns Nd fm i /\
    (g_use_drag g = false -> forall M, far_mobility h stale Ns Nd bb (q K) f M -> pos_def n M) /\
    (forall LK N0, stage_far pos m K (q K) (L 0%nat) LK -> near_field inv3 sc table Ns Nd bb minf_only cutoff_factor (q K) f N0 ->
       pos_def n (fun a b => LK a b + N0 a b)).
End Run4.
