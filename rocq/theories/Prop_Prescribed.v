(** C70: what the built-in inputs prescribe. *)
From Coq Require Import Reals List Arith ZArith Bool Lia Lra.
From Verif Require Import Base Py Model_Mob Model_Step Model_Shear Model_Repulsion Model_Output Model_Frame Model_Inputs Spec_Inputs Spec_Repulsion Spec_Shear
  Proof_Inputs3 Prop_Repulsion.
Import ListNotations.
Local Open Scope R_scope.

(** Torque-free spheres, force-free dumbbells. *)
Definition free_otherwise (fm : form) (Ns Nd : nat) (i : inputs) : Prop :=
  (fm = fts \/ fm = fte \/ fm = ufte -> rows_are (i_Ta i) Ns at_rest /\ rows_are (i_Fb i) Nd at_rest) /\
  (fm = fts -> rows_are (i_Sa i) Ns no_tensor).
(** Fluid at rest, of viscosity 1. *)
Definition fluid_at_rest (fl : flow) : Prop :=
  (forall l, (l < 3)%nat -> f_U fl l = 0 /\ f_O fl l = 0 /\ f_Ot fl l = 0 /\ forall k, f_Et fl l k = 0) /\ f_mu fl = 1.

Lemma default_free fm Ns Nd : free_otherwise fm Ns Nd (default_inputs fm Ns Nd) /\
  (fm = fts \/ fm = fte \/ fm = ufte -> rows_are (i_DFb (default_inputs fm Ns Nd)) Nd at_rest) /\
  (fm = fte \/ fm = ufte -> rows_are (i_Ea (default_inputs fm Ns Nd)) Ns no_tensor) /\
  (fm = fts \/ fm = fte -> rows_are (i_Fa (default_inputs fm Ns Nd)) Ns at_rest).
Proof.
  split; [split|split; [|split]].
  - intros [->|[->| ->]]; split; apply rows_repeat.
  - intros ->. apply rows_repeat.
  - intros [->|[->| ->]]; apply rows_repeat.
  - intros [->| ->]; apply rows_repeat.
  - intros [->| ->]; apply rows_repeat.
Qed.
Lemma default_rest : fluid_at_rest default_flow.
Proof. split; [|reflexivity]. intros [|[|[|l]]] Hl; try lia; repeat split. Qed.

(** Inputs 1 and 2: unit weight on every sphere, down the z axis; number 2 in a
    periodic cube of side 8 about the origin. *)
Theorem C70_gravity n fm Ns Nd p frameno timestep : (n = 1 \/ n = 2)%Z ->
  exists i fl, input_ftsuoe n fm Ns Nd p frameno timestep = Ok (i, fl) /\
    rows_are (i_Fa i) Ns [0; 0; -1] /\ free_otherwise fm Ns Nd i /\
    (fm = fts \/ fm = fte \/ fm = ufte -> rows_are (i_DFb i) Nd at_rest) /\
    (fm = fte \/ fm = ufte -> rows_are (i_Ea i) Ns no_tensor) /\ fluid_at_rest fl /\
    (n = 1%Z -> forall l, (l < 3)%nat -> f_tr fl l = f_bl fl l) /\
    (n = 2%Z -> forall l, (l < 3)%nat -> f_bl fl l = -4 /\ f_tr fl l = 4).
Proof.
  destruct (default_free fm Ns Nd) as (D1 & D2 & D3 & _). intros [-> | ->]; cbn [input_ftsuoe Z.ltb Z.compare simple_cubic_8]; do 2 eexists; (split; [reflexivity|]);
    (split; [replace (-1) with (- (1)) by ring; apply rows_repeat|]); (split; [exact D1|]); (split; [exact D2|]); (split; [exact D3|]).
  - split; [exact default_rest|]. split; [intros _ l _; reflexivity|discriminate].
  - split; [split; [|reflexivity]; intros [|[|[|l]]] Hl; try lia; repeat split|]. split; [discriminate|].
    intros _ [|[|[|l]]] Hl; try lia; cbn [f_bl f_tr v3]; split; lra.
Qed.
Print Assumptions C70_gravity.

(** Velocity of the fluid at [x] for a flow with rate of strain [E]. *)
Definition flow_at (fl : flow) (E : mat) (x : vec) (l : nat) : R :=
  f_U fl l + cross (f_O fl) (vsub x (f_centre fl)) l + rsum 3 (fun k => E l k * vsub x (f_centre fl) k).

(** Input 3: a spring of length 2 in each dumbbell (the force is minus the
    gradient of its energy, of size |length - 2|), and the fluid in an
    oscillating shear about (9/4, 0, 9/4). *)
Theorem C70_spring fm Ns Nd p frameno timestep :
  exists i fl E, input_ftsuoe 3 fm Ns Nd p frameno timestep = Ok (i, fl) /\
    length (i_DFb i) = Nd /\ free_otherwise fm Ns Nd i /\
    (fm = fts \/ fm = fte -> rows_are (i_Fa i) Ns at_rest) /\
    (forall k, (k < Nd)%nat -> exists F, row_is (i_DFb i) k F /\
       (0 < norm (c_ddx p k) ->
          (forall l, (l < 3)%nat -> derivable_pt_lim (fun t => spring_energy (shift (c_ddx p k) l t)) 0 (- nth l F 0)) /\
          norm (fun l => nth l F 0) = Rabs (norm (c_ddx p k) - 2))) /\
    rows_are (i_Ea i) (Nat.max 1 Ns) (row2 E) /\
    (forall x l, (l < 3)%nat -> flow_at fl E x l =
       if Nat.eqb l 0 then 1 / 3 * (2 * PI / 10) * cos (2 * PI / 10 * (frameno * timestep)) * (x 2%nat - 9 / 4) else 0) /\
    f_mu fl = 1 /\ (forall l, (l < 3)%nat -> f_tr fl l = f_bl fl l).
Proof.
  cbn [input_ftsuoe Z.ltb Z.compare]. unfold oscillatory_shear.
  replace (Reqb 10 0) with false by (symmetry; unfold Reqb; destruct (Req_EM_T 10 0); [lra|reflexivity]).
  cbn [bind]. do 3 eexists. split; [reflexivity|].
  destruct (default_free fm Ns Nd) as (D1 & D2 & D3 & D4).
  split; [|split; [|split; [|split; [|split; [|split; [|split]]]]]].
  - cbn. rewrite map_length, seq_length. reflexivity.
  - exact D1.
  - exact D4.
  - intros k Hk. exists (spring_force (c_ddx p k)). split; [cbn; apply (rows_map_seq (fun k => spring_force (c_ddx p k))); exact Hk|].
    intros HN. split; [intros l Hl; apply spring_gradient; assumption|apply spring_size; exact HN].
  - cbn [fst with_shear i_Ea with_Ea with_DFb h_Ea]. rewrite map_repeat'. apply rows_repeat.
  - intros x l Hl. unfold flow_at, rsum, cross, vsub, literal_xz. cbn [with_shear snd f_U f_O f_centre h_U h_O h_centre].
    rewrite (Rmult_comm (2 * PI / 10) (frameno * timestep)), Rplus_0_r.
    destruct l as [|[|[|l]]]; try lia; cbn [v3 Nat.eqb]; field.
  - reflexivity.
  - reflexivity.
Qed.
Print Assumptions C70_spring.

(** Input 4: pairwise repulsion, without net force. *)
Theorem C70_repulsion fm Ns Nd p frameno timestep : (fm = fts \/ fm = fte) ->
  let x := all_beads Ns Nd (c_spos p) (fun i l => c_dpos p i l - c_ddx p i l / 2) (fun i l => c_dpos p i l + c_ddx p i l / 2) in
  let a := all_beads Ns Nd (c_ssizes p) (c_dsizes p) (c_dsizes p) in
  let total := total_repulsion 50 20 x a (Ns + 2 * Nd) in
  exists i fl Fa Fb, input_ftsuoe 4 fm Ns Nd p frameno timestep = Ok (i, fl) /\
    (forall k, (k < Ns)%nat -> row_is (i_Fa i) k (Fa k)) /\ (forall k, (k < Nd)%nat -> row_is (i_Fb i) k (Fb k)) /\
    (forall k l, (k < Ns)%nat -> (l < 3)%nat -> nth l (Fa k) 0 = total k l) /\
    (forall k l, (k < Nd)%nat -> (l < 3)%nat -> nth l (Fb k) 0 = total (Ns + k)%nat l + total (Ns + Nd + k)%nat l) /\
    (forall l, (l < 3)%nat -> rsum Ns (fun k => nth l (Fa k) 0) + rsum Nd (fun k => nth l (Fb k) 0) = 0) /\
    fluid_at_rest fl.
Proof.
  intros Hf x a total. cbn [input_ftsuoe Z.ltb Z.compare].
  assert (GR : forall e n, given e (repeat (Some zeros3) n) = Ok (repeat zeros3 n)).
  { intros e n. induction n as [|n IH]; [reflexivity|]. cbn [repeat given]. rewrite IH. reflexivity. }
  assert (Z : forall n k l, unrow (repeat zeros3 n) k l = 0).
  { intros n k l. unfold unrow. destruct (nth_in_or_default k (repeat zeros3 n) []) as [H| ->]; [apply repeat_spec in H; rewrite H; destruct l as [|[|[|[|l]]]]; reflexivity|destruct l; reflexivity]. }
  assert (EF : given TypeError (i_Fa (default_inputs fm Ns Nd)) = Ok (repeat zeros3 Ns) /\ given TypeError (i_Fb (default_inputs fm Ns Nd)) = Ok (repeat zeros3 Nd)
             /\ given TypeError (i_DFb (default_inputs fm Ns Nd)) = Ok (repeat zeros3 Nd)).
  { destruct Hf as [->| ->]; repeat split; apply GR. }
  destruct EF as (-> & -> & ->). cbn [bind].
  destruct (proj2 (C34_total 50 20 Ns Nd (c_spos p) (c_dpos p) (c_ddx p) (c_ssizes p) (c_dsizes p) 0 (unrow (repeat zeros3 Ns)) (unrow (repeat zeros3 Nd)) (unrow (repeat zeros3 Nd))) ltac:(lia)) as [[[Fa Fb] DFb] E].
  rewrite E. cbn [bind]. do 2 eexists. exists (fun k => row (Fa k)), (fun k => row (Fb k)). split; [reflexivity|].
  destruct (C34_forces _ _ _ _ _ _ _ _ _ _ _ _ _ _ _ _ E) as [F1 F2].
  destruct (C34_balance _ _ _ _ _ _ _ _ _ _ _ _ _ _ _ E) as [B _].
  assert (RN : forall v l, (l < 3)%nat -> nth l (row v) 0 = v l) by (intros v [|[|[|l]]] Hl; try lia; reflexivity).
  split; [intros k Hk; apply (rows_map_seq (fun k => row (Fa k))); exact Hk|]. split; [intros k Hk; apply (rows_map_seq (fun k => row (Fb k))); exact Hk|].
  split; [|split; [|split; [|exact default_rest]]].
  - intros k l Hk Hl. rewrite RN by exact Hl. rewrite F1 by exact Hk. change (Nat.leb (2 * 0) k) with true. cbv iota. rewrite Z. fold x a total. ring.
  - intros k l Hk Hl. rewrite RN by exact Hl. destruct (F2 k l Hk) as [-> _]. rewrite Z. fold x a total. ring.
  - intros l Hl. transitivity (rsum Ns (fun i => Fa i l) + rsum Nd (fun i => Fb i l)).
    + f_equal; apply rsum_ext; intros; apply RN; exact Hl.
    + rewrite B. rewrite !rsum_zero by (intros; apply Z). ring.
Qed.
Print Assumptions C70_repulsion.

(** Input 5: the first half of the spheres is moved to the left, the others to
    the right.  Input 6: two walls of 45 spheres likewise, and a force to the
    right on the 9 spheres between them. *)
Lemma opposed_row m k : (k < m)%nat -> row_is (opposed m) k [if Nat.ltb k (m / 2) then -1 else 1; 0; 0].
Proof.
  intros Hk. unfold row_is, opposed. assert (D : (m / 2 <= m)%nat) by (apply Nat.div_le_upper_bound; lia).
  destruct (Nat.ltb_spec k (m / 2)) as [L|L].
  - rewrite nth_error_app1 by (rewrite repeat_length; exact L). replace (-1) with (- (1)) by ring. exact (proj2 (rows_repeat [- (1); 0; 0] (m / 2)) k L).
  - rewrite nth_error_app2 by (rewrite repeat_length; exact L). rewrite repeat_length. apply (proj2 (rows_repeat [1; 0; 0] (m - m / 2)) (k - m / 2)%nat). lia.
Qed.
Lemma opposed_length m : length (opposed m) = m.
Proof. unfold opposed. rewrite app_length, !repeat_length. assert (m / 2 <= m)%nat by (apply Nat.div_le_upper_bound; lia). lia. Qed.
Theorem C70_velocities fm Ns Nd p frameno timestep :
  exists i fl, input_ftsuoe 5 fm Ns Nd p frameno timestep = Ok (i, fl) /\ length (i_Ua i) = Ns /\
    (forall k, (k < Ns)%nat -> row_is (i_Ua i) k [if Nat.ltb k (Ns / 2) then -1 else 1; 0; 0]) /\
    free_otherwise fm Ns Nd i /\ (fm = fte \/ fm = ufte -> rows_are (i_Ea i) Ns no_tensor) /\ fluid_at_rest fl.
Proof.
  destruct (default_free fm Ns Nd) as (D1 & D2 & D3 & _). do 2 eexists. split; [reflexivity|].
  split; [apply opposed_length|]. split; [intros k Hk; apply opposed_row; exact Hk|]. split; [exact D1|]. split; [exact D3|exact default_rest].
Qed.
Print Assumptions C70_velocities.
Theorem C70_walls p frameno timestep :
  exists i fl, input_ftsuoe 6 ufte 99 0 p frameno timestep = Ok (i, fl) /\
    (forall k, (k < 90)%nat -> row_is (i_Ua i) k [if Nat.ltb k 45 then -1 else 1; 0; 0] /\ nth_error (i_Fa i) k = Some None) /\
    (forall k, (90 <= k < 99)%nat -> nth_error (i_Ua i) k = Some None /\ row_is (i_Fa i) k [10; 0; 0]) /\
    rows_are (i_Ta i) 99 at_rest /\ rows_are (i_Ea i) 99 no_tensor /\ fluid_at_rest fl.
Proof.
  do 2 eexists. split; [reflexivity|]. cbn [i_Ua i_Fa i_Ta i_Ea with_Fa with_Ua default_inputs empty_vectors].
  unfold set_slice. rewrite repeat_length. cbn [firstn app Nat.max].
  split; [|split; [|split; [|split; [|exact default_rest]]]].
  - intros k Hk. split.
    + unfold row_is. rewrite nth_error_app1 by (rewrite opposed_length; exact Hk). apply (opposed_row 90 k Hk).
    + do 90 (destruct k as [|k]; [reflexivity|]). lia.
  - intros k Hk. do 90 (destruct k as [|k]; [lia|]). do 9 (destruct k as [|k]; [split; reflexivity|]). lia.
  - apply rows_repeat.
  - apply rows_repeat.
Qed.
Print Assumptions C70_walls.

(** Input 7: the fluid moves along x with speed z. *)
Theorem C70_shear fm Ns Nd p frameno timestep :
  exists i fl E, input_ftsuoe 7 fm Ns Nd p frameno timestep = Ok (i, fl) /\ free_otherwise fm Ns Nd i /\
    rows_are (i_Ea i) (Nat.max 1 Ns) (row2 E) /\
    (forall x l, (l < 3)%nat -> flow_at fl E x l = if Nat.eqb l 0 then x 2%nat else 0) /\ f_mu fl = 1.
Proof.
  destruct (default_free fm Ns Nd) as (D1 & _). do 3 eexists. split; [reflexivity|]. split; [exact D1|].
  split; [cbn [fst with_shear i_Ea with_Ea h_Ea constant_shear]; rewrite map_repeat'; apply rows_repeat|]. split; [|reflexivity].
  intros x l Hl. unfold flow_at, rsum, cross, vsub, literal_xz. cbn [with_shear snd f_U f_O f_centre h_U h_O h_centre constant_shear].
  destruct l as [|[|[|l]]]; try lia; cbn [v3 Nat.eqb]; field.
Qed.
Print Assumptions C70_shear.

(** The two-sphere tests: a unit force, torque or rate of strain, or equal and
    opposite ones, and nothing else. *)
Theorem C70_tests n fm Ns Nd p frameno timestep :
  (-13 <= n < 0)%Z -> (2 <= Ns)%nat -> (fm = fte \/ (fm = fts /\ ~ (-11 <= n <= -9)%Z)) ->
  exists i fl, input_ftsuoe n fm Ns Nd p frameno timestep = Ok (i, fl) /\
    (forall k, (k < Ns)%nat -> row_is (i_Fa i) k (test_force n k) /\ row_is (i_Ta i) k (test_torque n k) /\
       (fm = fte -> row_is (i_Ea i) k (if Nat.ltb k 2 then test_strain n else no_tensor)) /\
       (fm = fts -> row_is (i_Sa i) k no_tensor)) /\
    rows_are (i_Fb i) Nd at_rest /\ rows_are (i_DFb i) Nd at_rest /\ fluid_at_rest fl.
Proof.
  intros Hn HNs Hf.
  assert (R3 : forall k, (k < Ns)%nat -> nth_error (repeat (Some zeros3) Ns) k = Some (Some zeros3)) by (intros; apply rows_repeat; assumption).
  assert (R9 : forall k, (k < Ns)%nat -> nth_error (repeat (Some zeros33) Ns) k = Some (Some zeros33)) by (intros; apply rows_repeat; assumption).
  assert (HC : (n = -1 \/ n = -2 \/ n = -3 \/ n = -4 \/ n = -5 \/ n = -6 \/ n = -7 \/ n = -8 \/ n = -9 \/ n = -10 \/ n = -11 \/ n = -12 \/ n = -13)%Z) by lia.
  clear Hn. replace (-1) with (- (1)) in * by ring.
  assert (M2 : -1/2 = - (5 / 10)) by field. assert (M1 : -1 = - (1)) by ring.
  destruct Hf as [->|[-> Hf]];
  repeat (destruct HC as [->|HC]); try (subst n); try (exfalso; apply Hf; lia); clear Hf || idtac; unfold input_ftsuoe; cbn [Z.ltb Z.compare CompOpp Pos.compare Pos.compare_cont default_inputs input_ftsuoe_tests i_Fa i_Ta i_Ea];
  repeat match goal with |- context [set_row ?l ?k ?x] =>
    let y := fresh "y" in let E := fresh "E" in let L := fresh "L" in let N := fresh "N" in
    destruct (set_row_ok l k x) as (y & E & L & N); [repeat match goal with H : length ?z = _ |- context [length ?z] => rewrite H end; rewrite ?repeat_length; lia|]; rewrite E; cbn [bind] end;
  do 2 eexists; (split; [reflexivity|]); cbn [i_Fa i_Ta i_Ea i_Sa i_Fb i_DFb with_Fa with_Ta with_Ea];
  (split; [|split; [apply rows_repeat|split; [apply rows_repeat|exact default_rest]]]);
  intros k Hk; unfold row_is;
  repeat match goal with N : forall m, nth_error ?y m = _ |- _ => rewrite N; clear N end;
  rewrite ?R3, ?R9 by exact Hk; rewrite ?repeat_length in *;
  (destruct k as [|[|k]]; cbn [Nat.eqb Nat.ltb Nat.leb test_force test_torque test_strain]; rewrite ?M2, ?M1; repeat split; intros; try discriminate; try reflexivity).
Qed.
Print Assumptions C70_tests.

(** A dumbbell of length 5, a stretched spring: the hypotheses of C70_spring. *)
Example C70_example : 0 < norm (v3 3 0 4) /\ spring_force (v3 3 0 4) = [- (9 / 5); 0; - (12 / 5)] /\
  test_force (-12) 0 = [1; 0; 0] /\ test_force (-12) 1 = [-1; 0; 0].
Proof.
  assert (N : norm (v3 3 0 4) = 5).
  { unfold norm. cbn [v3]. match goal with |- sqrt ?z = _ => replace z with (5 ^ 2) by ring end. apply sqrt_pow2. lra. }
  split; [rewrite N; lra|]. split; [|split; reflexivity]. unfold spring_force, row. rewrite N. cbn [v3].
  f_equal; [field|f_equal; [field|f_equal; field]].
Qed.
