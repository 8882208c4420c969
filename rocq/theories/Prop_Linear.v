(** C104: superposition and reciprocity. *)
From Coq Require Import Reals List Arith ZArith Bool Lia Lra.
From Verif Require Import Base Py Model_Mob Model_Minf Model_Grand Model_Output Model_Step Model_Frame Model_Inputs Model_Sim
  Spec_Pack Spec_Minf Spec_Convert Spec_Output Spec_Step Spec_Frame Spec_Posdef Spec_Run Spec_Turn Spec_Renumber Spec_Runs Spec_Linear
  Proof_Output Proof_Posdef Proof_Posdef2 Proof_Frame Proof_Run Proof_Run2 Proof_Runs3 Proof_Renumber5 Prop_Runs Prop_Turn Prop_Renumber
  Proof_Turn2 Proof_Turn5 Proof_Linear Proof_Linear2.
From Verif Require Proof_Step.
Import ListNotations.
Local Open Scope R_scope.

Notation symmetric_inputs i := (given_st (i_Sa i) /\ given_st (i_Ea i)).

Lemma well_answered inv solve Ns Nd fm R0 i : inverts_posdef inv -> solves_posdef solve -> (0 < Ns)%nat ->
  msym (11 * Ns + 6 * Nd) R0 -> pos_def (11 * Ns + 6 * Nd) R0 -> well_posed Ns Nd fm i ->
  exists o, generate_output inv solve Ns Nd fm false R0 i (fun _ => i) = Ok o /\ answers Ns Nd fm i R0 o.
Proof.
  intros Hi Hs HN S P W. exact (output_answers inv (fun m => m) solve (fun _ _ _ _ => 0) 0 (fun _ _ => 0) Ns Nd fm false 0 Hi Hs HN eq_refl R0 i W S P).
Qed.
Lemma no_box_periodic g : no_box_g g -> periodic g = false.
Proof.
  intros H. unfold periodic, is_zero3, vsub, Reqb. rewrite !H by lia. rewrite !Rminus_eq_0. destruct (Req_EM_T 0 0); [reflexivity|contradiction].
Qed.

(** For one resistance matrix: if everything prescribed (forces or velocities,
    torques, strains or stresslets) of the third problem is al times that of the
    first plus be times that of the second, so is everything solved for. *)
Theorem C104_superposition :
  forall inv solve Ns Nd fm R0 al be i1 i2 i,
    let n := (11 * Ns + 6 * Nd)%nat in
    let output i := generate_output inv solve Ns Nd fm false R0 i (fun _ => i) in
    inverts_posdef inv -> solves_posdef solve -> (0 < Ns)%nat -> msym n R0 -> pos_def n R0 ->
    well_posed Ns Nd fm i1 -> well_posed Ns Nd fm i2 -> well_posed Ns Nd fm i ->
    symmetric_inputs i1 -> symmetric_inputs i2 -> symmetric_inputs i ->
    inputs_comb al be i1 i2 i ->
    exists o1 o2 o, output i1 = Ok o1 /\ output i2 = Ok o2 /\ output i = Ok o /\ outputs_comb al be Ns Nd o1 o2 o.
Proof.
  intros inv solve Ns Nd fm R0 al be i1 i2 i n output Hi Hs HN S P W1 W2 W G1 G2 G HI.
  destruct (well_answered inv solve Ns Nd fm R0 i1 Hi Hs HN S P W1) as (o1 & E1 & A1).
  destruct (well_answered inv solve Ns Nd fm R0 i2 Hi Hs HN S P W2) as (o2 & E2 & A2).
  destruct (well_answered inv solve Ns Nd fm R0 i Hi Hs HN S P W) as (o & E & A).
  exists o1, o2, o. split; [exact E1|]. split; [exact E2|]. split; [exact E|].
  exact (answers_comb al be Ns Nd fm i1 i2 i R0 o1 o2 o HI G1 G2 G A1 A2 A P).
Qed.
Print Assumptions C104_superposition.

(** Two problems with one symmetric resistance matrix, of the same form or of
    different forms: the forces, torques and stresslets of either do the same
    power along the motion of the other. *)
Theorem C104_reciprocal :
  forall inv solve Ns Nd fm fm' R0 i i',
    let n := (11 * Ns + 6 * Nd)%nat in
    inverts_posdef inv -> solves_posdef solve -> (0 < Ns)%nat -> msym n R0 -> pos_def n R0 ->
    well_posed Ns Nd fm i -> well_posed Ns Nd fm' i' -> symmetric_inputs i -> symmetric_inputs i' ->
    exists o o', generate_output inv solve Ns Nd fm false R0 i (fun _ => i) = Ok o /\
      generate_output inv solve Ns Nd fm' false R0 i' (fun _ => i') = Ok o' /\
      power_of_on Ns Nd o o' = power_of_on Ns Nd o' o.
Proof.
  intros inv solve Ns Nd fm fm' R0 i i' n Hi Hs HN S P W W' G G'.
  destruct (well_answered inv solve Ns Nd fm R0 i Hi Hs HN S P W) as (o & E & A).
  destruct (well_answered inv solve Ns Nd fm' R0 i' Hi Hs HN S P W') as (o' & E' & A').
  exists o, o'. split; [exact E|]. split; [exact E'|].
  exact (answers_reciprocal Ns Nd fm fm' i i' R0 o o' S G G' A A').
Qed.
Print Assumptions C104_reciprocal.

(** Only forces on the spheres. *)
Lemma pushes_given Ns Nd F : all_given Ns 3 (i_Fa (pushes Ns Nd F)) /\ all_given Ns 3 (i_Ta (pushes Ns Nd F)) /\ all_given33 Ns (i_Ea (pushes Ns Nd F)) /\
  all_given Nd 3 (i_Fb (pushes Ns Nd F)) /\ all_given Nd 3 (i_DFb (pushes Ns Nd F)).
Proof.
  assert (Z : forall n, all_given n 3 (repeat (Some [0; 0; 0]) n)).
  { intros n. split; [apply repeat_length|]. intros o Ho. apply repeat_spec in Ho. subst o. eexists. split; reflexivity. }
  split; [|split; [apply Z|split; [|split; apply Z]]].
  - split; [cbn [pushes i_Fa]; rewrite map_length, seq_length; reflexivity|]. intros o Ho. apply in_map_iff in Ho as (m & <- & _). eexists. split; reflexivity.
  - split; [apply repeat_length|]. intros o Ho. apply repeat_spec in Ho. subst o. eexists. split; [reflexivity|]. split; [reflexivity|].
    intros r [<-|[<-|[<-|[]]]]; reflexivity.
Qed.
Lemma pushes_posed Ns Nd F : well_posed Ns Nd fte (pushes Ns Nd F).
Proof. destruct (pushes_given Ns Nd F) as (A & B & C & D & E). split; [exact B|]. auto. Qed.
Lemma pushes_st Ns Nd F : symmetric_inputs (pushes Ns Nd F).
Proof.
  split; intros t Ht; apply repeat_spec in Ht; [discriminate|]. injection Ht as ->.
  split; [split; [reflexivity|intros r [<-|[<-|[<-|[]]]]; reflexivity]|]. unfold ent. split; [|cbn; lra].
  intros a b Ha Hb. idx3 Ha; idx3 Hb; reflexivity.
Qed.
Lemma pushes_comb al be Ns Nd F G H : (forall j l, (j < Ns)%nat -> (l < 3)%nat -> H j l = al * F j l + be * G j l) ->
  inputs_comb al be (pushes Ns Nd F) (pushes Ns Nd G) (pushes Ns Nd H).
Proof.
  intros E. assert (Z : forall n, rows_comb al be (repeat (Some [0; 0; 0]) n) (repeat (Some [0; 0; 0]) n) (repeat (Some [0; 0; 0]) n)).
  { intros n j. destruct (Nat.lt_ge_cases j n) as [Hj|Hj].
    - rewrite !nth_error_repeat by exact Hj. intros l Hl. unfold row_vec. idx3 Hl; cbn; ring.
    - rewrite (proj2 (nth_error_None _ _)) by (rewrite repeat_length; exact Hj). exact I. }
  assert (Z2 : forall (A : Type) rel n, @lists_comb A rel (repeat None n) (repeat None n) (repeat None n)).
  { intros A rel n j. destruct (Nat.lt_ge_cases j n) as [Hj|Hj]; [rewrite nth_error_repeat by exact Hj; exact I|].
    rewrite (proj2 (nth_error_None _ _)) by (rewrite repeat_length; exact Hj). exact I. }
  split; [|split; [apply Z|split; [apply Z2|split; [apply Z|split; [apply Z|split; [apply Z2|split; [|split; apply Z2]]]]]]].
  - intros j. cbn [pushes i_Fa]. destruct (Nat.lt_ge_cases j Ns) as [Hj|Hj].
    + rewrite !nth_error_map. rewrite (nth_error_nth' (seq 0 Ns) 0%nat) by (rewrite seq_length; exact Hj). rewrite seq_nth by exact Hj. cbn [option_map Nat.add].
      intros l Hl. unfold row_vec. specialize (E j). idx3 Hl; cbn [nth]; apply E; lia.
    + rewrite !nth_error_map, (proj2 (nth_error_None _ _)) by (rewrite seq_length; exact Hj). exact I.
  - intros j. cbn [pushes i_Ea]. destruct (Nat.lt_ge_cases j Ns) as [Hj|Hj].
    + rewrite !nth_error_repeat by exact Hj. intros a b Ha Hb. unfold tensor_mat. idx3 Ha; idx3 Hb; cbn; ring.
    + rewrite (proj2 (nth_error_None _ _)) by (rewrite repeat_length; exact Hj). exact I.
Qed.
Lemma kept_row (l : list (option (list R))) o N j r : keeps 0 N l o -> (j < N)%nat -> nth_error l j = Some (Some r) -> forall a, rowof o j a = nth a r 0.
Proof.
  intros K Hj E a. specialize (K j ltac:(lia)). rewrite E in K. injection K as K. symmetry in K. unfold rowof. rewrite (nth_error_nth _ _ [] K). reflexivity.
Qed.
Lemma zero_row a : nth a [0; 0; 0] 0 = 0.
Proof. destruct a as [|[|[|[|a]]]]; reflexivity. Qed.

Lemma pushes_power Ns Nd F G R0 R0' o o' : answers Ns Nd fte (pushes Ns Nd F) R0 o -> answers Ns Nd fte (pushes Ns Nd G) R0' o' ->
  power_of_on Ns Nd o o' = rsum Ns (fun j => dot3 (F j) (rowof (Model_Output.o_Ua o') j)).
Proof.
  intros (_ & _ & KT & KF & _ & KB & KD) (_ & _ & _ & _ & KE & _). unfold power_of_on.
  rewrite (rsum_zero Nd), Rplus_0_r.
  2:{ intros d Hd. unfold dot3. cbn [pushes i_Fb i_DFb] in KB, KD.
      pose proof (kept_row _ _ _ _ [0; 0; 0] KB Hd ltac:(rewrite nth_error_repeat by exact Hd; reflexivity)) as B.
      pose proof (kept_row _ _ _ _ [0; 0; 0] KD Hd ltac:(rewrite nth_error_repeat by exact Hd; reflexivity)) as D.
      rewrite !B, !D, !zero_row. ring. }
  apply rsum_ext. intros j Hj. cbn [pushes i_Ta i_Fa i_Ea] in *.
  pose proof (kept_row _ _ _ _ [0; 0; 0] KT Hj ltac:(rewrite nth_error_repeat by exact Hj; reflexivity)) as T.
  assert (EF : nth_error (map (fun m => Some [F m 0%nat; F m 1%nat; F m 2%nat]) (seq 0 Ns)) j = Some (Some [F j 0%nat; F j 1%nat; F j 2%nat])).
  { rewrite nth_error_map, (nth_error_nth' (seq 0 Ns) 0%nat) by (rewrite seq_length; exact Hj). rewrite seq_nth by exact Hj. reflexivity. }
  pose proof (kept_row _ _ _ _ _ KF Hj EF) as FF.
  assert (EE : forall a b, matof (Model_Output.o_Ea o') j a b = 0).
  { intros a b. specialize (KE j ltac:(lia)). rewrite nth_error_repeat in KE by exact Hj. injection KE as K. symmetry in K.
    unfold matof. rewrite (nth_error_nth _ _ [] K). destruct a as [|[|[|[|a]]]]; cbn [nth]; try apply zero_row; destruct b; reflexivity. }
  unfold contraction. cbn [rsum]. rewrite !EE. unfold dot3. rewrite !T, !FF, !zero_row. cbn [nth]. ring.
Qed.

(** Forces F on the spheres make them move with U, forces G with V: then the sum
    of F . V is the sum of G . U.  In particular the mobility between two
    spheres is the same both ways: a force on sphere j moves sphere k along G
    as the force G on sphere k moves sphere j along F. *)
Theorem C104_forces :
  forall inv solve Ns Nd R0 F G,
    let n := (11 * Ns + 6 * Nd)%nat in
    let output H := generate_output inv solve Ns Nd fte false R0 (pushes Ns Nd H) (fun _ => pushes Ns Nd H) in
    inverts_posdef inv -> solves_posdef solve -> (0 < Ns)%nat -> msym n R0 -> pos_def n R0 ->
    exists o o', output F = Ok o /\ output G = Ok o' /\
      rsum Ns (fun m => dot3 (F m) (rowof (Model_Output.o_Ua o') m)) = rsum Ns (fun m => dot3 (G m) (rowof (Model_Output.o_Ua o) m)) /\
      (forall j k, (j < Ns)%nat -> (k < Ns)%nat -> only_on j F -> only_on k G ->
         dot3 (F j) (rowof (Model_Output.o_Ua o') j) = dot3 (G k) (rowof (Model_Output.o_Ua o) k)).
Proof.
  intros inv solve Ns Nd R0 F G n output Hi Hs HN S P.
  destruct (well_answered inv solve Ns Nd fte R0 (pushes Ns Nd F) Hi Hs HN S P (pushes_posed Ns Nd F)) as (o & E & A).
  destruct (well_answered inv solve Ns Nd fte R0 (pushes Ns Nd G) Hi Hs HN S P (pushes_posed Ns Nd G)) as (o' & E' & A').
  exists o, o'. split; [exact E|]. split; [exact E'|].
  assert (RC : rsum Ns (fun m => dot3 (F m) (rowof (Model_Output.o_Ua o') m)) = rsum Ns (fun m => dot3 (G m) (rowof (Model_Output.o_Ua o) m))).
  { rewrite <- (pushes_power Ns Nd F G R0 R0 o o' A A'), <- (pushes_power Ns Nd G F R0 R0 o' o A' A).
    exact (answers_reciprocal Ns Nd fte fte _ _ R0 o o' S (pushes_st Ns Nd F) (pushes_st Ns Nd G) A A'). }
  split; [exact RC|]. intros j k Hj Hk OF OG.
  assert (ONE : forall j H (u : nat -> vec), (j < Ns)%nat -> only_on j H -> rsum Ns (fun m => dot3 (H m) (u m)) = dot3 (H j) (u j)).
  { intros q H u Hq OH. rewrite (rsum_ext Ns _ (fun m => delta q m * dot3 (H m) (u m))).
    - rewrite (rsum_delta_l Ns q (fun m => dot3 (H m) (u m)) Hq). reflexivity.
    - intros m Hm. unfold delta. destruct (Nat.eqb_spec q m); [ring|]. unfold dot3. rewrite !(OH m) by (auto; lia). ring. }
  rewrite <- (ONE j F (rowof (Model_Output.o_Ua o')) Hj OF), <- (ONE k G (rowof (Model_Output.o_Ua o)) Hk OG). exact RC.
Qed.
Print Assumptions C104_forces.

(** Runs from one configuration whose inputs and background flows combine at the
    start: the displacements of the first frame and the forces saved with it
    combine.  (Later frames start from different configurations.) *)
Theorem C104_first_frame :
  forall al be inv inv3 solve sc table h stale Ns Nd fm bb minf_only cutoff_factor g input1 input2 input p0 s1 fs1 s2 fs2 s fs,
    let run i := full_simulation inv inv3 solve sc table h stale Ns Nd fm false bb minf_only cutoff_factor g i p0 in
    let posed i := posed_run inv inv3 solve sc table h stale Ns Nd fm bb minf_only cutoff_factor g i p0 in
    inverts_posdef inv -> solves_posdef solve -> (0 < Ns)%nat -> g_start g = 0%nat -> g_scheme g = euler \/ g_scheme g = ab2 ->
    (0 < g_num_frames g)%nat -> no_box_g g -> g_save_pos g = 1%nat -> g_save_forces g = 1%nat -> g_save_after g = 0%nat ->
    combined_start al be input1 input2 input p0 -> posed input1 -> posed input2 -> posed input ->
    run input1 = Ok (Some (s1, fs1)) -> run input2 = Ok (Some (s2, fs2)) -> run input = Ok (Some (s, fs)) ->
    exists a b1 b2 b c1 c2 c,
      nth_error s1 0 = Some a /\ nth_error s2 0 = Some a /\ nth_error s 0 = Some a /\
      nth_error s1 1 = Some b1 /\ nth_error s2 1 = Some b2 /\ nth_error s 1 = Some b /\ displaced_comb al be Ns Nd a b1 b2 b /\
      nth_error fs1 0 = Some c1 /\ nth_error fs2 0 = Some c2 /\ nth_error fs 0 = Some c /\ forces_comb al be Ns Nd c1 c2 c.
Proof.
  intros al be inv inv3 solve sc table h stale Ns Nd fm bb minf_only cf g input1 input2 input p0 s1 fs1 s2 fs2 s fs run posed
    Hi Hs HN H0 Hsch HF Hb S1 S2 S3 HC P1 P2 P E1 E2 E.
  destruct (first_comb inv inv3 solve sc table h stale Ns Nd fm bb minf_only cf g p0 Hi Hs HN H0 Hsch HF (no_box_periodic g Hb) S1 S2 S3 al be input1 input2 input HC P1 P2 P
    s1 fs1 s2 fs2 s fs E1 E2 E) as (a & b1 & b2 & b & c1 & c2 & c & A1 & A2 & A3 & _ & A).
  exists a, b1, b2, b, c1, c2, c. tauto.
Qed.
Print Assumptions C104_first_frame.

(** Reversed forces, velocities and flow reverse the displacements of the first
    frame. *)
Theorem C104_reversed :
  forall inv inv3 solve sc table h stale Ns Nd fm bb minf_only cutoff_factor g input input' p0 s fs s' fs',
    let run i := full_simulation inv inv3 solve sc table h stale Ns Nd fm false bb minf_only cutoff_factor g i p0 in
    let posed i := posed_run inv inv3 solve sc table h stale Ns Nd fm bb minf_only cutoff_factor g i p0 in
    inverts_posdef inv -> solves_posdef solve -> (0 < Ns)%nat -> g_start g = 0%nat -> g_scheme g = euler \/ g_scheme g = ab2 ->
    (0 < g_num_frames g)%nat -> no_box_g g -> g_save_pos g = 1%nat -> g_save_forces g = 1%nat -> g_save_after g = 0%nat ->
    combined_start (-1) 0 input input input' p0 -> posed input -> posed input' ->
    run input = Ok (Some (s, fs)) -> run input' = Ok (Some (s', fs')) ->
    exists a b b', nth_error s 0 = Some a /\ nth_error s' 0 = Some a /\ nth_error s 1 = Some b /\ nth_error s' 1 = Some b' /\
      (forall j l, (j < Ns + Nd)%nat -> (l < 3)%nat -> n_pos b' j l - n_pos a j l = - (n_pos b j l - n_pos a j l)) /\
      (forall d l, (d < Nd)%nat -> (l < 3)%nat -> n_dx b' d l - n_dx a d l = - (n_dx b d l - n_dx a d l)).
Proof.
  intros inv inv3 solve sc table h stale Ns Nd fm bb minf_only cf g input input' p0 s fs s' fs' run posed Hi Hs HN H0 Hsch HF Hb S1 S2 S3 HC P P' E E'.
  destruct (C104_first_frame (-1) 0 inv inv3 solve sc table h stale Ns Nd fm bb minf_only cf g input input input' p0 s fs s fs s' fs' Hi Hs HN H0 Hsch HF Hb S1 S2 S3 HC P P P' E E E')
    as (a & b & b2 & b' & _ & _ & _ & A1 & _ & A3 & A4 & _ & A6 & [D1 D2] & _).
  exists a, b, b'. split; [exact A1|]. split; [exact A3|]. split; [exact A4|]. split; [exact A6|]. unfold vec_comb, vsub in D1, D2.
  split; [intros j l Hj Hl; rewrite (D1 j Hj l Hl)|intros d l Hd Hl; rewrite (D2 d Hd l Hl)]; ring.
Qed.
Print Assumptions C104_reversed.

(** Instances with full hydrodynamic interaction: a row of widely spaced spheres
    pushed by any forces. *)
Definition pushing (Ns : nat) (F : nat -> vec) : config -> R -> res (inputs * flow) := fun _ _ => Ok (pushes Ns 0 F, default_flow).
Lemma pushing_run sc Ns F dt : (0 < Ns)%nat ->
  exists s fs, full_simulation pinv Proof_Step.inv3 psolve sc [1] 0 (fun _ _ => 0) Ns 0 fte false true false 2 (full_settings dt) (pushing Ns F) (wide_row Ns) = Ok (Some (s, fs)).
Proof.
  intros HN.
  assert (SH : solves_shape psolve) by (intros n A b _; unfold psolve; rewrite map_length, seq_length; reflexivity).
  destruct (C62_complete pinv Proof_Step.inv3 psolve sc [1] 0 (fun _ _ => 0) Ns 0 fte false true false 2 (full_settings dt) (pushing Ns F) (wide_row Ns) [1] SH) as (s & fs & E & _).
  { intros i Hi. left. reflexivity. }
  { intros i Hi. lia. }
  { right. intros x y Hx Hy. destruct Hx as [Hx|[]]. destruct Hy as [Hy|[]]. subst x y. exists 1. split; [left; reflexivity|].
    replace (1 / 1) with 1 by field. rewrite Rminus_eq_0, Rabs_R0, Rabs_R1. lra. }
  { discriminate. }
  { intros q t _ _. do 2 eexists. split; [reflexivity|]. split; [|left; exact free_default].
    destruct (pushes_given Ns 0 F) as (A & B & C & D & G). unfold complete. cbv zeta. auto 10. }
  { repeat split; cbn; auto; lia. }
  exists s, fs. exact E.
Qed.
Lemma pushing_posed sc Ns F dt : (0 < Ns)%nat ->
  posed_run pinv Proof_Step.inv3 psolve sc [1] 0 (fun _ _ => 0) Ns 0 fte true false 2 (full_settings dt) (pushing Ns F) (wide_row Ns).
Proof.
  intros HN. assert (N1 : 1 <= INR Ns) by (apply (le_INR 1); lia).
  change (wide_row Ns) with (relisted (fun j => j) (fun d => d) (wide_row Ns)).
  destruct (wide_posed pinv Proof_Step.inv3 psolve sc [1] 0 (fun _ _ => 0) Ns 0 fte true false 2 (full_settings dt) (pushing Ns F) (relisted (fun j => j) (fun d => d) (wide_row Ns)) 1 1) as [A B];
    try reflexivity; try lra; [| | | | |exact A].
  - intros b Hb. unfold Model_Minf.bead_sizes, posdata_of. cbn [num_spheres num_dumbbells sphere_sizes]. destruct (Nat.ltb_spec b Ns); [cbn; lra|lia].
  - apply wide_row_spaced; [apply id_permutes|]. rewrite plus_INR, !mult_INR. cbn [INR]. lra.
  - apply wide_row_spaced; [apply id_permutes|]. assert (/ 10 ^ 10 < / 1); [apply Rinv_lt_contravar; lra|rewrite Rinv_1 in *; lra].
  - apply wide_row_spaced; [apply id_permutes|]. lra.
  - intros q t i f E. injection E as <- <-. split; [apply pushes_posed|]. split; [cbn; lra|]. intros l Hl. reflexivity.
Qed.
Example C104_example sc Ns al be F G dt :
  (0 < Ns)%nat ->
  let run H := full_simulation pinv Proof_Step.inv3 psolve sc [1] 0 (fun _ _ => 0) Ns 0 fte false true false 2 (full_settings dt) (pushing Ns H) (wide_row Ns) in
  exists s1 fs1 s2 fs2 s fs a b1 b2 b,
    run F = Ok (Some (s1, fs1)) /\ run G = Ok (Some (s2, fs2)) /\ run (fun j l => al * F j l + be * G j l) = Ok (Some (s, fs)) /\
    nth_error s 0 = Some a /\ nth_error s1 1 = Some b1 /\ nth_error s2 1 = Some b2 /\ nth_error s 1 = Some b /\
    forall j l, (j < Ns)%nat -> (l < 3)%nat -> n_pos b j l - n_pos a j l = al * (n_pos b1 j l - n_pos a j l) + be * (n_pos b2 j l - n_pos a j l).
Proof.
  intros HN run.
  destruct (pushing_run sc Ns F dt HN) as (s1 & fs1 & E1). destruct (pushing_run sc Ns G dt HN) as (s2 & fs2 & E2).
  destruct (pushing_run sc Ns (fun j l => al * F j l + be * G j l) dt HN) as (s & fs & E).
  destruct (C104_first_frame al be pinv Proof_Step.inv3 psolve sc [1] 0%nat (fun _ _ => 0) Ns 0%nat fte true false 2 (full_settings dt) (pushing Ns F) (pushing Ns G)
    (pushing Ns (fun j l => al * F j l + be * G j l)) (wide_row Ns) s1 fs1 s2 fs2 s fs pinv_ok psolve_ok HN eq_refl (or_introl eq_refl)
    ltac:(cbn; lia) ltac:(intros l Hl; reflexivity) eq_refl eq_refl eq_refl) as (a & b1 & b2 & b & _ & _ & _ & _ & _ & A3 & A4 & A5 & A6 & [D _] & _);
    try (apply pushing_posed; exact HN); try assumption.
  - do 6 eexists. split; [reflexivity|]. split; [reflexivity|]. split; [reflexivity|]. split; [apply pushes_comb; reflexivity|]. split; [|auto using pushes_st].
    assert (Z : vec_comb al be (v3 0 0 0) (v3 0 0 0) (v3 0 0 0)) by (intros l Hl; idx3 Hl; unfold v3; cbn; ring).
    unfold flow_comb, unbounded. cbn. split; [exact Z|]. split; [exact Z|]. auto 10.
  - exists s1, fs1, s2, fs2, s, fs, a, b1, b2, b. repeat (split; [assumption|]). intros j l Hj Hl. apply D; [lia|exact Hl].
Qed.
