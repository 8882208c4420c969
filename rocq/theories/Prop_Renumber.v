(** C86: the order in which particles are listed does not matter, and symmetric
    arrangements stay symmetric. *)
From Coq Require Import Reals List Arith ZArith Bool Lia Lra.
From Verif Require Import Base Py Model_Minf Model_Grand Model_Close Model_R2B Model_MinfP Model_GrandP Model_Step Model_Shear
  Model_Output Model_Frame Model_Inputs Model_Sim Spec_Minf Spec_Convert Spec_Output Spec_Rotate Spec_Step Spec_Frame Spec_Posdef Spec_Run Spec_Sim Spec_Turn Spec_Renumber Spec_Wide
  Proof_Frame Proof_Posdef Proof_Posdef2 Proof_Run Proof_Run2 Proof_Sim2 Spec_Runs Proof_Runs2 Proof_Runs3 Prop_Runs Prop_Sim Prop_Posdef Prop_Run Prop_Turn
  Proof_Turn1 Proof_Turn3 Proof_Turn4 Proof_Turn5 Proof_Renumber1 Proof_Renumber2 Proof_Renumber3 Proof_Renumber4 Proof_Renumber5.
From Verif Require Proof_Step Proof_MinfP8.
Import ListNotations.
Local Open Scope R_scope.

(** Two completed runs without periodic box.  The second is started from the
    configuration of the first turned by [Q] (any rotation or reflection) and
    with the spheres and dumbbells listed in another order, and is given the
    correspondingly turned and reordered inputs.  The saved positions,
    orientations and forces are then turned and reordered.  With the near
    field the tabulated scalars have to be reciprocal (C16); the dumbbells see
    the strain of the first sphere, so that must not depend on which sphere is
    first. *)
Theorem C86_renumbered_runs :
  forall Q s t inv inv3 solve sc table h stale Ns Nd fm bb minf_only cutoff_factor g input input' p0 p0' a fs a' fs',
    let run i p := full_simulation inv inv3 solve sc table h stale Ns Nd fm false bb minf_only cutoff_factor g i p in
    let posed i p := posed_run inv inv3 solve sc table h stale Ns Nd fm bb minf_only cutoff_factor g i p in
    let reached m p := exists st, run_frames inv3 Ns Nd (far_inverse inv h stale Ns Nd bb g input)
      (solve_rest inv inv3 solve sc table h stale Ns Nd fm false bb minf_only cutoff_factor g input) g (fresh p0) (seq 0 m) = Ok st /\ s_pos st = p in
    orthogonal Q -> permutes Ns s -> permutes Nd t ->
    0 < cutoff_factor -> inverts_posdef inv -> solves_posdef solve -> inverts inv3 -> (0 < Ns)%nat ->
    no_box_g g -> g_fully_2d g = false \/ keeps_y Q -> g_start g = 0%nat -> g_scheme g = euler \/ g_scheme g = ab2 ->
    (0 < g_save_pos g)%nat -> (0 < g_save_forces g)%nat ->
    (g_save_after g mod g_save_pos g = 0)%nat -> (g_save_after g mod g_save_forces g = 0)%nat ->
    input_renumbered Q s t Ns Nd input input' -> one_strain s Ns Nd fm input ->
    config_renumbered Q s t Ns Nd p0 p0' -> oriented Ns p0 ->
    posed input p0 -> posed input' p0' ->
    (minf_only = false -> forall m p, (m < g_num_frames g)%nat -> reached m p -> reciprocal_pairs sc table cutoff_factor Ns Nd p) ->
    run input p0 = Ok (Some (a, fs)) -> run input' p0' = Ok (Some (a', fs')) ->
    Forall2 (snapshot_renumbered Q s t Ns Nd) a a' /\ Forall2 (forces_renumbered Q s t Ns Nd) fs fs'.
Proof.
  intros Q s t inv inv3 solve sc table h stale Ns Nd fm bb minf_only cf g input input' p0 p0' a fs a' fs' run posed reached
    HQ Hs Ht Hcf Hi Hso H3 HN Hb H2 H0 Hsch S1 S2 S3 S4 HI HE HC HO HP HP' HR E E'.
  exact (runs_renumbered Q HQ s t Ns Nd Hs Ht HN inv inv3 solve sc table h stale fm bb minf_only cf g input input' p0 p0'
    Hcf Hi Hso H3 Hb H2 H0 Hsch HI HE HC HO HP HP' HR a fs a' fs' S1 S2 S3 S4 E E').
Qed.
Print Assumptions C86_renumbered_runs.

(** The plain case: nothing is turned, the inputs are one of the shipped ones
    that treat all particles alike. *)
Theorem C86_relisted :
  forall s t inv inv3 solve sc table h stale Ns Nd fm bb minf_only cutoff_factor g n dt p0 a fs a' fs',
    let input := fun p u => input_ftsuoe n fm Ns Nd p u dt in
    let run p := full_simulation inv inv3 solve sc table h stale Ns Nd fm false bb minf_only cutoff_factor g input p in
    let posed p := posed_run inv inv3 solve sc table h stale Ns Nd fm bb minf_only cutoff_factor g input p in
    let reached m p := exists st, run_frames inv3 Ns Nd (far_inverse inv h stale Ns Nd bb g input)
      (solve_rest inv inv3 solve sc table h stale Ns Nd fm false bb minf_only cutoff_factor g input) g (fresh p0) (seq 0 m) = Ok st /\ s_pos st = p in
    In n [1; 3; 4; 7]%Z -> Nd = 0%nat \/ s 0%nat = 0%nat \/ fm <> fts ->
    permutes Ns s -> permutes Nd t ->
    0 < cutoff_factor -> inverts_posdef inv -> solves_posdef solve -> inverts inv3 -> (0 < Ns)%nat ->
    no_box_g g -> g_start g = 0%nat -> g_scheme g = euler \/ g_scheme g = ab2 ->
    (0 < g_save_pos g)%nat -> (0 < g_save_forces g)%nat ->
    (g_save_after g mod g_save_pos g = 0)%nat -> (g_save_after g mod g_save_forces g = 0)%nat ->
    oriented Ns p0 -> posed p0 -> posed (relisted s t p0) ->
    (minf_only = false -> forall m p, (m < g_num_frames g)%nat -> reached m p -> reciprocal_pairs sc table cutoff_factor Ns Nd p) ->
    run p0 = Ok (Some (a, fs)) -> run (relisted s t p0) = Ok (Some (a', fs')) ->
    Forall2 (relisted_snapshot s t Ns Nd) a a' /\ Forall2 (relisted_forces s t Ns Nd) fs fs'.
Proof.
  intros s t inv inv3 solve sc table h stale Ns Nd fm bb minf_only cf g n dt p0 a fs a' fs' input run posed reached
    Hn HE Hs Ht Hcf Hi Hso H3 HN Hb H0 Hsch S1 S2 S3 S4 HO HP HP' HR E E'.
  destruct (C86_renumbered_runs delta s t inv inv3 solve sc table h stale Ns Nd fm bb minf_only cf g input input p0 (relisted s t p0) a fs a' fs'
    one_orthogonal Hs Ht Hcf Hi Hso H3 HN Hb) as [A B]; try assumption.
  - right. unfold keeps_y, delta. auto.
  - apply shipped_same; assumption.
  - destruct HE as [HE|[HE|HE]]; [left; exact HE|right; left; exact HE|apply shipped_strain; assumption].
  - apply relisted_config.
  - assert (D : forall (T : Type) (r q : T -> T -> Prop) l l', (forall x y, r x y -> q x y) -> Forall2 r l l' -> Forall2 q l l').
    { intros T r q l l' H F. induction F; constructor; auto. }
    split; [exact (D _ _ _ _ _ (relist_snapshot s t Ns Nd) A)|exact (D _ _ _ _ _ (relist_forces s t Ns Nd) B)].
Qed.
Print Assumptions C86_relisted.

(** The shipped inputs: gravity (1) and repulsion (4) treat all particles
    alike, and so do the two shear flows (3 and 7); the strain does not depend
    on the sphere except in the form fts, where it is calculated. *)
Theorem C86_inputs :
  forall Q s t Ns Nd fm dt, orthogonal Q -> permutes Ns s -> permutes Nd t ->
    let shipped n := fun p u => input_ftsuoe n fm Ns Nd p u dt in
    (keeps_z Q -> input_renumbered Q s t Ns Nd (shipped 1%Z) (shipped 1%Z)) /\
    input_renumbered Q s t Ns Nd (shipped 4%Z) (shipped 4%Z) /\
    input_renumbered inversion s t Ns Nd (shipped 7%Z) (shipped 7%Z) /\
    (forall n, In n [1; 3; 4; 7]%Z -> input_renumbered delta s t Ns Nd (shipped n) (shipped n) /\
       input_renumbered mirror_y s t Ns Nd (shipped n) (shipped n)) /\
    (forall n, In n [1; 3; 4; 7]%Z -> fm <> fts -> one_strain s Ns Nd fm (shipped n)).
Proof.
  intros Q s t Ns Nd fm dt HQ Hs Ht shipped. split; [|split; [|split; [|split]]].
  - intros HZ. apply shipped1; assumption.
  - apply shipped4; assumption.
  - apply shipped7; try assumption; [exact inversion_orthogonal|intros c; apply inversion_mat|intros w; apply inversion_pseudo].
  - intros n Hn. split; [apply shipped_same; assumption|apply shipped_mirror_y; assumption].
  - intros n Hn Hf. apply shipped_strain; assumption.
Qed.
Print Assumptions C86_inputs.

(** With the drag matrix and no near field nothing has to be assumed of the
    matrices or of the tables. *)
Theorem C86_drag :
  forall Q s t inv inv3 solve sc table h stale Ns Nd fm bb cutoff_factor g input input' p0 p0' a fs a' fs',
    let run i p := full_simulation inv inv3 solve sc table h stale Ns Nd fm false bb true cutoff_factor g i p in
    orthogonal Q -> permutes Ns s -> permutes Nd t ->
    0 < cutoff_factor -> inverts_posdef inv -> solves_posdef solve -> inverts inv3 -> (0 < Ns)%nat ->
    g_use_drag g = true -> g_explosion g = false ->
    no_box_g g -> g_fully_2d g = false \/ keeps_y Q -> g_start g = 0%nat -> g_scheme g = euler \/ g_scheme g = ab2 ->
    (0 < g_save_pos g)%nat -> (0 < g_save_forces g)%nat ->
    (g_save_after g mod g_save_pos g = 0)%nat -> (g_save_after g mod g_save_forces g = 0)%nat ->
    (forall i, (i < Ns)%nat -> 0 < c_ssizes p0 i) -> (forall i, (i < Nd)%nat -> 0 < c_dsizes p0 i) ->
    (forall p t i f, input p t = Ok (i, f) -> well_posed Ns Nd fm i /\ 0 < f_mu f) ->
    (forall p t i f, input' p t = Ok (i, f) -> well_posed Ns Nd fm i /\ 0 < f_mu f) ->
    input_renumbered Q s t Ns Nd input input' -> one_strain s Ns Nd fm input ->
    config_renumbered Q s t Ns Nd p0 p0' -> oriented Ns p0 ->
    run input p0 = Ok (Some (a, fs)) -> run input' p0' = Ok (Some (a', fs')) ->
    Forall2 (snapshot_renumbered Q s t Ns Nd) a a' /\ Forall2 (forces_renumbered Q s t Ns Nd) fs fs'.
Proof.
  intros Q s t inv inv3 solve sc table h stale Ns Nd fm bb cf g input input' p0 p0' a fs a' fs' run
    HQ Hs Ht Hcf Hi Hso H3 HN Hd HX Hb H2 H0 Hsch S1 S2 S3 S4 P1 P2 Hw Hw' HI HE HC HO E E'.
  refine (C86_renumbered_runs Q s t inv inv3 solve sc table h stale Ns Nd fm bb true cf g input input' p0 p0' a fs a' fs'
    HQ Hs Ht Hcf Hi Hso H3 HN Hb H2 H0 Hsch S1 S2 S3 S4 HI HE HC HO _ _ ltac:(discriminate) E E').
  - apply drag_posed; assumption.
  - destruct HC as (C1 & C2 & _).
    apply drag_posed; try assumption; [intros i Hi'; rewrite C1; apply P1, Hs; exact Hi'|intros i Hi'; rewrite C2; apply P2, Ht; exact Hi'].
Qed.
Print Assumptions C86_drag.

(** An arrangement that is its own image under [Q] with particles exchanged
    stays so. *)
Theorem C86_symmetric :
  forall Q s t inv inv3 solve sc table h stale Ns Nd fm bb minf_only cutoff_factor g input p0 a fs,
    let reached m p := exists st, run_frames inv3 Ns Nd (far_inverse inv h stale Ns Nd bb g input)
      (solve_rest inv inv3 solve sc table h stale Ns Nd fm false bb minf_only cutoff_factor g input) g (fresh p0) (seq 0 m) = Ok st /\ s_pos st = p in
    orthogonal Q -> permutes Ns s -> permutes Nd t ->
    0 < cutoff_factor -> inverts_posdef inv -> solves_posdef solve -> inverts inv3 -> (0 < Ns)%nat ->
    no_box_g g -> g_fully_2d g = false \/ keeps_y Q -> g_start g = 0%nat -> g_scheme g = euler \/ g_scheme g = ab2 ->
    (0 < g_save_pos g)%nat -> (0 < g_save_forces g)%nat ->
    (g_save_after g mod g_save_pos g = 0)%nat -> (g_save_after g mod g_save_forces g = 0)%nat ->
    input_renumbered Q s t Ns Nd input input -> one_strain s Ns Nd fm input ->
    config_renumbered Q s t Ns Nd p0 p0 -> oriented Ns p0 ->
    posed_run inv inv3 solve sc table h stale Ns Nd fm bb minf_only cutoff_factor g input p0 ->
    (minf_only = false -> forall m p, (m < g_num_frames g)%nat -> reached m p -> reciprocal_pairs sc table cutoff_factor Ns Nd p) ->
    full_simulation inv inv3 solve sc table h stale Ns Nd fm false bb minf_only cutoff_factor g input p0 = Ok (Some (a, fs)) ->
    Forall (fun x => snapshot_renumbered Q s t Ns Nd x x) a /\ Forall (fun x => forces_renumbered Q s t Ns Nd x x) fs.
Proof.
  intros Q s t inv inv3 solve sc table h stale Ns Nd fm bb minf_only cf g input p0 a fs reached
    HQ Hs Ht Hcf Hi Hso H3 HN Hb H2 H0 Hsch S1 S2 S3 S4 HI HE HC HO HP HR E.
  destruct (C86_renumbered_runs Q s t inv inv3 solve sc table h stale Ns Nd fm bb minf_only cf g input input p0 p0 a fs a fs
    HQ Hs Ht Hcf Hi Hso H3 HN Hb H2 H0 Hsch S1 S2 S3 S4 HI HE HC HO HP HP HR E E) as [A B].
  assert (D : forall (T : Type) (r : T -> T -> Prop) l, Forall2 r l l -> Forall (fun x => r x x) l).
  { intros T r l. induction l as [|x l IH]; intros F; constructor; inversion F; auto. }
  split; [exact (D _ _ _ A)|exact (D _ _ _ B)].
Qed.
Print Assumptions C86_symmetric.

(** In particular pairs of opposite particles stay opposite in a steady shear
    flow about the origin (input 7) and under mutual repulsion (input 4). *)
Theorem C86_centred :
  forall s t inv inv3 solve sc table h stale Ns Nd fm bb minf_only cutoff_factor g n dt p0 a fs,
    let input := fun p u => input_ftsuoe n fm Ns Nd p u dt in
    let reached m p := exists st, run_frames inv3 Ns Nd (far_inverse inv h stale Ns Nd bb g input)
      (solve_rest inv inv3 solve sc table h stale Ns Nd fm false bb minf_only cutoff_factor g input) g (fresh p0) (seq 0 m) = Ok st /\ s_pos st = p in
    In n [4; 7]%Z -> Nd = 0%nat \/ s 0%nat = 0%nat \/ fm <> fts ->
    permutes Ns s -> permutes Nd t ->
    0 < cutoff_factor -> inverts_posdef inv -> solves_posdef solve -> inverts inv3 -> (0 < Ns)%nat ->
    no_box_g g -> g_start g = 0%nat -> g_scheme g = euler \/ g_scheme g = ab2 ->
    (0 < g_save_pos g)%nat -> (0 < g_save_forces g)%nat ->
    (g_save_after g mod g_save_pos g = 0)%nat -> (g_save_after g mod g_save_forces g = 0)%nat ->
    centred_config s t Ns Nd p0 -> oriented Ns p0 ->
    posed_run inv inv3 solve sc table h stale Ns Nd fm bb minf_only cutoff_factor g input p0 ->
    (minf_only = false -> forall m p, (m < g_num_frames g)%nat -> reached m p -> reciprocal_pairs sc table cutoff_factor Ns Nd p) ->
    full_simulation inv inv3 solve sc table h stale Ns Nd fm false bb minf_only cutoff_factor g input p0 = Ok (Some (a, fs)) ->
    Forall (centred_snapshot s t Ns Nd) a /\ Forall (centred_forces s t Ns Nd) fs.
Proof.
  intros s t inv inv3 solve sc table h stale Ns Nd fm bb minf_only cf g n dt p0 a fs input reached
    Hn HE Hs Ht Hcf Hi Hso H3 HN Hb H0 Hsch S1 S2 S3 S4 HC HO HP HR E.
  destruct (C86_symmetric inversion s t inv inv3 solve sc table h stale Ns Nd fm bb minf_only cf g input p0 a fs
    inversion_orthogonal Hs Ht Hcf Hi Hso H3 HN Hb) as [A B]; try assumption.
  - right. unfold keeps_y, inversion, delta. cbn [Nat.eqb]. rewrite Ropp_0. auto.
  - destruct (C86_inputs inversion s t Ns Nd fm dt inversion_orthogonal Hs Ht) as (_ & I4 & I7 & _). destruct Hn as [<-|[<-|[]]]; [exact I4|exact I7].
  - destruct HE as [HE|[HE|HE]]; [left; exact HE|right; left; exact HE|apply shipped_strain; [cbn in *; tauto|exact HE]].
  - apply centred_renumbered. exact HC.
  - split; [exact (Forall_impl _ (centred_snap s t Ns Nd) A)|exact (Forall_impl _ (centred_forc s t Ns Nd) B)].
Qed.
Print Assumptions C86_centred.

(** Finding: if the strains of the spheres differ, the numbering matters: the
    dumbbells are moved with the strain of sphere 0 (run_simulation.py 410-413).
    Two unit spheres with strains 0 and e_xz = e_zx = 1 (form fte), and a
    dumbbell at height 10; exchanging the spheres displaces the dumbbell by
    10 timesteps after one frame, though everything C86_drag asks for holds,
    except the strains. *)
Definition swap (j : nat) : nat := match j with 0 => 1 | 1 => 0 | _ => j end%nat.
Definition strain_input (e0 e1 : mat) : config -> R -> res (inputs * flow) := fun _ _ =>
  Ok (with_Ea (default_inputs fte 2 1) [Some (row2 e0); Some (row2 e1)], default_flow).
Definition two_and_one : config :=
  mkConfig (fun _ => 1) (fun j => if Nat.eqb j 0 then v3 0 0 0 else v3 20 0 0)
    (fun j k => if Nat.eqb j 0 then v3 1 0 0 else v3 21 0 0) (fun _ => 1) (fun _ => v3 0 0 10) (fun _ => v3 2 0 0).

Lemma swap_permutes : permutes 2 swap.
Proof.
  split; [intros j Hj; destruct j as [|[|]]; cbn; lia|]. intros i j Hi Hj. destruct i as [|[|]], j as [|[|]]; cbn; lia.
Qed.
Lemma id_permutes n : permutes n (fun d => d).
Proof. split; auto. Qed.
Lemma strain_complete e0 e1 : complete fte 2 1 (with_Ea (default_inputs fte 2 1) [Some (row2 e0); Some (row2 e1)]).
Proof.
  unfold complete. cbv zeta. unfold with_Ea, default_inputs. cbn [i_Fa i_Ta i_Ea i_Fb i_DFb].
  split; [lia|]. split; [apply zeros_given|]. split; [apply zeros_given|]. split; [|split; apply zeros_given].
  split; [reflexivity|]. intros o [<-|[<-|[]]]; eexists; (split; [reflexivity|]); (split; [reflexivity|]); intros r [<-|[<-|[<-|[]]]]; reflexivity.
Qed.
Lemma strain_run sc e0 e1 p0 dt : exists a fs,
  full_simulation pinv Proof_Step.inv3 psolve sc [] 0 (fun _ _ => 0) 2 1 fte false true true 2 (drag_settings dt 1) (strain_input e0 e1) p0 = Ok (Some (a, fs)).
Proof.
  assert (SH : solves_shape psolve) by (intros n A b _; unfold psolve; rewrite map_length, seq_length; reflexivity).
  destruct (C62_complete pinv Proof_Step.inv3 psolve sc [] 0 (fun _ _ => 0) 2 1 fte false true true 2 (drag_settings dt 1) (strain_input e0 e1) p0
             (map (c_ssizes p0) (seq 0 2) ++ map (c_dsizes p0) (seq 0 1)) SH) as (s & fs & E & _).
  { intros i Hi. apply in_or_app. left. apply in_map, in_seq. lia. }
  { intros i Hi. apply in_or_app. right. apply in_map, in_seq. lia. }
  { left. reflexivity. }
  { discriminate. }
  { intros p t _ _. do 2 eexists. split; [reflexivity|]. split; [apply strain_complete|]. left. exact free_default. }
  { repeat split; cbn; auto; lia. }
  exists s, fs. exact E.
Qed.
Lemma strain_posed e0 e1 p t i f : strain_input e0 e1 p t = Ok (i, f) -> well_posed 2 1 fte i /\ 0 < f_mu f.
Proof.
  intros E. injection E as <- <-. split; [|cbn; lra]. pose proof (strain_complete e0 e1) as C. unfold complete in C. unfold well_posed. tauto.
Qed.
Lemma strain_renumbered e0 e1 : (forall m, m = e0 \/ m = e1 -> given_st [Some (row2 m)]) ->
  input_renumbered delta swap (fun d => d) 2 1 (strain_input e0 e1) (strain_input e1 e0).
Proof.
  intros G p p' t i f i' f' _ E E'. injection E as <- <-. injection E' as <- <-. change delta with one. split.
  - assert (SR : forall (rel : list R -> list R -> Prop), (forall x, rel x x) -> forall N r k, permutes N r -> (N <= k)%nat ->
       lists_renumbered rel N r (repeat (Some zeros3) k) (repeat (Some zeros3) k)).
    { intros rel HR N r k [Hr _] Hk j Hj. specialize (Hr j Hj). rewrite !nth_error_repeat by lia. apply HR. }
    assert (SN : forall A (rel : A -> A -> Prop) N r k, permutes N r -> (N <= k)%nat ->
       lists_renumbered rel N r (repeat None k) (repeat None k)).
    { intros A rel N r k [Hr _] Hk j Hj. specialize (Hr j Hj). rewrite !nth_error_repeat by lia. exact I. }
    assert (GG : forall m m', (m = e0 \/ m = e1) -> (m' = e0 \/ m' = e1) -> given_st [Some (row2 m); Some (row2 m')]).
    { intros m m' Hm Hm' x [Hx|[Hx|[]]]; [apply (G m Hm)|apply (G m' Hm')]; left; exact Hx. }
    unfold inputs_renumbered, with_Ea, default_inputs, empty_vectors. cbn [i_Fa i_Ta i_Sa i_Fb i_DFb i_Ua i_Ea i_Ub i_HalfDUb].
    split; [exact (SR _ (fun x => one_vec_same _) 2%nat swap 2%nat swap_permutes (le_n 2))|].
    split; [exact (SR _ (fun x => one_pseudo _) 2%nat swap 2%nat swap_permutes (le_n 2))|].
    split; [exact (SN _ _ 2%nat swap 2%nat swap_permutes (le_n 2))|].
    split; [exact (SR _ (fun x => one_vec_same _) 1%nat _ 1%nat (id_permutes 1) (le_n 1))|].
    split; [exact (SR _ (fun x => one_vec_same _) 1%nat _ 1%nat (id_permutes 1) (le_n 1))|].
    split; [exact (SN _ _ 2%nat swap 2%nat swap_permutes (le_n 2))|].
    split. { intros j Hj. destruct j as [|[|]]; [| |lia]; cbn [swap nth_error]; apply one_mat. }
    split; [exact (SN _ _ 1%nat _ 1%nat (id_permutes 1) (le_n 1))|]. split; [exact (SN _ _ 1%nat _ 1%nat (id_permutes 1) (le_n 1))|].
    split; [intros x [Hx|[Hx|[]]]; discriminate|]. split; [intros x [Hx|[Hx|[]]]; discriminate|].
    split; apply GG; auto.
  - unfold flow_turned, default_flow. cbn [f_U f_O f_centre f_mu f_bl f_tr]. split; [apply one_vec_same|]. split; [apply one_pseudo|]. split; [apply one_vec_same|].
    split; [reflexivity|]. split; intros l Hl; reflexivity.
Qed.
Lemma strain_zero e0 e1 R0 o : answers 2 1 fte (with_Ea (default_inputs fte 2 1) [Some (row2 e0); Some (row2 e1)]) R0 o ->
  forall a b, (a < 3)%nat -> (b < 3)%nat -> matof (Model_Output.o_Ea o) 0 a b = e0 a b.
Proof.
  intros (_ & _ & _ & _ & K & _) a b Ha Hb. specialize (K 0%nat ltac:(lia)). cbn in K. unfold matof.
  destruct (Model_Output.o_Ea o) as [|e l]; [discriminate|]. injection K as <-. cbn [nth]. idx3 Ha; idx3 Hb; reflexivity.
Qed.

Theorem C86_numbering_refuted :
  forall sc dt,
    let e0 := mzero in let e1 := literal_xz 1 in
    let run i p := full_simulation pinv Proof_Step.inv3 psolve sc [] 0 (fun _ _ => 0) 2 1 fte false true true 2 (drag_settings dt 1) i p in
    input_renumbered delta swap (fun d => d) 2 1 (strain_input e0 e1) (strain_input e1 e0) /\
    oriented 2 two_and_one /\
    exists a fs a' fs' x x',
      run (strain_input e0 e1) two_and_one = Ok (Some (a, fs)) /\
      run (strain_input e1 e0) (relisted swap (fun d => d) two_and_one) = Ok (Some (a', fs')) /\
      nth_error a 1 = Some x /\ nth_error a' 1 = Some x' /\
      n_pos x' 2%nat 0%nat = n_pos x 2%nat 0%nat + 10 * dt.
Proof.
  intros sc dt e0 e1 run.
  assert (IR : input_renumbered delta swap (fun d => d) 2 1 (strain_input e0 e1) (strain_input e1 e0)).
  { apply strain_renumbered. intros m [->| ->]; intros x [Hx|[]]; injection Hx as <-; [|apply literal_st]. exact zeros_st. }
  split; [exact IR|]. split.
  { intros j k Hj _. exists 0%nat. split; [lia|]. cbn [c_srot c_spos two_and_one]. destruct (Nat.eqb j 0); unfold v3; lra. }
  set (p0 := two_and_one). set (p0' := relisted swap (fun d => d) two_and_one).
  destruct (strain_run sc e0 e1 p0 dt) as (a & fs & E). destruct (strain_run sc e1 e0 p0' dt) as (a' & fs' & E').
  assert (CO : forall u v p b gs, (forall j, c_ssizes p j = 1) -> (forall j, c_dsizes p j = 1) -> run (strain_input u v) p = Ok (Some (b, gs)) ->
    correct_output Proof_Step.inv3 sc [] 0 (fun _ _ => 0) 2 1 fte true true 2 (drag_settings dt 1) (strain_input u v) p b gs).
  { intros u v p b gs Z1 Z2 Er. apply (C65_drag pinv Proof_Step.inv3 psolve sc [] 0 (fun _ _ => 0) 2 1 fte true 2 (drag_settings dt 1) (strain_input u v) p b gs pinv_ok psolve_ok ltac:(lia));
      try reflexivity; try (cbn; lia); try exact Er.
    - left. reflexivity.
    - intros m st _ Hst. refine (no_flag _ _ _ _ _ _ (fresh p) _ eq_refl _ _ Hst). left. reflexivity.
    - intros i _. rewrite Z1. lra.
    - intros i _. rewrite Z2. lra.
    - intros q t i f. apply strain_posed. }
  destruct (CO e0 e1 p0 a fs ltac:(reflexivity) ltac:(reflexivity) E) as (pos & fl & out & P0 & M & -> & _).
  destruct (CO e1 e0 p0' a' fs' ltac:(reflexivity) ltac:(reflexivity) E') as (pos' & fl' & out' & P0' & M' & -> & _). clear CO.
  exists (map (fun m => snap 2 (pos m)) (due_frames 1 0 1) ++ [snap 2 (pos 1%nat)]), fs, (map (fun m => snap 2 (pos' m)) (due_frames 1 0 1) ++ [snap 2 (pos' 1%nat)]), fs',
    (snap 2 (pos 1%nat)), (snap 2 (pos' 1%nat)).
  split; [exact E|]. split; [exact E'|]. split; [reflexivity|]. split; [reflexivity|].
  destruct (M 0%nat ltac:(cbn; lia)) as [(i & L & N & Ei & FL & NF & A) (_ & _ & _ & MV)].
  destruct (M' 0%nat ltac:(cbn; lia)) as [(i' & L' & N' & Ei' & FL' & NF' & A') (_ & _ & _ & MV')].
  rewrite P0 in *. rewrite P0' in *. clear M M' E E'.
  destruct (MV 0%nat ltac:(lia)) as [(y & LD & Ey) _]. destruct (MV' 0%nat ltac:(lia)) as [(y' & LD' & Ey') _].
  assert (NB : no_box_g (drag_settings dt 1)) by (intros l Hl; reflexivity).
  specialize (LD 0%nat ltac:(lia)). specialize (LD' 0%nat ltac:(lia)). rewrite (not_periodic _ NB) in LD, LD'.
  change (c_dpos (pos' 1%nat) 0%nat 0%nat = c_dpos (pos 1%nat) 0%nat 0%nat + 10 * dt). rewrite LD, LD', (Ey 0%nat ltac:(lia)), (Ey' 0%nat ltac:(lia)).
  destruct (IR p0 p0' _ _ _ _ _ (relisted_config swap (fun d => d) 2 1 two_and_one) Ei Ei') as [IT _].
  unfold far_resistance in FL, FL'. cbn [g_use_drag drag_settings] in FL, FL'. destruct FL as (ia & fa & Ea & _ & ->). destruct FL' as (ib & fb & Eb & _ & ->).
  rewrite P0 in Ea, A. rewrite P0' in Eb, A'. injection Ea as _ <-. injection Eb as _ <-.
  unfold near_field in NF, NF'. subst N N'.
  assert (O : outputs_renumbered delta swap (fun d => d) 2 1 (out 0%nat) (out' 0%nat)).
  { refine (answers_renumbered delta one_orthogonal swap (fun d => d) 2 1 swap_permutes (id_permutes 1) fte i i' _ _ _ _ IT A A' _ _).
    - apply follows_add; [|apply follows_zero].
      apply drag_renumbered; [exact one_orthogonal|apply swap_permutes|apply id_permutes|apply relisted_config].
    - refine (pos_def_ext _ (drag_Minfinity_inverse (posdata_of 2 1 p0') (f_mu default_flow)) _ _ (proj2 (C64_drag (posdata_of 2 1 p0') (f_mu default_flow) _ _ _))).
      + intros r c _ _. unfold mzero. ring.
      + cbn. lra.
      + intros j _. cbn. lra.
      + intros j _. cbn. lra. }
  destruct O as [_ O]. destruct (O 0%nat ltac:(lia)) as (_ & _ & UB & _). change delta with one in UB.
  injection Ei as <- <-. injection Ei' as <- <-.
  pose proof (strain_zero e0 e1 _ _ A) as S. pose proof (strain_zero e1 e0 _ _ A') as S'. clear A A' O.
  unfold centre_speed. rewrite (one_out _ _ 0%nat UB ltac:(lia)). unfold bead_flow, linear_flow, mvec, rsum. rewrite !S, !S' by lia.
  cbn [default_flow f_U f_O f_centre g_dt drag_settings c_dpos c_ddx p0 p0' relisted two_and_one].
  unfold cross, vsub, bead_minus, bead_plus, v3, e0, e1, mzero, literal_xz. field.
Qed.
Print Assumptions C86_numbering_refuted.

(** The arrangements of C68: one frame of widely spaced particles, nothing
    assumed of the matrices; the run solves the equations (C65). *)
Theorem C68_run :
  forall inv inv3 solve sc table h stale Ns Nd fm bb minf_only cutoff_factor g input p0 a0 A a fs,
    let nb := (Ns + 2 * Nd)%nat in
    let x := Model_Minf.bead_positions (posdata_of Ns Nd p0) in
    let r := Model_Minf.bead_sizes (posdata_of Ns Nd p0) in
    inverts_posdef inv -> solves_posdef solve -> (0 < Ns)%nat ->
    g_num_frames g = 1%nat -> g_use_drag g = false -> g_start g = 0%nat -> g_scheme g = euler \/ g_scheme g = ab2 ->
    (0 < g_save_pos g)%nat -> (0 < g_save_forces g)%nat ->
    (g_save_after g mod g_save_pos g = 0)%nat -> (g_save_after g mod g_save_forces g = 0)%nat ->
    0 < cutoff_factor -> 0 < a0 -> radii_within nb r a0 A ->
    spaced nb x (500 * INR (11 * Ns + 6 * Nd) * A ^ 3 * a0) -> spaced nb x (/ 10 ^ 10) -> spaced nb x (2 * cutoff_factor * A * a0) ->
    (forall p t i f, input p t = Ok (i, f) -> well_posed Ns Nd fm i /\ 0 < f_mu f /\ unbounded f) ->
    full_simulation inv inv3 solve sc table h stale Ns Nd fm false bb minf_only cutoff_factor g input p0 = Ok (Some (a, fs)) ->
    correct_output inv3 sc table h stale Ns Nd fm bb minf_only cutoff_factor g input p0 a fs.
Proof.
  intros inv inv3 solve sc table h stale Ns Nd fm bb minf_only cf g input p0 a0 A a fs nb x r
    Hi Hs HN H1 Hd H0 Hsch S1 S2 S3 S4 Hcf Ha HA X1 X2 X3 Hw E.
  destruct (wide_posed inv inv3 solve sc table h stale Ns Nd fm bb minf_only cf g input p0 a0 A H1 Hd Hcf Ha HA X1 X2 X3 Hw) as [(Q1 & Q2 & Q3 & Q4 & _) _].
  exact (C65_run inv inv3 solve sc table h stale Ns Nd fm bb minf_only cf g input p0 a fs Hi Hs HN H0 Hsch S1 S2 S3 S4 Q1 Q2 Q3 Q4 E).
Qed.
Print Assumptions C68_run.

(** Instances.  Falling spheres of any radii, listed in any two orders, with
    the drag matrix, for any number of frames. *)
Example C86_example sc Ns s p0 dt num_frames :
  permutes Ns s -> (0 < Ns)%nat -> (0 < num_frames)%nat -> (forall i, (i < Ns)%nat -> 0 < c_ssizes p0 i) -> oriented Ns p0 ->
  let run p := full_simulation pinv Proof_Step.inv3 psolve sc [] 0 (fun _ _ => 0) Ns 0 fte false true true 2
                 (drag_settings dt num_frames) (falling Ns dt) p in
  exists a fs a' fs', run p0 = Ok (Some (a, fs)) /\ run (relisted s (fun d => d) p0) = Ok (Some (a', fs')) /\
    length a = S num_frames /\ length fs = num_frames /\
    Forall2 (relisted_snapshot s (fun d => d) Ns 0) a a' /\ Forall2 (relisted_forces s (fun d => d) Ns 0) fs fs'.
Proof.
  intros Hs HN HF HP HO run.
  destruct (falling_runs sc Ns p0 dt num_frames HN HF) as (a & fs & E & L1 & L2).
  destruct (falling_runs sc Ns (relisted s (fun d => d) p0) dt num_frames HN HF) as (a' & fs' & E' & _).
  exists a, fs, a', fs'. split; [exact E|]. split; [exact E'|]. split; [exact L1|]. split; [exact L2|].
  refine (C86_relisted s (fun d => d) pinv Proof_Step.inv3 psolve sc [] 0 (fun _ _ => 0) Ns 0 fte true true 2 (drag_settings dt num_frames) 1 dt p0 a fs a' fs'
    ltac:(left; reflexivity) (or_introl eq_refl) Hs (id_permutes 0) ltac:(lra) pinv_ok psolve_ok Proof_Step.inv3_inverts HN _ eq_refl (or_introl eq_refl)
    ltac:(cbn; lia) ltac:(cbn; lia) eq_refl eq_refl HO _ _ ltac:(discriminate) E E').
  - intros l Hl. reflexivity.
  - apply drag_posed; try reflexivity; try assumption; [left; reflexivity|intros i Hi; lia|intros p t i f; apply falling_posed; exact HN].
  - apply drag_posed; try reflexivity; try assumption; [left; reflexivity| |intros i Hi; lia|intros p t i f; apply falling_posed; exact HN].
    intros i Hi. apply HP, Hs. exact Hi.
Qed.

(** Unit spheres in a wide row, with the mobility matrix and the near field,
    for one frame: any number, in any two orders. *)
Definition wide_row (Ns : nat) : config :=
  mkConfig (fun _ => 1) (fun j => v3 (6000 * INR Ns * INR j) 0 0) (fun j k => v3 (6000 * INR Ns * INR j + 1) 0 0)
    (fun _ => 1) (fun _ => v3 0 0 0) (fun _ => v3 0 0 0).
Definition full_settings (dt : R) : settings :=
  mkSettings euler dt 1 0 1 false false false false (v3 0 0 0) (v3 0 0 0) 1 1 0 false 1.
Lemma wide_row_run sc Ns dt p : (0 < Ns)%nat -> (forall j, c_ssizes p j = 1) ->
  exists a fs, full_simulation pinv Proof_Step.inv3 psolve sc [1] 0 (fun _ _ => 0) Ns 0 fte false true false 2 (full_settings dt) (falling Ns dt) p = Ok (Some (a, fs)).
Proof.
  intros HN Hp.
  assert (SH : solves_shape psolve) by (intros n A b _; unfold psolve; rewrite map_length, seq_length; reflexivity).
  destruct (C62_complete pinv Proof_Step.inv3 psolve sc [1] 0 (fun _ _ => 0) Ns 0 fte false true false 2 (full_settings dt) (falling Ns dt) p [1] SH) as (s & fs & E & _).
  { intros i Hi. left. symmetry. apply Hp. }
  { intros i Hi. lia. }
  { right. intros x y Hx Hy. destruct Hx as [Hx|[]]. destruct Hy as [Hy|[]]. subst x y. exists 1. split; [left; reflexivity|].
    replace (1 / 1) with 1 by field. rewrite Rminus_eq_0, Rabs_R0, Rabs_R1. lra. }
  { discriminate. }
  { intros q t _ _. destruct (given_inputs 1 fte Ns 0 q t dt ltac:(lia)) as (i & f & E & C & _).
    - unfold workable. destruct (Nat.eqb_spec Ns 0); [lia|]. left. discriminate.
    - exists i, f. split; [exact E|]. split; [exact C|]. left. unfold input_ftsuoe in E. cbn [Z.ltb Z.compare] in E. injection E as _ <-. exact free_default. }
  { repeat split; cbn; auto; lia. }
  exists s, fs. exact E.
Qed.
Lemma wide_row_spaced Ns s L : permutes Ns s -> L < 6000 * INR Ns ->
  spaced (Ns + 2 * 0) (Model_Minf.bead_positions (posdata_of Ns 0 (relisted s (fun d => d) (wide_row Ns)))) L.
Proof.
  intros [S1 S2] HL p q Hp Hq Ne. rewrite Nat.add_0_r in Hp, Hq.
  apply Rlt_le_trans with (1 := HL). apply Rle_trans with (2 := Proof_MinfP8.comp_norm _ 0%nat ltac:(lia)).
  unfold Model_Minf.bead_positions, posdata_of. cbn [num_spheres num_dumbbells sphere_positions].
  destruct (Nat.ltb_spec p Ns); [|lia]. destruct (Nat.ltb_spec q Ns); [|lia]. unfold vsub. cbn [c_spos relisted wide_row]. unfold v3.
  pose proof (S2 p q ltac:(lia) ltac:(lia)) as Hne. set (i := s p) in *. set (j := s q) in *.
  assert (Nij : i <> j) by (intros C; apply Ne, Hne, C).
  assert (PN : 0 <= INR Ns) by apply pos_INR.
  assert (D : 1 <= Rabs (INR i - INR j)).
  { destruct (Nat.lt_total i j) as [Lt|[Eq|Lt]]; [|contradiction|].
    - apply Nat.le_succ_l, le_INR in Lt. rewrite S_INR in Lt. rewrite Rabs_left by lra. lra.
    - apply Nat.le_succ_l, le_INR in Lt. rewrite S_INR in Lt. rewrite Rabs_right by lra. lra. }
  replace (6000 * INR Ns * INR i - 6000 * INR Ns * INR j) with (6000 * INR Ns * (INR i - INR j)) by ring.
  rewrite Rabs_mult, (Rabs_right (6000 * INR Ns)) by lra. rewrite <- (Rmult_1_r (6000 * INR Ns)) at 1. apply Rmult_le_compat_l; lra.
Qed.
Lemma wide_row_posed sc Ns s dt : permutes Ns s -> (0 < Ns)%nat ->
  let p := relisted s (fun d => d) (wide_row Ns) in
  posed_run pinv Proof_Step.inv3 psolve sc [1] 0 (fun _ _ => 0) Ns 0 fte true false 2 (full_settings dt) (falling Ns dt) p /\
  reciprocal_pairs sc [1] 2 Ns 0 p.
Proof.
  intros Hs HN p. assert (N1 : 1 <= INR Ns) by (apply (le_INR 1); lia).
  destruct (wide_posed pinv Proof_Step.inv3 psolve sc [1] 0 (fun _ _ => 0) Ns 0 fte true false 2 (full_settings dt) (falling Ns dt) p 1 1) as [A B];
    try reflexivity; try lra.
  - intros b Hb. unfold Model_Minf.bead_sizes, posdata_of. cbn [num_spheres num_dumbbells sphere_sizes]. destruct (Nat.ltb_spec b Ns); [cbn; lra|lia].
  - apply wide_row_spaced; [exact Hs|]. rewrite plus_INR, !mult_INR. cbn [INR]. lra.
  - apply wide_row_spaced; [exact Hs|]. assert (/ 10 ^ 10 < / 1); [apply Rinv_lt_contravar; lra|rewrite Rinv_1 in *; lra].
  - apply wide_row_spaced; [exact Hs|]. lra.
  - intros q t i f E. destruct (falling_posed Ns dt q t i f HN E) as [W M]. split; [exact W|]. split; [exact M|].
    unfold input_ftsuoe in E. cbn [Z.ltb Z.compare] in E. injection E as _ <-. intros l Hl. reflexivity.
  - auto.
Qed.
Example C86_wide_example sc Ns s dt :
  permutes Ns s -> (0 < Ns)%nat ->
  let p0 := wide_row Ns in
  let run p := full_simulation pinv Proof_Step.inv3 psolve sc [1] 0 (fun _ _ => 0) Ns 0 fte false true false 2 (full_settings dt) (falling Ns dt) p in
  exists a fs a' fs', run p0 = Ok (Some (a, fs)) /\ run (relisted s (fun d => d) p0) = Ok (Some (a', fs')) /\
    correct_output Proof_Step.inv3 sc [1] 0 (fun _ _ => 0) Ns 0 fte true false 2 (full_settings dt) (falling Ns dt) p0 a fs /\
    Forall2 (relisted_snapshot s (fun d => d) Ns 0) a a' /\ Forall2 (relisted_forces s (fun d => d) Ns 0) fs fs'.
Proof.
  intros Hs HN p0 run.
  destruct (wide_row_run sc Ns dt p0 HN ltac:(reflexivity)) as (a & fs & E).
  destruct (wide_row_run sc Ns dt (relisted s (fun d => d) p0) HN ltac:(reflexivity)) as (a' & fs' & E').
  destruct (wide_row_posed sc Ns (fun j => j) dt (id_permutes Ns) HN) as [P R]. change (relisted (fun j => j) (fun d => d) (wide_row Ns)) with p0 in P, R.
  destruct (wide_row_posed sc Ns s dt Hs HN) as [P' _].
  exists a, fs, a', fs'. split; [exact E|]. split; [exact E'|]. split.
  - destruct P as (Q1 & Q2 & Q3 & Q4 & _).
    exact (C65_run pinv Proof_Step.inv3 psolve sc [1] 0 (fun _ _ => 0) Ns 0 fte true false 2 (full_settings dt) (falling Ns dt) p0 a fs
      pinv_ok psolve_ok HN eq_refl (or_introl eq_refl) ltac:(cbn; lia) ltac:(cbn; lia) eq_refl eq_refl Q1 Q2 Q3 Q4 E).
  - refine (C86_relisted s (fun d => d) pinv Proof_Step.inv3 psolve sc [1] 0 (fun _ _ => 0) Ns 0 fte true false 2 (full_settings dt) 1 dt p0 a fs a' fs'
      ltac:(left; reflexivity) (or_introl eq_refl) Hs (id_permutes 0) ltac:(lra) pinv_ok psolve_ok Proof_Step.inv3_inverts HN _ eq_refl (or_introl eq_refl)
      ltac:(cbn; lia) ltac:(cbn; lia) eq_refl eq_refl _ P P' _ E E').
    + intros l Hl. reflexivity.
    + intros j k Hj Hk. exists 0%nat. split; [lia|]. cbn [c_srot c_spos p0 wide_row]. unfold v3. lra.
    + intros _ m p Hm (st & Es & <-). cbn in Hm. assert (m = 0%nat) by lia. subst m. cbn in Es. injection Es as <-. exact R.
Qed.

(** Two opposite spheres and two opposite dumbbells in a steady shear flow, with
    the drag matrix, for any number of frames. *)
Definition both (v : vec) (j : nat) : vec := fun l => if Nat.eqb j 0 then v l else - v l.
Definition opposite_pair : config :=
  mkConfig (fun _ => 1) (both (v3 1 2 3)) (fun j k => both (if Nat.eqb k 0 then v3 2 2 3 else v3 1 2 4) j)
    (fun _ => 1 / 10) (both (v3 5 0 5)) (both (v3 1 0 0)).
Example C86_centred_example sc dt num_frames :
  (0 < num_frames)%nat ->
  exists a fs, full_simulation pinv Proof_Step.inv3 psolve sc [] 0 (fun _ _ => 0) 2 2 fte false true true 2
                 (drag_settings dt num_frames) (fun p t => input_ftsuoe 7 fte 2 2 p t dt) opposite_pair = Ok (Some (a, fs)) /\
    length a = S num_frames /\ length fs = num_frames /\
    Forall (centred_snapshot swap swap 2 2) a /\ Forall (centred_forces swap swap 2 2) fs.
Proof.
  intros HF. set (input := fun p t => input_ftsuoe 7 fte 2 2 p t dt). set (g := drag_settings dt num_frames).
  assert (SH : solves_shape psolve) by (intros n A b _; unfold psolve; rewrite map_length, seq_length; reflexivity).
  assert (W : forall p t, exists i f, input p t = Ok (i, f) /\ complete fte 2 2 i /\ free_space f = true /\ f_mu f = 1).
  { intros p t. destruct (given_inputs 7 fte 2 2 p t dt ltac:(lia)) as (i & f & E & C & _); [left; discriminate|].
    exists i, f. split; [exact E|]. split; [exact C|]. unfold input_ftsuoe in E. cbn [Z.ltb Z.compare] in E. injection E as _ <-. split; [exact free_default|reflexivity]. }
  destruct (C62_complete pinv Proof_Step.inv3 psolve sc [] 0 (fun _ _ => 0) 2 2 fte false true true 2 g input opposite_pair [1; 1 / 10] SH) as (a & fs & E & L).
  { intros i Hi. left. reflexivity. }
  { intros i Hi. right. left. reflexivity. }
  { left. reflexivity. }
  { discriminate. }
  { intros p t _ _. destruct (W p t) as (i & f & Ei & C & Fr & _). exists i, f. auto. }
  { repeat split; cbn; auto; lia. }
  destruct (L eq_refl eq_refl (or_introl eq_refl)) as [L1 L2].
  exists a, fs. split; [exact E|]. split; [exact L1|]. split; [exact L2|].
  refine (C86_centred swap swap pinv Proof_Step.inv3 psolve sc [] 0 (fun _ _ => 0) 2 2 fte true true 2 g 7 dt opposite_pair a fs
    ltac:(right; left; reflexivity) ltac:(right; right; discriminate) swap_permutes swap_permutes ltac:(lra) pinv_ok psolve_ok Proof_Step.inv3_inverts ltac:(lia) _ eq_refl (or_introl eq_refl)
    ltac:(cbn; lia) ltac:(cbn; lia) eq_refl eq_refl _ _ _ ltac:(discriminate) E).
  - intros l Hl. reflexivity.
  - split; [reflexivity|]. split; [reflexivity|]. split.
    + intros j l Hj Hl. cbn [c_spos c_srot opposite_pair]. unfold both. destruct j as [|[|]]; [| |lia]; cbn [swap Nat.eqb]; (split; [lra|intros k Hk; lra]).
    + intros d l Hd Hl. cbn [c_dpos c_ddx opposite_pair]. unfold both. destruct d as [|[|]]; [| |lia]; cbn [swap Nat.eqb]; split; lra.
  - intros j k Hj Hk. cbn [c_srot c_spos opposite_pair]. unfold both. destruct (Nat.eqb j 0), (Nat.eqb k 0);
      (exists 0%nat; split; [lia|]; unfold v3; lra) || (exists 2%nat; split; [lia|]; unfold v3; lra).
  - apply drag_posed; try reflexivity; try lia.
    + left. reflexivity.
    + intros i Hi. cbn. lra.
    + intros i Hi. cbn. lra.
    + intros p t i f Ei. destruct (W p t) as (i' & f' & Ei' & C & _ & M). unfold input in Ei'. rewrite Ei in Ei'. injection Ei' as <- <-. split; [|rewrite M; lra].
      unfold complete in C. unfold well_posed. tauto.
Qed.
