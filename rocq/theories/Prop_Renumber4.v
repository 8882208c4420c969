(** C86 for Runge-Kutta runs. *)
From Coq Require Import Reals List Arith ZArith Bool Lia Lra.
From Verif Require Import Base Py Model_Minf Model_Grand Model_Close Model_R2B Model_MinfP Model_GrandP Model_Step Model_Shear
  Model_Output Model_Frame Model_Inputs Model_Sim Spec_Minf Spec_Convert Spec_Output Spec_Rotate Spec_Step Spec_Frame Spec_Posdef Spec_Run Spec_Run4 Spec_Sim Spec_Turn Spec_Turn4 Spec_Renumber Spec_Renumber4
  Proof_Frame Proof_Posdef Proof_Posdef2 Proof_Run Proof_Run2 Proof_Run4 Proof_Sim2 Spec_Runs Proof_Runs2 Proof_Runs3 Prop_Runs Prop_Sim Prop_Posdef Prop_Run Prop_Run4 Prop_Turn Prop_Turn4
  Proof_Turn1 Proof_Turn3 Proof_Turn4 Proof_Turn5 Proof_Renumber1 Proof_Renumber2 Proof_Renumber3 Proof_Renumber4 Proof_Renumber5 Proof_Renumber6 Prop_Renumber.
From Verif Require Proof_Step.
Import ListNotations.
Local Open Scope R_scope.

(** As C86_renumbered_runs, with the Runge-Kutta scheme; what is asked of the
    configurations of the frames is here asked of those of the stages. *)
Theorem C86_rk4 :
  forall Q s t inv inv3 solve sc table h stale Ns Nd fm bb minf_only cutoff_factor g input input' p0 p0' a fs a' fs',
    let run i p := full_simulation inv inv3 solve sc table h stale Ns Nd fm false bb minf_only cutoff_factor g i p in
    let posed i p := posed_run4 inv inv3 solve sc table h stale Ns Nd fm bb minf_only cutoff_factor g i p in
    orthogonal Q -> permutes Ns s -> permutes Nd t ->
    0 < cutoff_factor -> inverts_posdef inv -> solves_posdef solve -> inverts inv3 -> (0 < Ns)%nat ->
    no_box_g g -> g_fully_2d g = false \/ keeps_y Q -> g_start g = 0%nat -> g_scheme g = rk4 ->
    (0 < g_save_pos g)%nat -> (0 < g_save_forces g)%nat ->
    (g_save_after g mod g_save_pos g = 0)%nat -> (g_save_after g mod g_save_forces g = 0)%nat ->
    input_renumbered Q s t Ns Nd input input' -> one_strain s Ns Nd fm input ->
    config_renumbered Q s t Ns Nd p0 p0' -> oriented Ns p0 ->
    posed input p0 -> posed input' p0' ->
    (minf_only = false -> reciprocal_run4 inv inv3 solve sc table h stale Ns Nd fm bb minf_only cutoff_factor g input p0) ->
    run input p0 = Ok (Some (a, fs)) -> run input' p0' = Ok (Some (a', fs')) ->
    Forall2 (snapshot_renumbered Q s t Ns Nd) a a' /\ Forall2 (forces_renumbered Q s t Ns Nd) fs fs'.
Proof.
  intros Q s t inv inv3 solve sc table h stale Ns Nd fm bb minf_only cf g input input' p0 p0' a fs a' fs' run posed
    HQ Hs Ht Hcf Hi Hso H3 HN Hb H2 H0 Hsch S1 S2 S3 S4 HI HE HC HO HP HP' HR E E'.
  exact (runs_renumbered4 Q HQ s t Ns Nd Hs Ht HN inv3 H3 g Hb H2 inv solve sc table h stale fm bb minf_only cf input input' p0 p0'
    Hcf Hi Hso H0 Hsch HI HE HC HO HP HP' HR a fs a' fs' S1 S2 S3 S4 E E').
Qed.
Print Assumptions C86_rk4.

(** Particles listed in another order, nothing turned. *)
Theorem C86_rk4_relisted :
  forall s t inv inv3 solve sc table h stale Ns Nd fm bb minf_only cutoff_factor g n dt p0 a fs a' fs',
    let input := fun p u => input_ftsuoe n fm Ns Nd p u dt in
    let run p := full_simulation inv inv3 solve sc table h stale Ns Nd fm false bb minf_only cutoff_factor g input p in
    let posed p := posed_run4 inv inv3 solve sc table h stale Ns Nd fm bb minf_only cutoff_factor g input p in
    In n [1; 3; 4; 7]%Z -> Nd = 0%nat \/ s 0%nat = 0%nat \/ fm <> fts ->
    permutes Ns s -> permutes Nd t ->
    0 < cutoff_factor -> inverts_posdef inv -> solves_posdef solve -> inverts inv3 -> (0 < Ns)%nat ->
    no_box_g g -> g_start g = 0%nat -> g_scheme g = rk4 ->
    (0 < g_save_pos g)%nat -> (0 < g_save_forces g)%nat ->
    (g_save_after g mod g_save_pos g = 0)%nat -> (g_save_after g mod g_save_forces g = 0)%nat ->
    oriented Ns p0 -> posed p0 -> posed (relisted s t p0) ->
    (minf_only = false -> reciprocal_run4 inv inv3 solve sc table h stale Ns Nd fm bb minf_only cutoff_factor g input p0) ->
    run p0 = Ok (Some (a, fs)) -> run (relisted s t p0) = Ok (Some (a', fs')) ->
    Forall2 (relisted_snapshot s t Ns Nd) a a' /\ Forall2 (relisted_forces s t Ns Nd) fs fs'.
Proof.
  intros s t inv inv3 solve sc table h stale Ns Nd fm bb minf_only cf g n dt p0 a fs a' fs' input run posed
    Hn HE Hs Ht Hcf Hi Hso H3 HN Hb H0 Hsch S1 S2 S3 S4 HO HP HP' HR E E'.
  destruct (C86_rk4 delta s t inv inv3 solve sc table h stale Ns Nd fm bb minf_only cf g input input p0 (relisted s t p0) a fs a' fs'
    one_orthogonal Hs Ht Hcf Hi Hso H3 HN Hb) as [A B]; try assumption.
  - right. unfold keeps_y, delta. auto.
  - apply shipped_same; assumption.
  - destruct HE as [HE|[HE|HE]]; [left; exact HE|right; left; exact HE|apply shipped_strain; assumption].
  - apply relisted_config.
  - assert (D : forall (T : Type) (r q : T -> T -> Prop) l l', (forall x y, r x y -> q x y) -> Forall2 r l l' -> Forall2 q l l').
    { intros T r q l l' H F. induction F; constructor; auto. }
    split; [exact (D _ _ _ _ _ (relist_snapshot s t Ns Nd) A)|exact (D _ _ _ _ _ (relist_forces s t Ns Nd) B)].
Qed.
Print Assumptions C86_rk4_relisted.

(** With the drag matrix and no near field. *)
Theorem C86_rk4_drag :
  forall Q s t inv inv3 solve sc table h stale Ns Nd fm bb cutoff_factor g input input' p0 p0' a fs a' fs',
    let run i p := full_simulation inv inv3 solve sc table h stale Ns Nd fm false bb true cutoff_factor g i p in
    orthogonal Q -> permutes Ns s -> permutes Nd t ->
    0 < cutoff_factor -> inverts_posdef inv -> solves_posdef solve -> inverts inv3 -> (0 < Ns)%nat ->
    g_use_drag g = true -> g_explosion g = false ->
    no_box_g g -> g_fully_2d g = false \/ keeps_y Q -> g_start g = 0%nat -> g_scheme g = rk4 ->
    (0 < g_save_pos g)%nat -> (0 < g_save_forces g)%nat ->
    (g_save_after g mod g_save_pos g = 0)%nat -> (g_save_after g mod g_save_forces g = 0)%nat ->
    (forall i, (i < Ns)%nat -> 0 < c_ssizes p0 i) -> (forall i, (i < Nd)%nat -> 0 < c_dsizes p0 i) ->
    (forall p t i f, input p t = Ok (i, f) -> well_posed Ns Nd fm i /\ 0 < f_mu f) ->
    (forall p t i f, input' p t = Ok (i, f) -> well_posed Ns Nd fm i /\ 0 < f_mu f) ->
    input_renumbered Q s t Ns Nd input input' -> one_strain s Ns Nd fm input ->
    config_renumbered Q s t Ns Nd p0 p0' -> oriented Ns p0 ->
    run input p0 = Ok (Some (a, fs)) -> run input' p0' = Ok (Some (a', fs')) ->
    Forall2 (snapshot_renumbered Q s t Ns Nd) a a' /\ Forall2 (forces_renumbered Q s t Ns Nd) fs fs'.
Proof.
  intros Q s t inv inv3 solve sc table h stale Ns Nd fm bb cf g input input' p0 p0' a fs a' fs' run
    HQ Hs Ht Hcf Hi Hso H3 HN Hd HX Hb H2 H0 Hsch S1 S2 S3 S4 P1 P2 Hw Hw' HI HE HC HO E E'.
  refine (C86_rk4 Q s t inv inv3 solve sc table h stale Ns Nd fm bb true cf g input input' p0 p0' a fs a' fs'
    HQ Hs Ht Hcf Hi Hso H3 HN Hb H2 H0 Hsch S1 S2 S3 S4 HI HE HC HO _ _ ltac:(discriminate) E E').
  - apply drag_posed4; assumption.
  - destruct HC as (C1 & C2 & _).
    apply drag_posed4; try assumption; [intros i Hi'; rewrite C1; apply P1, Hs; exact Hi'|intros i Hi'; rewrite C2; apply P2, Ht; exact Hi'].
Qed.
Print Assumptions C86_rk4_drag.

(** Symmetric arrangements stay symmetric. *)
Theorem C86_rk4_symmetric :
  forall Q s t inv inv3 solve sc table h stale Ns Nd fm bb minf_only cutoff_factor g input p0 a fs,
    orthogonal Q -> permutes Ns s -> permutes Nd t ->
    0 < cutoff_factor -> inverts_posdef inv -> solves_posdef solve -> inverts inv3 -> (0 < Ns)%nat ->
    no_box_g g -> g_fully_2d g = false \/ keeps_y Q -> g_start g = 0%nat -> g_scheme g = rk4 ->
    (0 < g_save_pos g)%nat -> (0 < g_save_forces g)%nat ->
    (g_save_after g mod g_save_pos g = 0)%nat -> (g_save_after g mod g_save_forces g = 0)%nat ->
    input_renumbered Q s t Ns Nd input input -> one_strain s Ns Nd fm input ->
    config_renumbered Q s t Ns Nd p0 p0 -> oriented Ns p0 ->
    posed_run4 inv inv3 solve sc table h stale Ns Nd fm bb minf_only cutoff_factor g input p0 ->
    (minf_only = false -> reciprocal_run4 inv inv3 solve sc table h stale Ns Nd fm bb minf_only cutoff_factor g input p0) ->
    full_simulation inv inv3 solve sc table h stale Ns Nd fm false bb minf_only cutoff_factor g input p0 = Ok (Some (a, fs)) ->
    Forall (fun x => snapshot_renumbered Q s t Ns Nd x x) a /\ Forall (fun x => forces_renumbered Q s t Ns Nd x x) fs.
Proof.
  intros Q s t inv inv3 solve sc table h stale Ns Nd fm bb minf_only cf g input p0 a fs
    HQ Hs Ht Hcf Hi Hso H3 HN Hb H2 H0 Hsch S1 S2 S3 S4 HI HE HC HO HP HR E.
  destruct (C86_rk4 Q s t inv inv3 solve sc table h stale Ns Nd fm bb minf_only cf g input input p0 p0 a fs a fs
    HQ Hs Ht Hcf Hi Hso H3 HN Hb H2 H0 Hsch S1 S2 S3 S4 HI HE HC HO HP HP HR E E) as [A B].
  assert (D : forall (T : Type) (r : T -> T -> Prop) l, Forall2 r l l -> Forall (fun x => r x x) l).
  { intros T r l. induction l as [|x l IH]; intros F; constructor; inversion F; auto. }
  split; [exact (D _ _ _ A)|exact (D _ _ _ B)].
Qed.
Print Assumptions C86_rk4_symmetric.

(** Opposite particles stay opposite. *)
Theorem C86_rk4_centred :
  forall s t inv inv3 solve sc table h stale Ns Nd fm bb minf_only cutoff_factor g n dt p0 a fs,
    let input := fun p u => input_ftsuoe n fm Ns Nd p u dt in
    In n [4; 7]%Z -> Nd = 0%nat \/ s 0%nat = 0%nat \/ fm <> fts ->
    permutes Ns s -> permutes Nd t ->
    0 < cutoff_factor -> inverts_posdef inv -> solves_posdef solve -> inverts inv3 -> (0 < Ns)%nat ->
    no_box_g g -> g_start g = 0%nat -> g_scheme g = rk4 ->
    (0 < g_save_pos g)%nat -> (0 < g_save_forces g)%nat ->
    (g_save_after g mod g_save_pos g = 0)%nat -> (g_save_after g mod g_save_forces g = 0)%nat ->
    centred_config s t Ns Nd p0 -> oriented Ns p0 ->
    posed_run4 inv inv3 solve sc table h stale Ns Nd fm bb minf_only cutoff_factor g input p0 ->
    (minf_only = false -> reciprocal_run4 inv inv3 solve sc table h stale Ns Nd fm bb minf_only cutoff_factor g input p0) ->
    full_simulation inv inv3 solve sc table h stale Ns Nd fm false bb minf_only cutoff_factor g input p0 = Ok (Some (a, fs)) ->
    Forall (centred_snapshot s t Ns Nd) a /\ Forall (centred_forces s t Ns Nd) fs.
Proof.
  intros s t inv inv3 solve sc table h stale Ns Nd fm bb minf_only cf g n dt p0 a fs input
    Hn HE Hs Ht Hcf Hi Hso H3 HN Hb H0 Hsch S1 S2 S3 S4 HC HO HP HR E.
  destruct (C86_rk4_symmetric inversion s t inv inv3 solve sc table h stale Ns Nd fm bb minf_only cf g input p0 a fs
    inversion_orthogonal Hs Ht Hcf Hi Hso H3 HN Hb) as [A B]; try assumption.
  - right. unfold keeps_y, inversion, delta. cbn [Nat.eqb]. rewrite Ropp_0. auto.
  - destruct (C86_inputs inversion s t Ns Nd fm dt inversion_orthogonal Hs Ht) as (_ & I4 & I7 & _). destruct Hn as [<-|[<-|[]]]; [exact I4|exact I7].
  - destruct HE as [HE|[HE|HE]]; [left; exact HE|right; left; exact HE|apply shipped_strain; [cbn in *; tauto|exact HE]].
  - apply centred_renumbered. exact HC.
  - split; [exact (Forall_impl _ (centred_snap s t Ns Nd) A)|exact (Forall_impl _ (centred_forc s t Ns Nd) B)].
Qed.
Print Assumptions C86_rk4_centred.

(** Instances.  Falling spheres of any radii, listed in any two orders, with
    the drag matrix, for any number of frames. *)
Example C86_rk4_example sc Ns s p0 dt num_frames :
  permutes Ns s -> (0 < Ns)%nat -> (0 < num_frames)%nat -> (forall i, (i < Ns)%nat -> 0 < c_ssizes p0 i) -> oriented Ns p0 ->
  let run p := full_simulation pinv Proof_Step.inv3 psolve sc [] 0 (fun _ _ => 0) Ns 0 fte false true true 2
                 (rk4_settings dt num_frames) (falling Ns dt) p in
  exists a fs a' fs', run p0 = Ok (Some (a, fs)) /\ run (relisted s (fun d => d) p0) = Ok (Some (a', fs')) /\
    length a = S num_frames /\ length fs = num_frames /\
    Forall2 (relisted_snapshot s (fun d => d) Ns 0) a a' /\ Forall2 (relisted_forces s (fun d => d) Ns 0) fs fs'.
Proof.
  intros Hs HN HF HP HO run.
  destruct (falling_runs4 sc Ns p0 dt num_frames HN HF) as (a & fs & E & L1 & L2).
  destruct (falling_runs4 sc Ns (relisted s (fun d => d) p0) dt num_frames HN HF) as (a' & fs' & E' & _).
  exists a, fs, a', fs'. split; [exact E|]. split; [exact E'|]. split; [exact L1|]. split; [exact L2|].
  refine (C86_rk4_relisted s (fun d => d) pinv Proof_Step.inv3 psolve sc [] 0 (fun _ _ => 0) Ns 0 fte true true 2 (rk4_settings dt num_frames) 1 dt p0 a fs a' fs'
    ltac:(left; reflexivity) (or_introl eq_refl) Hs (id_permutes 0) ltac:(lra) pinv_ok psolve_ok Proof_Step.inv3_inverts HN _ eq_refl eq_refl
    ltac:(cbn; lia) ltac:(cbn; lia) eq_refl eq_refl HO _ _ ltac:(discriminate) E E').
  - intros l Hl. reflexivity.
  - apply drag_posed4; try reflexivity; try assumption; [intros i Hi; lia|intros p t i f; apply falling_posed; exact HN].
  - apply drag_posed4; try reflexivity; try assumption; [|intros i Hi; lia|intros p t i f; apply falling_posed; exact HN].
    intros i Hi. apply HP, Hs. exact Hi.
Qed.

(** Two opposite spheres and two opposite dumbbells in a steady shear flow. *)
Example C86_rk4_centred_example sc dt num_frames :
  (0 < num_frames)%nat ->
  exists a fs, full_simulation pinv Proof_Step.inv3 psolve sc [] 0 (fun _ _ => 0) 2 2 fte false true true 2
                 (rk4_settings dt num_frames) (fun p t => input_ftsuoe 7 fte 2 2 p t dt) opposite_pair = Ok (Some (a, fs)) /\
    length a = S num_frames /\ length fs = num_frames /\
    Forall (centred_snapshot swap swap 2 2) a /\ Forall (centred_forces swap swap 2 2) fs.
Proof.
  intros HF. set (input := fun p t => input_ftsuoe 7 fte 2 2 p t dt). set (g := rk4_settings dt num_frames).
  assert (SH : solves_shape psolve) by (intros n A b _; unfold psolve; rewrite map_length, seq_length; reflexivity).
  assert (W : forall p t, exists i f, input p t = Ok (i, f) /\ complete fte 2 2 i /\ free_space f = true /\ f_mu f = 1).
  { intros p t. destruct (given_inputs 7 fte 2 2 p t dt ltac:(lia)) as (i & f & E & C & _); [left; discriminate|].
    exists i, f. split; [exact E|]. split; [exact C|]. unfold input_ftsuoe in E. cbn [Z.ltb Z.compare] in E. injection E as _ <-. split; [exact free_default|reflexivity]. }
  destruct (C62_complete pinv Proof_Step.inv3 psolve sc [] 0 (fun _ _ => 0) 2 2 fte false true true 2 g input opposite_pair [1; 1 / 10] SH) as (a & fs & E & L).
  { intros i Hi. left. reflexivity. }
  { intros i Hi. right. left. reflexivity. }
  { left. reflexivity. }
  { discriminate. }
  { intros p t _ _. destruct (W p t) as (i & f & Ei & C & Fr & _). exists i, f. auto. }
  { repeat split; cbn; auto; lia. }
  destruct (L eq_refl eq_refl (or_introl eq_refl)) as [L1 L2].
  exists a, fs. split; [exact E|]. split; [exact L1|]. split; [exact L2|].
  refine (C86_rk4_centred swap swap pinv Proof_Step.inv3 psolve sc [] 0 (fun _ _ => 0) 2 2 fte true true 2 g 7 dt opposite_pair a fs
    ltac:(right; left; reflexivity) ltac:(right; right; discriminate) swap_permutes swap_permutes ltac:(lra) pinv_ok psolve_ok Proof_Step.inv3_inverts ltac:(lia) _ eq_refl eq_refl
    ltac:(cbn; lia) ltac:(cbn; lia) eq_refl eq_refl _ _ _ ltac:(discriminate) E).
  - intros l Hl. reflexivity.
  - split; [reflexivity|]. split; [reflexivity|]. split.
    + intros j l Hj Hl. cbn [c_spos c_srot opposite_pair]. unfold both. destruct j as [|[|]]; [| |lia]; cbn [swap Nat.eqb]; (split; [lra|intros k Hk; lra]).
    + intros d l Hd Hl. cbn [c_dpos c_ddx opposite_pair]. unfold both. destruct d as [|[|]]; [| |lia]; cbn [swap Nat.eqb]; split; lra.
  - intros j k Hj Hk. cbn [c_srot c_spos opposite_pair]. unfold both. destruct (Nat.eqb j 0), (Nat.eqb k 0);
      (exists 0%nat; split; [lia|]; unfold v3; lra) || (exists 2%nat; split; [lia|]; unfold v3; lra).
  - apply drag_posed4; try reflexivity; try lia.
    + intros i Hi. cbn. lra.
    + intros i Hi. cbn. lra.
    + intros p t i f Ei. destruct (W p t) as (i' & f' & Ei' & C & _ & M). unfold input in Ei'. rewrite Ei in Ei'. injection Ei' as <- <-. split; [|rewrite M; lra].
      unfold complete in C. unfold well_posed. tauto.
Qed.
