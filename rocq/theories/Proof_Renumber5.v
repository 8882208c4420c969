(** Strains of the shipped inputs, relisted and point-symmetric arrangements,
    and runs of one frame of widely spaced particles. *)
From Coq Require Import Reals List Arith ZArith Bool Lia Lra.
From Verif Require Import Base Py Model_Mob Model_Minf Model_Grand Model_Close Model_R2B Model_MinfP Model_GrandP Model_Step Model_Shear Model_Repulsion
  Model_Output Model_Frame Model_Inputs Model_Sim Spec_Pack Spec_Minf Spec_Convert Spec_Output Spec_Rotate Spec_Close Spec_Step Spec_Frame Spec_Posdef Spec_Run Spec_Sim Spec_Turn Spec_Renumber Spec_Wide
  Proof_Frame Proof_Posdef Proof_Posdef2 Proof_Run Proof_Run2 Proof_Turn1 Proof_Turn3 Proof_Turn5 Proof_Renumber1 Proof_Renumber4 Prop_Wide Prop_R2B.
Import ListNotations.
Local Open Scope R_scope.

Lemma default_strain fm Ns Nd j : (j < Ns)%nat -> nth_error (i_Ea (default_inputs fm Ns Nd)) j = nth_error (i_Ea (default_inputs fm Ns Nd)) 0.
Proof. intros Hj. destruct fm; unfold default_inputs, empty_vectors; cbn [i_Ea]; rewrite !nth_error_repeat by lia; reflexivity. Qed.
Lemma shear_strain i h c Ns j : h_Ea h = repeat (literal_xz c) (Nat.max 1 Ns) -> (j < Ns)%nat ->
  nth_error (i_Ea (fst (with_shear i h))) j = nth_error (i_Ea (fst (with_shear i h))) 0.
Proof.
  intros Eh Hj. unfold with_shear, with_Ea. cbn [fst i_Ea]. rewrite !nth_error_map, Eh, !nth_error_repeat by lia. reflexivity.
Qed.
Lemma shipped_strain s n fm Ns Nd dt : In n [1; 3; 4; 7]%Z -> fm <> fts -> one_strain s Ns Nd fm (fun p t => input_ftsuoe n fm Ns Nd p t dt).
Proof.
  assert (OK2 : forall a b : inputs * flow, Ok a = Ok b -> a = b) by (intros x v H; injection H; auto).
  intros Hn Hfm. right. right. split; [exact Hfm|]. intros p t i f E j Hj.
  destruct Hn as [<-|[<-|[<-|[<-|[]]]]]; unfold input_ftsuoe in E; cbn [Z.ltb Z.compare] in E; cbv zeta in E.
  - apply OK2 in E. injection E as <- _. unfold with_Fa. cbn [i_Ea]. apply default_strain. exact Hj.
  - unfold oscillatory_shear in E. cbv zeta in E. destruct (Reqb 10 0); [discriminate|]. cbn [bind] in E. apply OK2 in E.
    match type of E with with_shear ?a ?h0 = _ => pose proof (shear_strain a h0 _ Ns j eq_refl Hj) as K end. rewrite E in K. exact K.
  - binv E. binv E. binv E. binv E. destruct a2 as [[Fa1 Fb1] D1]. apply OK2 in E. injection E as <- _.
    unfold with_Fa, with_Fb, with_DFb. cbn [i_Ea]. apply default_strain. exact Hj.
  - apply OK2 in E. match type of E with with_shear ?a ?h0 = _ => pose proof (shear_strain a h0 _ Ns j eq_refl Hj) as K end. rewrite E in K. exact K.
Qed.

Lemma my_literal c : mat_turned mirror_y (literal_xz c) (literal_xz c).
Proof. intros k l Hk Hl. unfold rot2, rsum, mirror_y, literal_xz. idx3 Hk; idx3 Hl; cbn; ring. Qed.
Lemma my_spin w : pseudo_turned mirror_y (v3 0 w 0) (v3 0 w 0).
Proof. intros l Hl. unfold det3, rot, mvec, rsum, mirror_y, v3. idx3 Hl; cbn; ring. Qed.
Lemma mirror_x_orthogonal : orthogonal mirror_x.
Proof. intros i j Hi Hj. split; unfold mmul, mtr, mirror_x, delta, rsum; idx3 Hi; idx3 Hj; cbn [Nat.eqb]; ring. Qed.

Section Shipped.
Variables s t : nat -> nat.
Variables Ns Nd : nat.
Hypothesis Hs : permutes Ns s.
Hypothesis Ht : permutes Nd t.
Notation shipped n fm dt := (fun p u => input_ftsuoe n fm Ns Nd p u dt).

Lemma shipped1 Q fm dt : orthogonal Q -> keeps_z Q -> input_renumbered Q s t Ns Nd (shipped 1 fm dt) (shipped 1 fm dt).
Proof. intros HQ HZ. apply exact_turned; [exact (exact1 s t Ns Nd Hs Ht fm dt)|apply input1_turned; exact HZ]. Qed.
Lemma shipped4 Q fm dt : orthogonal Q -> input_renumbered Q s t Ns Nd (shipped 4 fm dt) (shipped 4 fm dt).
Proof. intros HQ. apply exact_turned; [exact (exact4 s t Ns Nd Hs Ht fm dt)|apply input4_turned; exact HQ]. Qed.
Lemma shipped7 Q fm dt : orthogonal Q -> (forall c, mat_turned Q (literal_xz c) (literal_xz c)) -> (forall w, pseudo_turned Q (v3 0 w 0) (v3 0 w 0)) ->
  input_renumbered Q s t Ns Nd (shipped 7 fm dt) (shipped 7 fm dt).
Proof. intros HQ HE HO. apply exact_turned; [exact (exact7 s t Ns Nd Hs Ht fm dt)|apply input7_turned; assumption]. Qed.
Lemma shipped_same n fm dt : In n [1; 3; 4; 7]%Z -> input_renumbered delta s t Ns Nd (shipped n fm dt) (shipped n fm dt).
Proof.
  intros Hn. change delta with one. apply exact_turned; [apply shipped_exact; assumption|].
  destruct Hn as [<-|[<-|[<-|[<-|[]]]]].
  - apply input1_turned. unfold keeps_z, one, delta. auto.
  - apply input3_turned; [exact one_orthogonal|intros c; apply one_mat|intros w; apply one_pseudo|apply one_vec_same].
  - apply input4_turned. exact one_orthogonal.
  - apply input7_turned; [intros c; apply one_mat|intros w; apply one_pseudo].
Qed.
Lemma shipped_mirror_y n fm dt : In n [1; 3; 4; 7]%Z -> input_renumbered mirror_y s t Ns Nd (shipped n fm dt) (shipped n fm dt).
Proof.
  intros Hn. apply exact_turned; [apply shipped_exact; assumption|]. apply shipped_flat. cbn in *. tauto.
Qed.
End Shipped.

(** Relisting is renumbering with the identity. *)
Lemma relisted_config s t Ns Nd p : config_renumbered delta s t Ns Nd p (relisted s t p).
Proof. change delta with one. split; [reflexivity|]. split; [reflexivity|]. split; intros; (split; [apply one_vec_same|]); intros; apply one_vec_same. Qed.
Lemma one_out v v' l : vec_turned one v v' -> (l < 3)%nat -> v' l = v l.
Proof. intros H Hl. rewrite (H l Hl). apply one_rot. exact Hl. Qed.
Lemma one_mat_out A B k l : mat_turned one A B -> (k < 3)%nat -> (l < 3)%nat -> B k l = A k l.
Proof. intros H Hk Hl. rewrite (H k l Hk Hl). symmetry. exact (one_mat A k l Hk Hl). Qed.
Lemma relist_snapshot s t Ns Nd a b : snapshot_renumbered delta s t Ns Nd a b -> relisted_snapshot s t Ns Nd a b.
Proof.
  change delta with one. intros [A B]. split.
  - intros j l Hj Hl. destruct (A j Hj) as [A1 A2]. split; [apply one_out; assumption|]. intros k Hk. apply one_out; auto.
  - intros d l Hd Hl. destruct (B d Hd) as [B1 B2]. split; apply one_out; assumption.
Qed.
Lemma relist_forces s t Ns Nd a b : forces_renumbered delta s t Ns Nd a b -> relisted_forces s t Ns Nd a b.
Proof.
  change delta with one. intros [A B]. split.
  - intros j l Hj Hl. destruct (A j Hj) as [A1 A2]. split; [apply one_out; assumption|]. intros k Hk. apply one_mat_out; auto.
  - intros d l Hd Hl. destruct (B d Hd) as [B1 B2]. split; apply one_out; assumption.
Qed.

(** Point symmetry is renumbering with the inversion. *)
Lemma inv_vec v v' : (forall l, (l < 3)%nat -> v' l = - v l) <-> vec_turned inversion v v'.
Proof. split; intros H l Hl; [rewrite inversion_rot by exact Hl; apply H; exact Hl|rewrite (H l Hl); apply inversion_rot; exact Hl]. Qed.
Lemma centred_renumbered s t Ns Nd p : centred_config s t Ns Nd p -> config_renumbered inversion s t Ns Nd p p.
Proof.
  intros (A & B & C & D). split; [exact A|]. split; [exact B|]. split.
  - intros j Hj. split; [apply inv_vec; intros l Hl; apply (C j l Hj Hl)|]. intros k Hk. apply inv_vec. intros l Hl. apply (C j l Hj Hl). exact Hk.
  - intros d Hd. split; apply inv_vec; intros l Hl; apply (D d l Hd Hl).
Qed.
Lemma centred_snap s t Ns Nd a : snapshot_renumbered inversion s t Ns Nd a a -> centred_snapshot s t Ns Nd a.
Proof.
  intros [A B]. split.
  - intros j l Hj Hl. destruct (A j Hj) as [A1 A2]. split; [apply inv_vec; assumption|]. intros k Hk. apply inv_vec; auto.
  - intros d l Hd Hl. destruct (B d Hd) as [B1 B2]. split; apply inv_vec; assumption.
Qed.
Lemma centred_forc s t Ns Nd a : forces_renumbered inversion s t Ns Nd a a -> centred_forces s t Ns Nd a.
Proof.
  intros [A B]. split.
  - intros j l Hj Hl. destruct (A j Hj) as [A1 A2]. split; [apply inv_vec; assumption|]. intros k Hk. rewrite (A2 l k Hl Hk).
    symmetry. exact (inversion_mat (n_Sa a (s j)) l k Hl Hk).
  - intros d l Hd Hl. destruct (B d Hd) as [B1 B2]. split; apply inv_vec; assumption.
Qed.

(** A run of one frame of widely spaced particles is well posed (C68). *)
Lemma wide_posed inv inv3 solve sc table h stale Ns Nd fm bb minf_only cf g input p0 a0 A :
  let nb := (Ns + 2 * Nd)%nat in
  let x := Model_Minf.bead_positions (posdata_of Ns Nd p0) in
  let a := Model_Minf.bead_sizes (posdata_of Ns Nd p0) in
  g_num_frames g = 1%nat -> g_use_drag g = false -> 0 < cf -> 0 < a0 -> radii_within nb a a0 A ->
  spaced nb x (500 * INR (11 * Ns + 6 * Nd) * A ^ 3 * a0) -> spaced nb x (/ 10 ^ 10) -> spaced nb x (2 * cf * A * a0) ->
  (forall p t i f, input p t = Ok (i, f) -> well_posed Ns Nd fm i /\ 0 < f_mu f /\ unbounded f) ->
  posed_run inv inv3 solve sc table h stale Ns Nd fm bb minf_only cf g input p0 /\
  (minf_only = false -> reciprocal_pairs sc table cf Ns Nd p0).
Proof.
  intros nb x a HN Hd Hcf Ha0 HA HX HT HC Hw.
  assert (PD : forall mu, 0 < mu -> pos_def (11 * Ns + 6 * Nd) (generate_Minfinity bb (posdata_of Ns Nd p0) mu)).
  { intros mu Hmu. exact (proj1 (proj2 (C68_far_field bb (posdata_of Ns Nd p0) mu a0 A Hmu Ha0 HA HX HT))). }
  assert (Ha : forall b, (b < nb)%nat -> 0 < a b) by (intros b Hb; destruct (HA b Hb); lra).
  assert (Hfar : forall u v, (u < nb)%nat -> (v < nb)%nat -> u <> v -> 2 * cf <= scaled_distance x a u v).
  { intros u v Hu Hv Ne. unfold scaled_distance. specialize (HC v u Hv Hu (not_eq_sym Ne)). destruct (HA u Hu), (HA v Hv).
    set (d := norm _) in *. set (w := a u) in *. set (w' := a v) in *. clearbody d w w'.
    apply Rmult_le_reg_r with (w + w'); [lra|]. replace (2 * d / (w + w') * (w + w')) with (2 * d) by (field; lra).
    apply Rle_trans with (2 * cf * (2 * (A * a0))); [apply Rmult_le_compat_l; lra|]. lra. }
  split; [|intros _; split; [exact Ha|]; intros u v Hu Hv Ne C; specialize (Hfar u v Hu Hv Ne); fold x a in C; lra].
  assert (R0 : forall m p, (m < g_num_frames g)%nat -> (exists st, run_frames inv3 Ns Nd (far_inverse inv h stale Ns Nd bb g input)
     (solve_rest inv inv3 solve sc table h stale Ns Nd fm false bb minf_only cf g input) g (fresh p0) (seq 0 m) = Ok st /\ s_pos st = p) -> m = 0%nat /\ p = p0).
  { intros m p Hm (st & Es & <-). rewrite HN in Hm. assert (m = 0%nat) by lia. subst m. cbn in Es. injection Es as <-. auto. }
  split; [|split; [|split; [|split]]].
  - intros m st Hm Es. rewrite HN in Hm. assert (m = 0%nat) by lia. subst m. cbn in Es. injection Es as <-. reflexivity.
  - intros m p i f _ _ E. apply (Hw _ _ _ _ E).
  - intros m p i f M Hm _ Hr E [FM _]. destruct (R0 m p Hm Hr) as [-> ->]. destruct (Hw _ _ _ _ E) as (_ & Mu & U).
    rewrite (FM U). apply PD. exact Mu.
  - intros m pos i f L N0 Hm Hr E HL HNf. destruct (R0 m (pos m) Hm (Hr m (le_n m))) as [-> Ep].
    destruct (Hw _ _ _ _ E) as (_ & Mu & U).
    unfold far_resistance in HL. rewrite Hd in HL. destruct HL as (k & ik & fk & M & (K1 & _) & Ek & [M1 _] & IM).
    assert (k = 0%nat) by lia. subst k. rewrite Ep in *. destruct (Hw _ _ _ _ Ek) as (_ & Muk & Uk). rewrite (M1 Uk) in IM.
    refine (pos_def_ext _ L _ _ (pos_def_inv _ _ _ (PD _ Muk) IM)).
    intros r c Hr1 Hc1. unfold near_field in HNf. destruct minf_only; [subst N0; unfold mzero; ring|].
    destruct HNf as [HNf _]. specialize (HNf U).
    rewrite (C15_separated_particles_zero sc table bb (posdata_of Ns Nd p0) cf (f_mu f) N0 r c Hcf Ha HNf Hfar Hr1 Hc1). ring.
  - intros _ m p Hm Hr. destruct (R0 m p Hm Hr) as [_ ->]. split; [exact Ha|]. exact HT.
Qed.
