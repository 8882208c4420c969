(** The shipped inputs in other units. *)
From Coq Require Import Reals List Arith ZArith Bool Lia Lra FunctionalExtensionality.
From Verif Require Import Base Py Model_Pack Model_Mob Model_Minf Model_Step Model_Shear Model_Repulsion Model_Output Model_Frame Model_Inputs Model_Sim
  Spec_Pack Spec_Minf Spec_Rotate Spec_Close Spec_Repulsion Spec_Step Spec_Frame Spec_Posdef Spec_Run Spec_Turn Spec_Units
  Proof_Repulsion Proof_Output3 Proof_Frame Proof_Turn5 Proof_Units2.
Import ListNotations.
Local Open Scope R_scope.

Section Inputs.
Variables lam ups kap : R.
Variable org : vec.
Hypothesis Hl : 0 < lam.
Variables Ns Nd : nat.
Variable calm : bool.
Variable fm : form.
(** Without flow the origin is free (with given strains); otherwise it stays. *)
Hypothesis Horg : if calm then fm <> fts else forall l, (l < 3)%nat -> org l = 0.
Notation D := (default_inputs fm Ns Nd).

Lemma rows_zero k l : (forall x, In (Some x) l -> x = zeros3) -> rows_times k l l.
Proof. intros H. apply lists_self. intros x Hx. rewrite (H x Hx). intros c _. rewrite zeros_row. ring. Qed.
Lemma rows_one l : rows_times 1 l l.
Proof. apply lists_self. intros x _ c _. ring. Qed.
Lemma zero_mat a b : (a < 3)%nat -> (b < 3)%nat -> tensor_mat zeros33 a b = 0.
Proof. intros Ha Hb. unfold tensor_mat, zeros33, zeros3. idx3 Ha; idx3 Hb; reflexivity. Qed.
Lemma tensors_zero k l : (forall x, In (Some x) l -> x = zeros33) -> tensors_times k l l /\ given_st l.
Proof.
  intros H. split.
  - apply lists_self. intros x Hx. rewrite (H x Hx). intros a b Ha Hb. rewrite zero_mat by assumption. ring.
  - intros x Hx. rewrite (H x Hx). apply zeros_st.
Qed.
Lemma default_scaled : inputs_scaled lam ups kap D D.
Proof.
  destruct (tensors_zero (torque_unit lam ups kap) (i_Sa D) ltac:(intros x Hx; apply (default_tensors Ns Nd fm); tauto)) as [S1 S2].
  destruct (tensors_zero (rate_unit lam ups) (i_Ea D) ltac:(intros x Hx; apply (default_tensors Ns Nd fm); tauto)) as [E1 E2].
  unfold inputs_scaled.
  assert (Z : forall k l, (forall x, In (Some x) l -> x = zeros3) -> rows_times k l l) by exact rows_zero.
  split; [apply Z; intros x Hx; apply (default_rows Ns Nd fm); tauto|]. split; [apply Z; intros x Hx; apply (default_rows Ns Nd fm); tauto|]. split; [exact S1|].
  split; [apply Z; intros x Hx; apply (default_rows Ns Nd fm); tauto|]. split; [apply Z; intros x Hx; apply (default_rows Ns Nd fm); tauto|].
  split; [apply Z; intros x Hx; apply (default_rows Ns Nd fm); tauto|]. split; [exact E1|].
  split; [apply Z; intros x Hx; apply (default_rows Ns Nd fm); tauto|]. split; [apply Z; intros x Hx; apply (default_rows Ns Nd fm); tauto|]. tauto.
Qed.
Lemma default_flow_scaled : kap = 1 -> flow_scaled lam ups kap org calm default_flow default_flow.
Proof.
  intros ->. assert (Z : forall l, (l < 3)%nat -> v3 0 0 0 l = 0) by (intros l L; unfold v3; idx3 L; reflexivity).
  unfold flow_scaled, default_flow, unbounded. cbn [f_U f_O f_centre f_mu f_bl f_tr].
  split; [intros l L; rewrite Z by exact L; ring|]. split; [intros l L; rewrite Z by exact L; ring|]. split; [ring|]. split; [lra|].
  split; [intros l L; reflexivity|]. split; [intros l L; reflexivity|].
  destruct calm; [exact Z|]. intros l L. rewrite Z, Horg by exact L. ring.
Qed.
Lemma default_no_strain i : i_Ea i = i_Ea D -> calm = true -> no_strain fm i.
Proof.
  intros E HC. rewrite HC in Horg. split; [exact Horg|]. intros t Ht a b Ha Hb. rewrite E in Ht.
  rewrite (default_tensors Ns Nd fm t) by tauto. apply zero_mat; assumption.
Qed.

(** 1: gravity.  The force is fixed, so velocities go down as lengths go up. *)
Lemma input1_scaled dt dt' : ups = / lam -> kap = 1 ->
  input_scaled lam ups kap org Ns Nd calm fm (fun p t => input_ftsuoe 1 fm Ns Nd p t dt) (fun p t => input_ftsuoe 1 fm Ns Nd p t dt').
Proof.
  intros HU HK p p' t i f i' f' _ E E'. cbn in E, E'. injection E as <- <-. injection E' as <- <-.
  split; [|split; [apply default_flow_scaled; exact HK|apply default_no_strain; reflexivity]].
  destruct default_scaled as (D1 & D2 & D3 & D4 & D5 & D6 & D7 & D8 & D9 & D10).
  unfold inputs_scaled, with_Fa. cbn [i_Fa i_Ta i_Sa i_Fb i_DFb i_Ua i_Ea i_Ub i_HalfDUb]. split; [|tauto].
  replace (force_unit lam ups kap) with 1; [apply rows_one|]. unfold force_unit. rewrite HU, HK. field. lra.
Qed.
(** 5: given velocities. *)
Lemma input5_scaled dt dt' : ups = 1 -> kap = 1 ->
  input_scaled lam ups kap org Ns Nd calm fm (fun p t => input_ftsuoe 5 fm Ns Nd p t dt) (fun p t => input_ftsuoe 5 fm Ns Nd p t dt').
Proof.
  intros HU HK p p' t i f i' f' _ E E'. cbn in E, E'. injection E as <- <-. injection E' as <- <-.
  split; [|split; [apply default_flow_scaled; exact HK|apply default_no_strain; reflexivity]].
  destruct default_scaled as (D1 & D2 & D3 & D4 & D5 & D6 & D7 & D8 & D9 & D10).
  unfold inputs_scaled, with_Ua. cbn [i_Fa i_Ta i_Sa i_Fb i_DFb i_Ua i_Ea i_Ub i_HalfDUb].
  assert (U : rows_times ups (opposed Ns) (opposed Ns)) by (rewrite HU; apply rows_one). tauto.
Qed.
(** 7: shear at a given rate, about the origin. *)
Lemma input7_scaled dt : ups = lam -> kap = 1 -> (forall l, (l < 3)%nat -> org l = 0) -> calm = false ->
  input_scaled lam ups kap org Ns Nd calm fm (fun p t => input_ftsuoe 7 fm Ns Nd p t dt) (fun p t => input_ftsuoe 7 fm Ns Nd p t dt).
Proof.
  intros HU HK HO HC p p' t i f i' f' _ E E'. unfold input_ftsuoe in E, E'. cbn [Z.ltb Z.compare] in E, E'. cbv zeta in E, E'.
  rewrite E in E'. assert (OK2 : forall a b : inputs * flow, Ok a = Ok b -> a = b) by (intros u v H; injection H; auto).
  apply OK2 in E'. injection E' as <- <-. apply OK2 in E. unfold with_shear, constant_shear in E. cbn [h_Ea h_U h_O h_centre h_Ot h_Et] in E. injection E as <- <-.
  assert (RU : rate_unit lam ups = 1) by (unfold rate_unit; rewrite HU; field; lra).
  split; [|split].
  - destruct default_scaled as (D1 & D2 & D3 & D4 & D5 & D6 & D7 & D8 & D9 & D10).
    unfold inputs_scaled, with_Ea. cbn [i_Fa i_Ta i_Sa i_Fb i_DFb i_Ua i_Ea i_Ub i_HalfDUb].
    set (l := map _ _).
    assert (G : given_st l).
    { intros x Hx. unfold l in Hx. apply in_map_iff in Hx. destruct Hx as (m & Em & Hm). apply repeat_spec in Hm. injection Em as <-. subst m. apply literal_st. }
    assert (T : tensors_times (rate_unit lam ups) l l) by (rewrite RU; apply lists_self; intros x _ a b _ _; ring). tauto.
  - unfold flow_scaled, unbounded. cbn [f_U f_O f_centre f_mu f_bl f_tr]. rewrite HC, RU, HK.
    assert (Z : forall l, (l < 3)%nat -> v3 0 0 0 l = 0) by (intros l L; unfold v3; idx3 L; reflexivity).
    split; [intros l L; rewrite Z by exact L; ring|]. split; [intros l L; ring|]. split; [ring|]. split; [lra|]. split; [reflexivity|]. split; [reflexivity|].
    intros l L. rewrite Z, HO by exact L. ring.
  - intros C. congruence.
Qed.

(** 4: repulsion, proportional to the radii. *)
Lemma repulsion_scaled st tau x x' a a' p q : point_moved lam org (x p) (x' p) -> point_moved lam org (x q) (x' q) -> a' p = lam * a p -> a' q = lam * a q ->
  vec_times lam (repulsion st tau x a p q) (repulsion st tau x' a' p q).
Proof.
  intros A B Ap Aq. pose proof (pt_sub lam org _ _ _ _ B A) as V. pose proof (norm_times lam _ _ Hl V) as NV.
  assert (E : scaled_distance x' a' p q = scaled_distance x a p q).
  { unfold scaled_distance. rewrite NV, Ap, Aq. unfold Rdiv. rewrite <- Rmult_plus_distr_l, Rinv_mult. set (z := / (a p + a q)). clearbody z. field. lra. }
  intros l L. unfold repulsion. rewrite E. destruct (Rlt_dec 0 _); [|ring]. destruct (Rlt_dec _ (11 / 5)); [|ring].
  assert (DI : direction x' p q l = direction x p q l).
  { unfold direction, vscal. rewrite NV, (V l L), Rinv_mult. set (z := / norm _). clearbody z. field. lra. }
  rewrite DI. unfold repulsion_size. rewrite Ap, Aq. unfold Rdiv. rewrite <- Rmult_plus_distr_l, Rinv_mult.
  set (z := / (a p + a q)). clearbody z. field. lra.
Qed.
Lemma sum_scaled N (v v' : nat -> vec) : (forall k, (k < N)%nat -> vec_times lam (v k) (v' k)) ->
  vec_times lam (fun l => rsum N (fun k => v k l)) (fun l => rsum N (fun k => v' k l)).
Proof. intros H l L. rewrite <- rsum_scal_l. apply rsum_ext. intros k Hk. apply H; assumption. Qed.
Lemma total_scaled st tau x x' a a' N p : (forall b, (b < N)%nat -> point_moved lam org (x b) (x' b) /\ a' b = lam * a b) -> (p < N)%nat ->
  vec_times lam (total_repulsion st tau x a N p) (total_repulsion st tau x' a' N p).
Proof.
  intros H Hp. unfold total_repulsion. apply (sum_scaled N (fun q => repulsion st tau x a p q) (fun q => repulsion st tau x' a' p q)).
  intros q Hq. apply repulsion_scaled; apply H; assumption.
Qed.
Lemma repulsion_forces_scaled p p' Fa Fb DFb Fa1 Fb1 D1 Fa2 Fb2 D2 :
  config_scaled lam org Ns Nd p p' -> (forall k c, Fa k c = 0 /\ Fb k c = 0 /\ DFb k c = 0) ->
  repulsion_forces 50 20 Ns Nd (c_spos p) (c_dpos p) (c_ddx p) (c_ssizes p) (c_dsizes p) 0 Fa Fb DFb = Ok (Fa1, Fb1, D1) ->
  repulsion_forces 50 20 Ns Nd (c_spos p') (c_dpos p') (c_ddx p') (c_ssizes p') (c_dsizes p') 0 Fa Fb DFb = Ok (Fa2, Fb2, D2) ->
  (forall j, (j < Ns)%nat -> vec_times lam (Fa1 j) (Fa2 j)) /\ (forall d, (d < Nd)%nat -> vec_times lam (Fb1 d) (Fb2 d) /\ vec_times lam (D1 d) (D2 d)).
Proof.
  intros (C1 & C2 & C3 & _ & C4) Z E E'. apply repulsion_correct in E. apply repulsion_correct in E'.
  unfold repulsion_statement in E, E'. cbv zeta in E, E'.
  set (a := all_beads Ns Nd (c_ssizes p) (c_dsizes p) (c_dsizes p)) in *.
  set (a' := all_beads Ns Nd (c_ssizes p') (c_dsizes p') (c_dsizes p')) in *.
  match type of E with context [total_repulsion 50 20 ?xx a _ _ _] => set (x := xx) in E end.
  match type of E' with context [total_repulsion 50 20 ?xx a' _ _ _] => set (x' := xx) in E' end.
  assert (X : forall b, (b < Ns + 2 * Nd)%nat -> point_moved lam org (x b) (x' b) /\ a' b = lam * a b).
  { intros b Hb. unfold x, x', a, a', all_beads. rewrite C1, C2. destruct (Nat.ltb_spec b Ns); [split; [apply C3; assumption|reflexivity]|].
    destruct (Nat.ltb_spec b (Ns + Nd)).
    - destruct (C4 (b - Ns)%nat ltac:(lia)) as [A B]. split; [|reflexivity]. intros l L. rewrite (A l L), (B l L). field.
    - destruct (C4 (b - Ns - Nd)%nat ltac:(lia)) as [A B]. split; [|reflexivity]. intros l L. rewrite (A l L), (B l L). field. }
  pose proof (fun b Hb => total_scaled 50 20 x x' a a' (Ns + 2 * Nd) b X Hb) as T.
  clearbody x x' a a'. destruct E as [E1 E2]. destruct E' as [E1' E2']. split.
  - intros j Hj l L. rewrite E1, E1' by exact Hj. rewrite (proj1 (Z j l)). change (Nat.leb (2 * 0) j) with true. cbv iota. rewrite (T j ltac:(lia) l L). ring.
  - intros d Hd. pose proof (T (Ns + d)%nat ltac:(lia)) as TA. pose proof (T (Ns + Nd + d)%nat ltac:(lia)) as TB. split; intros l L.
    + destruct (E2 d l Hd) as [-> _]. destruct (E2' d l Hd) as [-> _]. rewrite (proj1 (proj2 (Z d l))), (TA l L), (TB l L). ring.
    + destruct (E2 d l Hd) as [_ ->]. destruct (E2' d l Hd) as [_ ->]. rewrite (proj2 (proj2 (Z d l))), (TA l L), (TB l L). ring.
Qed.
Lemma row_times k v v' : vec_times k v v' -> vec_times k (row_vec (row v)) (row_vec (row v')).
Proof. intros H l L. rewrite !row_of by exact L. apply H. exact L. Qed.
Lemma input4_scaled dt dt' : ups = 1 -> kap = 1 ->
  input_scaled lam ups kap org Ns Nd calm fm (fun p t => input_ftsuoe 4 fm Ns Nd p t dt) (fun p t => input_ftsuoe 4 fm Ns Nd p t dt').
Proof.
  intros HU HK p p' t i f i' f' HT E E'. unfold input_ftsuoe in E, E'. cbn [Z.ltb Z.compare] in E, E'.
  cbv zeta in E, E'. binv E. binv E. binv E. binv E. destruct a2 as [[Fa1 Fb1] D1].
  rewrite E0, E1, E2 in E'. cbn [bind] in E'. binv E'. destruct a2 as [[Fa2 Fb2] D2].
  assert (OK2 : forall a b : inputs * flow, Ok a = Ok b -> a = b) by (intros u v H; injection H; auto).
  apply OK2 in E. apply OK2 in E'. injection E as <- <-. injection E' as <- <-.
  split; [|split; [apply default_flow_scaled; exact HK|apply default_no_strain; reflexivity]].
  assert (GZ : forall l l0, given TypeError l = Ok l0 -> (forall x, In (Some x) l -> x = zeros3) -> forall k c, unrow l0 k c = 0).
  { intros l l0 G H. apply given_ok in G. subst l. intros k c. apply unrow_zero. intros x Hx. apply H. apply in_map. exact Hx. }
  pose proof (GZ _ _ E0 ltac:(intros x Hx; apply (default_rows Ns Nd fm); tauto)) as Z0.
  pose proof (GZ _ _ E1 ltac:(intros x Hx; apply (default_rows Ns Nd fm); tauto)) as Z1.
  pose proof (GZ _ _ E2 ltac:(intros x Hx; apply (default_rows Ns Nd fm); tauto)) as Z2.
  destruct (repulsion_forces_scaled p p' _ _ _ _ _ _ _ _ _ HT (fun k c => conj (Z0 k c) (conj (Z1 k c) (Z2 k c))) E3 E4) as [T1 T2].
  destruct default_scaled as (A1 & A2 & A3 & A4 & A5 & A6 & A7 & A8 & A9 & A10).
  assert (FU : force_unit lam ups kap = lam) by (unfold force_unit; rewrite HU, HK; ring).
  unfold inputs_scaled, with_Fa, with_Fb, with_DFb. cbn [i_Fa i_Ta i_Sa i_Fb i_DFb i_Ua i_Ea i_Ub i_HalfDUb]. rewrite FU.
  assert (F1 : rows_times lam (map (fun k => Some (row (Fa1 k))) (seq 0 Ns)) (map (fun k => Some (row (Fa2 k))) (seq 0 Ns))).
  { apply (lists_map _ Ns (fun k => row (Fa1 k)) (fun k => row (Fa2 k))). intros k Hk. apply row_times, T1, Hk. }
  assert (F2 : rows_times lam (map (fun k => Some (row (Fb1 k))) (seq 0 Nd)) (map (fun k => Some (row (Fb2 k))) (seq 0 Nd))).
  { apply (lists_map _ Nd (fun k => row (Fb1 k)) (fun k => row (Fb2 k))). intros k Hk. apply row_times, (T2 k Hk). }
  assert (F3 : rows_times lam (map (fun k => Some (row (D1 k))) (seq 0 Nd)) (map (fun k => Some (row (D2 k))) (seq 0 Nd))).
  { apply (lists_map _ Nd (fun k => row (D1 k)) (fun k => row (D2 k))). intros k Hk. apply row_times, (T2 k Hk). }
  tauto.
Qed.
(** 6: given velocities and forces: only the origin is free. *)
Lemma input6_scaled dt dt' : lam = 1 -> ups = 1 -> kap = 1 ->
  input_scaled lam ups kap org Ns Nd calm fm (fun p t => input_ftsuoe 6 fm Ns Nd p t dt) (fun p t => input_ftsuoe 6 fm Ns Nd p t dt').
Proof.
  intros HL HU HK p p' t i f i' f' _ E E'. unfold input_ftsuoe in E, E'. cbn [Z.ltb Z.compare] in E, E'. cbv zeta in E, E'.
  rewrite E in E'. assert (OK2 : forall a b : inputs * flow, Ok a = Ok b -> a = b) by (intros u v H; injection H; auto).
  apply OK2 in E'. injection E' as <- <-. apply OK2 in E. injection E as <- <-.
  split; [|split; [apply default_flow_scaled; exact HK|apply default_no_strain; reflexivity]].
  destruct default_scaled as (D1 & D2 & D3 & D4 & D5 & D6 & D7 & D8 & D9 & D10).
  unfold inputs_scaled, with_Ua, with_Fa. cbn [i_Fa i_Ta i_Sa i_Fb i_DFb i_Ua i_Ea i_Ub i_HalfDUb].
  assert (FU : force_unit lam ups kap = 1) by (unfold force_unit; rewrite HL, HU, HK; ring). rewrite FU in *. rewrite HU in *.
  split; [apply rows_one|]. split; [exact D2|]. split; [exact D3|]. split; [exact D4|]. split; [exact D5|]. split; [apply rows_one|]. tauto.
Qed.
End Inputs.
