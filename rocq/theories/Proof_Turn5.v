(** Symmetries of the shipped inputs. *)
From Coq Require Import Reals List Arith ZArith Bool Lia Lra FunctionalExtensionality.
From Verif Require Import Base Py Model_Pack Model_Mob Model_Minf Model_Step Model_Shear Model_Repulsion Model_Output Model_Frame Model_Inputs Model_Sim
  Spec_Pack Spec_Minf Spec_Rotate Spec_Close Spec_Repulsion Spec_Step Spec_Frame Spec_Posdef Spec_Run Spec_Turn
  Proof_Repulsion Proof_Output3 Proof_Frame Proof_Rotate1 Proof_Rotate2 Proof_Turn3.
Import ListNotations.
Local Open Scope R_scope.
Notation det3 := Spec_Rotate.det3.

Lemma lists_self {A} (rel : A -> A -> Prop) l : (forall x, In (Some x) l -> rel x x) -> lists_turned rel l l.
Proof.
  intros H. split; [reflexivity|]. intros j. destruct (nth_error l j) as [[x|]|] eqn:E; [|exact I|exact I].
  apply H. apply (nth_error_In l j). exact E.
Qed.
Lemma lists_map {A} (rel : A -> A -> Prop) N a a' : (forall k, (k < N)%nat -> rel (a k) (a' k)) ->
  lists_turned rel (map (fun k => Some (a k)) (seq 0 N)) (map (fun k => Some (a' k)) (seq 0 N)).
Proof.
  intros H. split; [rewrite !map_length; reflexivity|]. intros j. rewrite !nth_error_map.
  destruct (Nat.lt_ge_cases j N) as [L|L].
  - rewrite (nth_error_nth' (seq 0 N) 0%nat) by (rewrite seq_length; exact L). rewrite seq_nth by exact L. cbn [option_map]. apply H. exact L.
  - rewrite (proj2 (nth_error_None (seq 0 N) j)) by (rewrite seq_length; exact L). exact I.
Qed.
Lemma in_repeat_some {A} (x y : A) k : In (Some x) (repeat (Some y) k) -> x = y.
Proof. intros H. apply repeat_spec in H. injection H as H. exact H. Qed.
Lemma in_repeat_none {A} (x : A) k : In (Some x) (repeat None k) -> False.
Proof. intros H. apply repeat_spec in H. discriminate. Qed.
Lemma in_set_slice {A} (x : A) l lo hi m : In x (set_slice l lo hi m) -> In x l \/ In x m.
Proof.
  unfold set_slice. intros H. apply in_app_or in H. destruct H as [H|H].
  - left. rewrite <- (firstn_skipn lo l). apply in_or_app. left. exact H.
  - apply in_app_or in H. destruct H as [H|H]; [right; exact H|].
    left. rewrite <- (firstn_skipn (Nat.max lo hi) l). apply in_or_app. right. exact H.
Qed.

Section Inputs.
Variable Q : mat.
Hypothesis HQ : orthogonal Q.
Variables Ns Nd : nat.

Lemma zeros_turned l : (l < 3)%nat -> rot Q (row_vec zeros3) l = 0.
Proof. intros Hl. unfold rot, mvec. apply rsum_zero. intros k Hk. unfold row_vec, zeros3. idx3 Hk; cbn [nth]; ring. Qed.
Lemma zeros_row l : row_vec zeros3 l = 0.
Proof. unfold row_vec, zeros3. destruct l as [|[|[|[|l]]]]; reflexivity. Qed.
Lemma zeros_vec : vec_turned Q (row_vec zeros3) (row_vec zeros3).
Proof. intros l Hl. rewrite zeros_turned by exact Hl. apply zeros_row. Qed.
Lemma zeros_pseudo : pseudo_turned Q (row_vec zeros3) (row_vec zeros3).
Proof. intros l Hl. rewrite zeros_turned by exact Hl. rewrite zeros_row. ring. Qed.
Lemma zeros_mat : mat_turned Q (tensor_mat zeros33) (tensor_mat zeros33).
Proof.
  intros k l Hk Hl.
  assert (Z : forall a b, (a < 3)%nat -> (b < 3)%nat -> tensor_mat zeros33 a b = 0)
    by (intros a b Ha Hb; unfold tensor_mat, zeros33, zeros3; idx3 Ha; idx3 Hb; reflexivity).
  rewrite Z by assumption. symmetry. unfold rot2. apply rsum_zero. intros a Ha. apply rsum_zero. intros b Hb. rewrite Z by assumption. ring.
Qed.
Lemma zeros_st : sym_traceless zeros33.
Proof.
  split; [|split].
  - split; [reflexivity|]. intros r Hr. cbn in Hr. repeat (destruct Hr as [<-|Hr]; [reflexivity|]). destruct Hr.
  - intros i j Hi Hj. unfold Spec_Pack.ent, zeros33, zeros3. idx3 Hi; idx3 Hj; reflexivity.
  - unfold Spec_Pack.ent, zeros33, zeros3. cbn [nth]. lra.
Qed.

(** The default inputs turn into themselves. *)
Lemma default_rows fm x : In (Some x) (i_Fa (default_inputs fm Ns Nd)) \/ In (Some x) (i_Ta (default_inputs fm Ns Nd)) \/
  In (Some x) (i_Fb (default_inputs fm Ns Nd)) \/ In (Some x) (i_DFb (default_inputs fm Ns Nd)) \/
  In (Some x) (i_Ua (default_inputs fm Ns Nd)) \/ In (Some x) (i_Ub (default_inputs fm Ns Nd)) \/ In (Some x) (i_HalfDUb (default_inputs fm Ns Nd)) -> x = zeros3.
Proof.
  intros H. destruct fm; cbn in H;
    repeat (destruct H as [H|H]); try (apply in_repeat_some in H; exact H); try (apply in_repeat_none in H; contradiction).
Qed.
Lemma default_tensors fm x : In (Some x) (i_Sa (default_inputs fm Ns Nd)) \/ In (Some x) (i_Ea (default_inputs fm Ns Nd)) -> x = zeros33.
Proof.
  intros H. destruct fm; cbn in H;
    repeat (destruct H as [H|H]); try (apply in_repeat_some in H; exact H); try (apply in_repeat_none in H; contradiction).
Qed.
Lemma flow_default : flow_turned Q default_flow default_flow.
Proof.
  assert (Z : forall l, (l < 3)%nat -> rot Q (v3 0 0 0) l = 0).
  { intros l Hl. unfold rot, mvec. apply rsum_zero. intros k Hk. unfold v3. idx3 Hk; ring. }
  assert (V : vec_turned Q (v3 0 0 0) (v3 0 0 0)) by (intros l Hl; rewrite Z by exact Hl; idx3 Hl; reflexivity).
  assert (P : pseudo_turned Q (v3 0 0 0) (v3 0 0 0)) by (intros l Hl; rewrite Z by exact Hl; rewrite Rmult_0_r; idx3 Hl; reflexivity).
  repeat split; try exact V; try exact P.
Qed.

Lemma row_of v l : (l < 3)%nat -> row_vec (row v) l = v l.
Proof. intros Hl. unfold row_vec, row. idx3 Hl; reflexivity. Qed.
Lemma row_turned v v' : vec_turned Q v v' -> vec_turned Q (row_vec (row v)) (row_vec (row v')).
Proof. intros H. apply (vt_ext Q _ v _ v'); [intros; apply row_of; assumption|intros; apply row_of; assumption|exact H]. Qed.
Lemma norm_vec v v' : vec_turned Q v v' -> norm v' = norm v.
Proof. intros H. unfold norm. rewrite !H by lia. rewrite (rot_norm2 Q HQ). reflexivity. Qed.
Lemma spring_turned v v' : vec_turned Q v v' -> vec_turned Q (row_vec (spring_force v)) (row_vec (spring_force v')).
Proof.
  intros H. apply row_turned. rewrite (norm_vec v v' H). set (c := norm v). clearbody c.
  apply (vt_ext Q _ (fun l => (- (1) * (1 - 2 / c)) * v l) _ (fun l => (- (1) * (1 - 2 / c)) * v' l)); try (intros; unfold Rdiv; ring).
  apply vt_scal. exact H.
Qed.

(** Repulsion turns with the configuration. *)
Lemma repulsion_turned st tau x x' a p q : vec_turned Q (x p) (x' p) -> vec_turned Q (x q) (x' q) ->
  vec_turned Q (repulsion st tau x a p q) (repulsion st tau x' a p q).
Proof.
  intros A B. pose proof (vt_sub Q _ _ _ _ B A) as D.
  assert (E : scaled_distance x' a p q = scaled_distance x a p q) by (unfold scaled_distance; rewrite (norm_vec _ _ D); reflexivity).
  assert (DI : vec_turned Q (direction x p q) (direction x' p q)).
  { unfold direction. rewrite (norm_vec _ _ D). apply (vt_scal Q). exact D. }
  assert (Z : vec_turned Q (fun _ => 0) (fun _ => 0)).
  { intros l Hl. unfold rot, mvec. symmetry. apply rsum_zero. intros; ring. }
  unfold repulsion. rewrite E. destruct (Rlt_dec 0 _); [|exact Z]. destruct (Rlt_dec _ (11 / 5)); [|exact Z].
  set (c := repulsion_size st tau (a p) (a q) (scaled_distance x a p q - 2)). clearbody c.
  apply (vt_ext Q _ (fun l => (- c) * direction x p q l) _ (fun l => (- c) * direction x' p q l)); try (intros; ring).
  apply vt_scal. exact DI.
Qed.
Lemma sum_turned N (v v' : nat -> vec) : (forall k, (k < N)%nat -> vec_turned Q (v k) (v' k)) ->
  vec_turned Q (fun l => rsum N (fun k => v k l)) (fun l => rsum N (fun k => v' k l)).
Proof.
  induction N as [|N IH]; intros H.
  - intros l Hl. cbn [rsum]. unfold rot, mvec. symmetry. apply rsum_zero. intros; ring.
  - cbn [rsum]. apply vt_add; [apply IH; intros; apply H; lia|apply H; lia].
Qed.
Lemma total_turned st tau x x' a N p : (forall b, (b < N)%nat -> vec_turned Q (x b) (x' b)) -> (p < N)%nat ->
  vec_turned Q (total_repulsion st tau x a N p) (total_repulsion st tau x' a N p).
Proof. intros H Hp. unfold total_repulsion. apply (sum_turned N (fun q => repulsion st tau x a p q)). intros q Hq. apply repulsion_turned; apply H; assumption. Qed.

Lemma unrow_zero l k : (forall x, In x l -> x = zeros3) -> forall c, unrow l k c = 0.
Proof.
  intros H c. unfold unrow. destruct (Nat.lt_ge_cases k (length l)) as [L|L].
  - rewrite (H (nth k l [])) by (apply nth_In; exact L). apply (zeros_row c).
  - rewrite (nth_overflow l) by exact L. destruct c; reflexivity.
Qed.

Lemma repulsion_forces_turned p p' Fa Fb DFb Fa1 Fb1 D1 Fa2 Fb2 D2 :
  config_turned Q Ns Nd p p' -> (forall k c, Fa k c = 0 /\ Fb k c = 0 /\ DFb k c = 0) ->
  repulsion_forces 50 20 Ns Nd (c_spos p) (c_dpos p) (c_ddx p) (c_ssizes p) (c_dsizes p) 0 Fa Fb DFb = Ok (Fa1, Fb1, D1) ->
  repulsion_forces 50 20 Ns Nd (c_spos p') (c_dpos p') (c_ddx p') (c_ssizes p') (c_dsizes p') 0 Fa Fb DFb = Ok (Fa2, Fb2, D2) ->
  (forall j, (j < Ns)%nat -> vec_turned Q (Fa1 j) (Fa2 j)) /\ (forall d, (d < Nd)%nat -> vec_turned Q (Fb1 d) (Fb2 d) /\ vec_turned Q (D1 d) (D2 d)).
Proof.
  intros (C1 & C2 & C3 & _ & C4) Z E E'. apply repulsion_correct in E. apply repulsion_correct in E'. rewrite C1, C2 in E'.
  unfold repulsion_statement in E, E'. cbv zeta in E, E'.
  set (a := all_beads Ns Nd (c_ssizes p) (c_dsizes p) (c_dsizes p)) in *.
  match type of E with context [total_repulsion 50 20 ?xx a _ _ _] => set (x := xx) in E end.
  match type of E' with context [total_repulsion 50 20 ?xx a _ _ _] => set (x' := xx) in E' end.
  assert (X : forall b, (b < Ns + 2 * Nd)%nat -> vec_turned Q (x b) (x' b)).
  { intros b Hb. unfold x, x', all_beads. destruct (Nat.ltb_spec b Ns); [apply C3; assumption|].
    destruct (Nat.ltb_spec b (Ns + Nd)).
    - destruct (C4 (b - Ns)%nat ltac:(lia)) as [A B].
      set (u := c_dpos p (b - Ns)) in *; set (w := c_ddx p (b - Ns)) in *; set (u' := c_dpos p' (b - Ns)) in *; set (w' := c_ddx p' (b - Ns)) in *.
      apply (vt_ext Q _ (fun l => u l + - / 2 * w l) _ (fun l => u' l + - / 2 * w' l)); try (intros; field). apply vt_add; [exact A|apply vt_scal; exact B].
    - destruct (C4 (b - Ns - Nd)%nat ltac:(lia)) as [A B].
      set (u := c_dpos p (b - Ns - Nd)) in *; set (w := c_ddx p (b - Ns - Nd)) in *; set (u' := c_dpos p' (b - Ns - Nd)) in *; set (w' := c_ddx p' (b - Ns - Nd)) in *.
      apply (vt_ext Q _ (fun l => u l + / 2 * w l) _ (fun l => u' l + / 2 * w' l)); try (intros; field). apply vt_add; [exact A|apply vt_scal; exact B]. }
  pose proof (fun b Hb => total_turned 50 20 x x' a (Ns + 2 * Nd) b X Hb) as T.
  clearbody x x' a. destruct E as [E1 E2]. destruct E' as [E1' E2']. split.
  - intros j Hj. apply (vt_ext Q _ (total_repulsion 50 20 x a (Ns + 2 * Nd) j) _ (total_repulsion 50 20 x' a (Ns + 2 * Nd) j)).
    + intros l _. rewrite E1 by exact Hj. rewrite (proj1 (Z j l)). change (Nat.leb (2 * 0) j) with true. cbv iota. apply Rplus_0_l.
    + intros l _. rewrite E1' by exact Hj. rewrite (proj1 (Z j l)). change (Nat.leb (2 * 0) j) with true. cbv iota. apply Rplus_0_l.
    + apply T. lia.
  - intros d Hd. pose proof (T (Ns + d)%nat ltac:(lia)) as TA. pose proof (T (Ns + Nd + d)%nat ltac:(lia)) as TB.
    set (ta := total_repulsion 50 20 x a (Ns + 2 * Nd) (Ns + d)) in *. set (tb := total_repulsion 50 20 x a (Ns + 2 * Nd) (Ns + Nd + d)) in *.
    set (ta' := total_repulsion 50 20 x' a (Ns + 2 * Nd) (Ns + d)) in *. set (tb' := total_repulsion 50 20 x' a (Ns + 2 * Nd) (Ns + Nd + d)) in *. split.
    + apply (vt_ext Q _ (fun l => ta l + tb l) _ (fun l => ta' l + tb' l)); [| |apply vt_add; assumption].
      * intros l _. destruct (E2 d l Hd) as [-> _]. rewrite (proj1 (proj2 (Z d l))). apply Rplus_0_l.
      * intros l _. destruct (E2' d l Hd) as [-> _]. rewrite (proj1 (proj2 (Z d l))). apply Rplus_0_l.
    + apply (vt_ext Q _ (vsub tb ta) _ (vsub tb' ta')); [| |apply vt_sub; assumption].
      * intros l _. destruct (E2 d l Hd) as [_ ->]. rewrite (proj2 (proj2 (Z d l))). apply Rplus_0_l.
      * intros l _. destruct (E2' d l Hd) as [_ ->]. rewrite (proj2 (proj2 (Z d l))). apply Rplus_0_l.
Qed.

(** Inputs differing from the default ones in some rows. *)
Definition okrow (r : list R) : Prop := vec_turned Q (row_vec r) (row_vec r).
Lemma default_turned fm : inputs_turned Q (default_inputs fm Ns Nd) (default_inputs fm Ns Nd).
Proof.
  assert (RW : forall l, (forall x, In (Some x) l -> x = zeros3) -> rows_turned Q l l).
  { intros l H. apply lists_self. intros x Hx. rewrite (H x Hx). apply zeros_vec. }
  assert (TS : forall l, (forall x, In (Some x) l -> x = zeros33) -> tensors_turned Q l l /\ given_st l).
  { intros l H. split.
    - apply lists_self. intros x Hx. rewrite (H x Hx). apply zeros_mat.
    - intros x Hx. rewrite (H x Hx). apply zeros_st. }
  destruct (TS (i_Sa (default_inputs fm Ns Nd)) ltac:(intros x Hx; apply (default_tensors fm); tauto)) as [S1 S2].
  destruct (TS (i_Ea (default_inputs fm Ns Nd)) ltac:(intros x Hx; apply (default_tensors fm); tauto)) as [E1 E2].
  assert (T : pseudo_rows_turned Q (i_Ta (default_inputs fm Ns Nd)) (i_Ta (default_inputs fm Ns Nd))).
  { apply lists_self. intros x Hx. rewrite (default_rows fm x) by tauto. apply zeros_pseudo. }
  assert (RF := RW (i_Fa (default_inputs fm Ns Nd)) ltac:(intros x Hx; apply (default_rows fm); tauto)).
  assert (RB := RW (i_Fb (default_inputs fm Ns Nd)) ltac:(intros x Hx; apply (default_rows fm); tauto)).
  assert (RD := RW (i_DFb (default_inputs fm Ns Nd)) ltac:(intros x Hx; apply (default_rows fm); tauto)).
  assert (RU := RW (i_Ua (default_inputs fm Ns Nd)) ltac:(intros x Hx; apply (default_rows fm); tauto)).
  assert (RV := RW (i_Ub (default_inputs fm Ns Nd)) ltac:(intros x Hx; apply (default_rows fm); tauto)).
  assert (RH := RW (i_HalfDUb (default_inputs fm Ns Nd)) ltac:(intros x Hx; apply (default_rows fm); tauto)).
  unfold inputs_turned. tauto.
Qed.

(** 1: gravity. *)
Lemma input1_turned fm dt : keeps_z Q -> input_turned Q Ns Nd (fun p t => input_ftsuoe 1 fm Ns Nd p t dt) (fun p t => input_ftsuoe 1 fm Ns Nd p t dt).
Proof.
  intros (Z0 & Z1 & Z2) p p' t i f i' f' _ E E'. cbn in E, E'. injection E as <- <-. injection E' as <- <-. split; [|apply flow_default].
  destruct (default_turned fm) as (D1 & D2 & D3 & D4 & D5 & D6 & D7 & D8 & D9 & D10).
  unfold inputs_turned, with_Fa. cbn [i_Fa i_Ta i_Sa i_Fb i_DFb i_Ua i_Ea i_Ub i_HalfDUb].
  split; [|tauto]. apply lists_self. intros x Hx. apply in_repeat_some in Hx. subst x.
  intros l Hl. unfold rot, mvec, row_vec, rsum. idx3 Hl; cbn [nth]; rewrite ?Z0, ?Z1, ?Z2; ring.
Qed.
(** 4: repulsion. *)
Lemma input4_turned fm dt : input_turned Q Ns Nd (fun p t => input_ftsuoe 4 fm Ns Nd p t dt) (fun p t => input_ftsuoe 4 fm Ns Nd p t dt).
Proof.
  intros p p' t i f i' f' HT E E'. unfold input_ftsuoe in E, E'. cbn [Z.ltb Z.compare] in E, E'.
  cbv zeta in E, E'. binv E. binv E. binv E. binv E. destruct a2 as [[Fa1 Fb1] D1].
  rewrite E0, E1, E2 in E'. cbn [bind] in E'. binv E'. destruct a2 as [[Fa2 Fb2] D2].
  assert (OK2 : forall a b : inputs * flow, Ok a = Ok b -> a = b) by (intros u v H; injection H; auto).
  apply OK2 in E. apply OK2 in E'. injection E as <- <-. injection E' as <- <-. split; [|apply flow_default].
  assert (GZ : forall l l0, given TypeError l = Ok l0 -> (forall x, In (Some x) l -> x = zeros3) -> forall k c, unrow l0 k c = 0).
  { intros l l0 G H. apply given_ok in G. subst l. intros k c. apply unrow_zero. intros x Hx. apply H. apply in_map. exact Hx. }
  pose proof (GZ _ _ E0 ltac:(intros x Hx; apply (default_rows fm); tauto)) as Z0.
  pose proof (GZ _ _ E1 ltac:(intros x Hx; apply (default_rows fm); tauto)) as Z1.
  pose proof (GZ _ _ E2 ltac:(intros x Hx; apply (default_rows fm); tauto)) as Z2.
  destruct (repulsion_forces_turned p p' _ _ _ _ _ _ _ _ _ HT (fun k c => conj (Z0 k c) (conj (Z1 k c) (Z2 k c))) E3 E4) as [T1 T2].
  destruct (default_turned fm) as (A1 & A2 & A3 & A4 & A5 & A6 & A7 & A8 & A9 & A10).
  unfold inputs_turned, with_Fa, with_Fb, with_DFb. cbn [i_Fa i_Ta i_Sa i_Fb i_DFb i_Ua i_Ea i_Ub i_HalfDUb].
  assert (F1 : rows_turned Q (map (fun k => Some (row (Fa1 k))) (seq 0 Ns)) (map (fun k => Some (row (Fa2 k))) (seq 0 Ns))).
  { apply (lists_map _ Ns (fun k => row (Fa1 k)) (fun k => row (Fa2 k))). intros k Hk. apply row_turned, T1, Hk. }
  assert (F2 : rows_turned Q (map (fun k => Some (row (Fb1 k))) (seq 0 Nd)) (map (fun k => Some (row (Fb2 k))) (seq 0 Nd))).
  { apply (lists_map _ Nd (fun k => row (Fb1 k)) (fun k => row (Fb2 k))). intros k Hk. apply row_turned, (T2 k Hk). }
  assert (F3 : rows_turned Q (map (fun k => Some (row (D1 k))) (seq 0 Nd)) (map (fun k => Some (row (D2 k))) (seq 0 Nd))).
  { apply (lists_map _ Nd (fun k => row (D1 k)) (fun k => row (D2 k))). intros k Hk. apply row_turned, (T2 k Hk). }
  tauto.
Qed.
End Inputs.

(** ** The plane y = 0 *)
Lemma my_rot v l : (l < 3)%nat -> rot mirror_y v l = (if Nat.eqb l 1 then - v l else v l).
Proof. intros Hl. unfold rot, mvec, rsum, mirror_y. idx3 Hl; cbn [Nat.eqb]; ring. Qed.
Lemma my_orthogonal : orthogonal mirror_y.
Proof. intros i j Hi Hj. split; unfold mmul, mtr, mirror_y, delta, rsum; idx3 Hi; idx3 Hj; cbn [Nat.eqb]; ring. Qed.
Lemma my_det : det3 mirror_y = -1.
Proof. unfold det3, mirror_y. ring. Qed.
Lemma my_vec v v' : vec_turned mirror_y v v' <-> v' 0%nat = v 0%nat /\ v' 1%nat = - v 1%nat /\ v' 2%nat = v 2%nat.
Proof.
  split.
  - intros H. repeat split; rewrite H by lia; rewrite my_rot by lia; reflexivity.
  - intros (A & B & C) l Hl. rewrite my_rot by exact Hl. idx3 Hl; assumption.
Qed.
Lemma my_pseudo v v' : pseudo_turned mirror_y v v' <-> v' 0%nat = - v 0%nat /\ v' 1%nat = v 1%nat /\ v' 2%nat = - v 2%nat.
Proof.
  split.
  - intros H. repeat split; rewrite H by lia; rewrite my_det, my_rot by lia; cbn [Nat.eqb]; ring.
  - intros (A & B & C) l Hl. rewrite my_det, my_rot by exact Hl. idx3 Hl; cbn [Nat.eqb]; rewrite ?A, ?B, ?C; ring.
Qed.
Lemma my_mat A A' : mat_turned mirror_y A A' -> forall k l, (k < 3)%nat -> (l < 3)%nat ->
  A' k l = (if Nat.eqb k 1 then -1 else 1) * (if Nat.eqb l 1 then -1 else 1) * A k l.
Proof. intros H k l Hk Hl. rewrite (H k l Hk Hl). unfold rot2, rsum, mirror_y. idx3 Hk; idx3 Hl; cbn [Nat.eqb]; ring. Qed.
Lemma flat_row a c : okrow mirror_y [a; 0; c].
Proof. apply my_vec. unfold row_vec. cbn [nth]. repeat split; ring. Qed.

Section Flat.
Variables Ns Nd : nat.
Lemma config_flat p : flat_config Ns Nd p <-> config_turned mirror_y Ns Nd p p.
Proof.
  split.
  - intros [A B]. split; [reflexivity|]. split; [reflexivity|]. split; [|split].
    + intros j Hj. apply my_vec. destruct (A j Hj) as [E _]. rewrite E. repeat split; ring.
    + intros j k Hj Hk. apply my_vec. destruct (A j Hj) as [_ E]. rewrite (E k Hk). repeat split; ring.
    + intros d Hd. destruct (B d Hd) as [E F]. split; apply my_vec; [rewrite E|rewrite F]; repeat split; ring.
  - intros (_ & _ & A & B & C). split.
    + intros j Hj. split.
      * pose proof (A j Hj) as K. apply my_vec in K. lra.
      * intros k Hk. pose proof (B j k Hj Hk) as K. apply my_vec in K. lra.
    + intros d Hd. destruct (C d Hd) as [K L]. apply my_vec in K. apply my_vec in L. split; lra.
Qed.
Lemma snapshot_flat s : snapshot_turned mirror_y Ns Nd s s -> flat_snapshot Ns Nd s.
Proof.
  intros (A & B & C). split; [|split].
  - intros j Hj. pose proof (A j Hj) as K. apply my_vec in K. lra.
  - intros j k Hj Hk. pose proof (B j k Hj Hk) as K. apply my_vec in K. lra.
  - intros d Hd. pose proof (C d Hd) as K. apply my_vec in K. lra.
Qed.
Lemma forces_flat f : forces_turned mirror_y Ns Nd f f -> flat_forces Ns Nd f.
Proof.
  intros [A B]. split.
  - intros j Hj. destruct (A j Hj) as [K M]. apply my_vec in K. split; [lra|].
    pose proof (my_mat _ _ M 0%nat 1%nat ltac:(lia) ltac:(lia)) as M1. pose proof (my_mat _ _ M 1%nat 0%nat ltac:(lia) ltac:(lia)) as M2.
    pose proof (my_mat _ _ M 1%nat 2%nat ltac:(lia) ltac:(lia)) as M3. pose proof (my_mat _ _ M 2%nat 1%nat ltac:(lia) ltac:(lia)) as M4.
    cbn [Nat.eqb] in M1, M2, M3, M4. repeat split; lra.
  - intros d Hd. destruct (B d Hd) as [K L]. apply my_vec in K. apply my_vec in L. split; lra.
Qed.

Lemma rows_my l : (forall x, In (Some x) l -> exists a c, x = [a; 0; c]) -> rows_turned mirror_y l l.
Proof. intros H. apply lists_self. intros x Hx. destruct (H x Hx) as (a & c & ->). apply flat_row. Qed.
Lemma literal_st c : sym_traceless (row2 (literal_xz c)).
Proof.
  split; [|split].
  - split; [reflexivity|]. intros r Hr. cbn in Hr. repeat (destruct Hr as [<-|Hr]; [reflexivity|]). destruct Hr.
  - intros i j Hi Hj. unfold Spec_Pack.ent, row2, row, literal_xz. idx3 Hi; idx3 Hj; reflexivity.
  - unfold Spec_Pack.ent, row2, row, literal_xz. cbn [nth]. lra.
Qed.
Lemma literal_my c : mat_turned mirror_y (tensor_mat (row2 (literal_xz c))) (tensor_mat (row2 (literal_xz c))).
Proof.
  intros k l Hk Hl. unfold rot2, rsum, mirror_y, tensor_mat, row2, row, literal_xz. idx3 Hk; idx3 Hl; cbn [nth]; ring.
Qed.
Lemma shear_turned fm i i' k c w x z :
  inputs_turned mirror_y i i' ->
  forall h, h_Ea h = repeat (literal_xz c) k -> h_U h = v3 0 0 0 -> h_O h = v3 0 w 0 -> h_centre h = v3 x 0 z ->
  inputs_turned mirror_y (fst (with_shear i h)) (fst (with_shear i' h)) /\ flow_turned mirror_y (snd (with_shear i h)) (snd (with_shear i h)) /\ fm = fm :> form.
Proof.
  intros (A1 & A2 & A3 & A4 & A5 & A6 & A7 & A8 & A9 & A10 & A11 & A12 & A13) h E U O C. split; [|split; [|reflexivity]].
  - unfold with_shear, with_Ea, inputs_turned. cbn [fst i_Fa i_Ta i_Sa i_Fb i_DFb i_Ua i_Ea i_Ub i_HalfDUb]. rewrite E.
    assert (R : map (fun m => Some (row2 m)) (repeat (literal_xz c) k) = repeat (Some (row2 (literal_xz c))) k).
    { clear. induction k as [|k IH]; cbn [repeat map]; [reflexivity|rewrite IH; reflexivity]. }
    rewrite R.
    assert (T : tensors_turned mirror_y (repeat (Some (row2 (literal_xz c))) k) (repeat (Some (row2 (literal_xz c))) k)).
    { apply lists_self. intros t Ht. apply in_repeat_some in Ht. subst t. apply literal_my. }
    assert (G : given_st (repeat (Some (row2 (literal_xz c))) k)).
    { intros t Ht. apply in_repeat_some in Ht. subst t. apply literal_st. }
    tauto.
  - unfold with_shear, flow_turned, unbounded. cbn [snd f_U f_O f_centre f_mu f_bl f_tr]. rewrite U, O, C.
    split; [apply my_vec; unfold v3; repeat split; ring|]. split; [apply my_pseudo; unfold v3; repeat split; ring|].
    split; [apply my_vec; unfold v3; repeat split; ring|]. auto.
Qed.

(** Inputs 1, 3, 4, 5, 6, 7 are symmetric about the plane y = 0. *)
Lemma shipped_flat n fm dt : In n [1; 3; 4; 5; 6; 7]%Z ->
  input_turned mirror_y Ns Nd (fun p t => input_ftsuoe n fm Ns Nd p t dt) (fun p t => input_ftsuoe n fm Ns Nd p t dt).
Proof.
  intros Hn. cbn in Hn.
  pose proof (default_turned mirror_y Ns Nd fm) as D.
  pose proof D as (D1 & D2 & D3 & D4 & D5 & D6 & D7 & D8 & D9 & D10).
  assert (OK2 : forall a b : inputs * flow, Ok a = Ok b -> a = b) by (intros u v H; injection H; auto).
  assert (OPP : forall x k, In (Some x) (opposed k) -> exists a c, x = [a; 0; c]).
  { intros x k Hx. unfold opposed in Hx. apply in_app_or in Hx. destruct Hx as [Hx|Hx]; apply in_repeat_some in Hx; subst x; eexists; eexists; reflexivity. }
  destruct Hn as [<-|[<-|[<-|[<-|[<-|[<-|[]]]]]]].
  - apply input1_turned. unfold keeps_z, mirror_y. auto.
  - intros p p' t i f i' f' HT E E'. unfold input_ftsuoe in E, E'. cbn [Z.ltb Z.compare] in E, E'. cbv zeta in E, E'.
    unfold oscillatory_shear in E, E'. cbv zeta in E, E'. destruct (Reqb 10 0); [discriminate|]. cbn [bind] in E, E'.
    apply OK2 in E. apply OK2 in E'.
    match type of E with with_shear ?i0 ?h0 = _ => set (ii := i0) in E; set (h := h0) in E, E' end.
    match type of E' with with_shear ?i0 ?h0 = _ => set (ii' := i0) in E' end.
    assert (I2 : inputs_turned mirror_y ii ii').
    { assert (F : rows_turned mirror_y (map (fun k => Some (spring_force (c_ddx p k))) (seq 0 Nd)) (map (fun k => Some (spring_force (c_ddx p' k))) (seq 0 Nd))).
      { apply (lists_map _ Nd (fun k => spring_force (c_ddx p k)) (fun k => spring_force (c_ddx p' k))). intros k Hk.
        apply spring_turned; [exact my_orthogonal|]. destruct HT as (_ & _ & _ & _ & HT). apply (HT k Hk). }
      unfold ii, ii', with_DFb, inputs_turned. cbn [i_Fa i_Ta i_Sa i_Fb i_DFb i_Ua i_Ea i_Ub i_HalfDUb]. tauto. }
    destruct (shear_turned fm ii ii' _ _ _ _ _ I2 h eq_refl eq_refl eq_refl eq_refl) as (S1 & S2 & _).
    rewrite E, E' in S1. cbn [fst] in S1. split; [exact S1|].
    replace f' with (snd (with_shear ii h)) by (apply (f_equal snd) in E'; exact E').
    apply (f_equal snd) in E. cbn [snd] in E. rewrite <- E. exact S2.
  - apply input4_turned. exact my_orthogonal.
  - intros p p' t i f i' f' HT E E'. cbn in E, E'. injection E as <- <-. injection E' as <- <-. split; [|apply flow_default].
    unfold with_Ua, inputs_turned. cbn [i_Fa i_Ta i_Sa i_Fb i_DFb i_Ua i_Ea i_Ub i_HalfDUb].
    assert (F : rows_turned mirror_y (opposed Ns) (opposed Ns)) by (apply rows_my; intros x; apply OPP).
    tauto.
  - intros p p' t i f i' f' HT E E'. unfold input_ftsuoe in E, E'. cbn [Z.ltb Z.compare] in E, E'. cbv zeta in E, E'.
    apply OK2 in E. apply OK2 in E'. injection E as <- <-. injection E' as <- <-. split; [|apply flow_default].
    unfold with_Fa, with_Ua, inputs_turned. cbn [i_Fa i_Ta i_Sa i_Fb i_DFb i_Ua i_Ea i_Ub i_HalfDUb].
    assert (F : rows_turned mirror_y (set_slice (i_Ua (default_inputs fm Ns Nd)) 0 90 (opposed 90)) (set_slice (i_Ua (default_inputs fm Ns Nd)) 0 90 (opposed 90))).
    { apply rows_my. intros x Hx. apply in_set_slice in Hx. destruct Hx as [Hx|Hx]; [|exact (OPP x 90%nat Hx)].
      rewrite (default_rows Ns Nd fm x) by tauto. exists 0, 0. reflexivity. }
    assert (G : rows_turned mirror_y (set_slice (i_Fa (default_inputs fm Ns Nd)) 90 (length (i_Fa (default_inputs fm Ns Nd))) (repeat (Some [10; 0; 0]) 9))
                  (set_slice (i_Fa (default_inputs fm Ns Nd)) 90 (length (i_Fa (default_inputs fm Ns Nd))) (repeat (Some [10; 0; 0]) 9))).
    { apply rows_my. intros x Hx. apply in_set_slice in Hx. destruct Hx as [Hx|Hx].
      - rewrite (default_rows Ns Nd fm x) by tauto. exists 0, 0. reflexivity.
      - apply in_repeat_some in Hx. subst x. eexists; eexists; reflexivity. }
    tauto.
  - intros p p' t i f i' f' HT E E'. unfold input_ftsuoe in E, E'. cbn [Z.ltb Z.compare] in E, E'. cbv zeta in E, E'.
    apply OK2 in E. apply OK2 in E'. rewrite E in E'. apply (f_equal fst) in E' as E1. apply (f_equal snd) in E' as E2. cbn [fst snd] in E1, E2. subst i' f'.
    destruct (shear_turned fm _ _ _ _ _ 0 0 D (constant_shear 1 t dt (v3 0 0 0) Ns) eq_refl eq_refl eq_refl eq_refl) as (S1 & S2 & _).
    rewrite E in S1, S2. cbn [fst snd] in S1, S2. split; assumption.
Qed.
End Flat.
