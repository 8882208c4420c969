(** Shipped inputs for renumbered particles. *)
From Coq Require Import Reals List Arith ZArith Bool Lia Lra FunctionalExtensionality.
From Verif Require Import Base Py Model_Pack Model_Mob Model_Minf Model_Step Model_Shear Model_Repulsion Model_Output Model_Frame Model_Inputs Model_Sim
  Spec_Pack Spec_Minf Spec_Rotate Spec_Close Spec_Repulsion Spec_Step Spec_Frame Spec_Posdef Spec_Run Spec_Turn Spec_Renumber
  Proof_Repulsion Proof_Output3 Proof_Frame Proof_Rotate1 Proof_Rotate2 Proof_R2B4 Proof_Turn1 Proof_Turn3 Proof_Turn5 Proof_Renumber1.
Import ListNotations.
Local Open Scope R_scope.

Lemma nth_error_repeat {A} (x : A) k j : (j < k)%nat -> nth_error (repeat x k) j = Some x.
Proof. revert j. induction k as [|k IH]; intros j Hj; [lia|]. destruct j as [|j]; [reflexivity|]. cbn. apply IH. lia. Qed.
Lemma nth_error_map_seq {A} (f : nat -> A) k j : (j < k)%nat -> nth_error (map f (seq 0 k)) j = Some (f j).
Proof. intros Hj. rewrite nth_error_map, (nth_error_nth' (seq 0 k) 0%nat) by (rewrite seq_length; exact Hj). rewrite seq_nth by exact Hj. reflexivity. Qed.

Section Exact.
Variables s t : nat -> nat.
Variables Ns Nd : nat.
Hypothesis Hs : permutes Ns s.
Hypothesis Ht : permutes Nd t.
Notation br := (bead_relabel s t Ns Nd).

Definition perm_list {A} (N : nat) (r : nat -> nat) (l l' : list A) : Prop := forall j, (j < N)%nat -> nth_error l' j = nth_error l (r j).
Definition exactly (i i' : inputs) : Prop :=
  perm_list Ns s (i_Fa i) (i_Fa i') /\ perm_list Ns s (i_Ta i) (i_Ta i') /\ perm_list Ns s (i_Sa i) (i_Sa i') /\
  perm_list Nd t (i_Fb i) (i_Fb i') /\ perm_list Nd t (i_DFb i) (i_DFb i') /\
  perm_list Ns s (i_Ua i) (i_Ua i') /\ perm_list Ns s (i_Ea i) (i_Ea i') /\
  perm_list Nd t (i_Ub i) (i_Ub i') /\ perm_list Nd t (i_HalfDUb i) (i_HalfDUb i').
(** The renumbered configuration gets exactly the renumbered inputs. *)
Definition input_exact (input : config -> R -> res (inputs * flow)) : Prop :=
  forall p u i f, input p u = Ok (i, f) ->
    given_st (i_Sa i) /\ given_st (i_Ea i) /\
    exists i', input (renumber_config s t p) u = Ok (i', f) /\ exactly i i'.

Lemma perm_repeat {A} (x : A) N k r : permutes N r -> (N <= k)%nat -> perm_list N r (repeat x k) (repeat x k).
Proof. intros [R1 _] Hk j Hj. specialize (R1 j Hj). rewrite !nth_error_repeat by lia. reflexivity. Qed.
Lemma perm_map {A} (f f' : nat -> A) N r : permutes N r -> (forall j, (j < N)%nat -> f' j = f (r j)) ->
  perm_list N r (map f (seq 0 N)) (map f' (seq 0 N)).
Proof. intros [R1 _] H j Hj. specialize (R1 j Hj). rewrite !nth_error_map_seq by lia. rewrite H by exact Hj. reflexivity. Qed.

Lemma exact_turned Q input input' : input_exact input -> input_turned Q Ns Nd input input' -> input_renumbered Q s t Ns Nd input input'.
Proof.
  intros HX HT p p' u i f i' f' HC E E'. destruct (HX p u i f E) as (G1 & G2 & j & Ej & X1 & X2 & X3 & X4 & X5 & X6 & X7 & X8 & X9).
  destruct (HT _ _ _ _ _ _ _ (turned_rest Q s t Ns Nd p p' HC) Ej E') as [(A1 & A2 & A3 & A4 & A5 & A6 & A7 & A8 & A9 & A10 & A11 & A12 & A13) FT].
  split; [|exact FT].
  assert (K : forall (B : Type) (rel : B -> B -> Prop) N r l l0 l', perm_list N r l l0 -> lists_turned rel l0 l' -> lists_renumbered rel N r l l').
  { intros B rel N r l l0 l' HP [_ HL] k Hk. specialize (HL k). rewrite (HP k Hk) in HL. exact HL. }
  unfold inputs_renumbered, same_rows, same_pseudo_rows, same_tensors.
  split; [exact (K _ _ _ _ _ _ _ X1 A1)|]. split; [exact (K _ _ _ _ _ _ _ X2 A2)|]. split; [exact (K _ _ _ _ _ _ _ X3 A3)|].
  split; [exact (K _ _ _ _ _ _ _ X4 A4)|]. split; [exact (K _ _ _ _ _ _ _ X5 A5)|]. split; [exact (K _ _ _ _ _ _ _ X6 A6)|].
  split; [exact (K _ _ _ _ _ _ _ X7 A7)|]. split; [exact (K _ _ _ _ _ _ _ X8 A8)|]. split; [exact (K _ _ _ _ _ _ _ X9 A9)|]. auto.
Qed.

Lemma default_exactly fm : exactly (default_inputs fm Ns Nd) (default_inputs fm Ns Nd).
Proof.
  destruct fm; unfold exactly, default_inputs, empty_vectors; cbn [i_Fa i_Ta i_Sa i_Fb i_DFb i_Ua i_Ea i_Ub i_HalfDUb];
    (split; [|split; [|split; [|split; [|split; [|split; [|split; [|split]]]]]]]); apply perm_repeat; (assumption || lia).
Qed.
Lemma default_given fm : given_st (i_Sa (default_inputs fm Ns Nd)) /\ given_st (i_Ea (default_inputs fm Ns Nd)).
Proof. split; intros x Hx; rewrite (default_tensors Ns Nd fm x) by tauto; apply zeros_st. Qed.

Lemma exact1 fm dt : input_exact (fun p u => input_ftsuoe 1 fm Ns Nd p u dt).
Proof.
  intros p u i f E. cbn in E. injection E as <- <-. destruct (default_given fm) as [G1 G2]. split; [exact G1|]. split; [exact G2|].
  eexists. split; [reflexivity|]. destruct (default_exactly fm) as (D1 & D2 & D3 & D4 & D5 & D6 & D7 & D8 & D9).
  unfold exactly, with_Fa. cbn [i_Fa i_Ta i_Sa i_Fb i_DFb i_Ua i_Ea i_Ub i_HalfDUb].
  split; [apply perm_repeat; (assumption || lia)|]. tauto.
Qed.
Lemma sheared_exactly i i' h c : h_Ea h = repeat (literal_xz c) (Nat.max 1 Ns) -> exactly i i' ->
  given_st (i_Sa i) -> given_st (i_Sa (fst (with_shear i h))) /\ given_st (i_Ea (fst (with_shear i h))) /\ exactly (fst (with_shear i h)) (fst (with_shear i' h)) /\
  snd (with_shear i' h) = snd (with_shear i h).
Proof.
  intros Eh (D1 & D2 & D3 & D4 & D5 & D6 & D7 & D8 & D9) G. unfold with_shear, with_Ea, exactly. cbn [fst snd i_Fa i_Ta i_Sa i_Fb i_DFb i_Ua i_Ea i_Ub i_HalfDUb].
  rewrite Eh.
  assert (R : forall k, map (fun m => Some (row2 m)) (repeat (literal_xz c) k) = repeat (Some (row2 (literal_xz c))) k).
  { clear. induction k as [|k IH]; cbn [repeat map]; [reflexivity|rewrite IH; reflexivity]. }
  rewrite R. split; [exact G|]. split; [intros x Hx; apply in_repeat_some in Hx; subst x; apply literal_st|]. split; [|reflexivity].
  do 6 (split; [assumption|]). split; [apply perm_repeat; (assumption || lia)|]. auto.
Qed.
Lemma exact7 fm dt : input_exact (fun p u => input_ftsuoe 7 fm Ns Nd p u dt).
Proof.
  intros p u i f E. unfold input_ftsuoe in *. cbn [Z.ltb Z.compare] in *. cbv zeta in *.
  destruct (default_given fm) as [G1 _].
  destruct (sheared_exactly (default_inputs fm Ns Nd) (default_inputs fm Ns Nd) (constant_shear 1 u dt (v3 0 0 0) Ns) (5 / 10 * 1) eq_refl (default_exactly fm) G1) as (A & B & C & D).
  assert (OK2 : forall a b : inputs * flow, Ok a = Ok b -> a = b) by (intros x v H; injection H; auto).
  apply OK2 in E. rewrite E in *. cbn [fst snd] in *. split; [exact A|]. split; [exact B|]. exists i. split; [reflexivity|exact C].
Qed.
Lemma exact3 fm dt : input_exact (fun p u => input_ftsuoe 3 fm Ns Nd p u dt).
Proof.
  intros p u i f E. unfold input_ftsuoe in *. cbn [Z.ltb Z.compare] in *. cbv zeta in *.
  unfold oscillatory_shear in *. cbv zeta in *. destruct (Reqb 10 0); [discriminate|]. cbn [bind] in *.
  destruct (default_given fm) as [G1 _].
  match type of E with Ok (with_shear ?a ?h0) = _ => set (ii := a) in *; set (h := h0) in * end.
  match goal with |- context [Ok (with_shear ?a h) = _] => set (ii' := a) end.
  assert (X : exactly ii ii').
  { destruct (default_exactly fm) as (D1 & D2 & D3 & D4 & D5 & D6 & D7 & D8 & D9). unfold ii, ii', exactly, with_DFb.
    cbn [i_Fa i_Ta i_Sa i_Fb i_DFb i_Ua i_Ea i_Ub i_HalfDUb]. do 4 (split; [assumption|]). split; [|auto].
    apply (perm_map (fun k => Some (spring_force (c_ddx p k))) (fun k => Some (spring_force (c_ddx (renumber_config s t p) k)))); [exact Ht|].
    intros j _. reflexivity. }
  destruct (sheared_exactly ii ii' h _ eq_refl X G1) as (A & B & C & D).
  assert (OK2 : forall a b : inputs * flow, Ok a = Ok b -> a = b) by (intros x v H; injection H; auto).
  apply OK2 in E. rewrite E in A, B, C, D. cbn [fst snd] in *. split; [exact A|]. split; [exact B|]. exists (fst (with_shear ii' h)). split; [|exact C].
  rewrite <- D. destruct (with_shear ii' h); reflexivity.
Qed.

Lemma beads_renumbered {A} (a d1 d2 : nat -> A) b : (b < Ns + 2 * Nd)%nat ->
  all_beads Ns Nd (fun j => a (s j)) (fun j => d1 (t j)) (fun j => d2 (t j)) b = all_beads Ns Nd a d1 d2 (br b).
Proof.
  intros Hb. destruct Hs as [S1 _]. destruct Ht as [T1 _]. unfold all_beads, bead_relabel.
  destruct (Nat.ltb_spec b Ns); [specialize (S1 b ltac:(lia)); destruct (Nat.ltb_spec (s b) Ns); [reflexivity|lia]|].
  destruct (Nat.ltb_spec b (Ns + Nd)).
  - specialize (T1 (b - Ns)%nat ltac:(lia)). destruct (Nat.ltb_spec (Ns + t (b - Ns)) Ns); [lia|].
    destruct (Nat.ltb_spec (Ns + t (b - Ns)) (Ns + Nd)); [|lia]. replace (Ns + t (b - Ns) - Ns)%nat with (t (b - Ns)) by lia. reflexivity.
  - specialize (T1 (b - Ns - Nd)%nat ltac:(lia)). destruct (Nat.ltb_spec (Ns + Nd + t (b - Ns - Nd)) Ns); [lia|].
    destruct (Nat.ltb_spec (Ns + Nd + t (b - Ns - Nd)) (Ns + Nd)); [lia|].
    replace (Ns + Nd + t (b - Ns - Nd) - Ns - Nd)%nat with (t (b - Ns - Nd)) by lia. reflexivity.
Qed.
Lemma br_permutes : permutes (Ns + 2 * Nd) br.
Proof. split; [intros b Hb; apply br_beads; assumption|intros a b Ha Hb; apply br_beads_inj; assumption]. Qed.
Lemma repulsion_renumbered st tau x x' a a' n r p : permutes n r -> (forall b, (b < n)%nat -> x' b = x (r b)) -> (forall b, (b < n)%nat -> a' b = a (r b)) -> (p < n)%nat ->
  forall l, total_repulsion st tau x' a' n p l = total_repulsion st tau x a n (r p) l.
Proof.
  intros HR HX HA Hp l. unfold total_repulsion. rewrite <- (rsum_perm n r (fun q => repulsion st tau x a (r p) q l) HR).
  apply rsum_ext. intros q Hq. unfold repulsion, scaled_distance, direction. rewrite !(HX q Hq), !(HX p Hp), !(HA q Hq), !(HA p Hp). reflexivity.
Qed.
Lemma row_ext v w : (forall l, (l < 3)%nat -> v l = w l) -> row v = row w.
Proof. intros H. unfold row. rewrite !H by lia. reflexivity. Qed.

Lemma exact4 fm dt : input_exact (fun p u => input_ftsuoe 4 fm Ns Nd p u dt).
Proof.
  intros p u i f E. unfold input_ftsuoe in *. cbn [Z.ltb Z.compare] in *. cbv zeta in *.
  binv E. binv E. binv E. binv E. destruct a2 as [[Fa1 Fb1] D1]. rewrite E0, E1, E2. cbn [bind].
  assert (OK2 : forall a b : inputs * flow, Ok a = Ok b -> a = b) by (intros x v H; injection H; auto).
  apply OK2 in E. injection E as <- <-. destruct (default_given fm) as [G1 G2]. split; [exact G1|]. split; [exact G2|].
  assert (GZ : forall l l0, given TypeError l = Ok l0 -> (forall x, In (Some x) l -> x = zeros3) -> forall k c, unrow l0 k c = 0).
  { intros l l0 G H. apply given_ok in G. subst l. intros k c. apply unrow_zero. intros x Hx. apply H. apply in_map. exact Hx. }
  pose proof (GZ _ _ E0 ltac:(intros x Hx; apply (default_rows Ns Nd fm); tauto)) as Z0.
  pose proof (GZ _ _ E1 ltac:(intros x Hx; apply (default_rows Ns Nd fm); tauto)) as Z1.
  pose proof (GZ _ _ E2 ltac:(intros x Hx; apply (default_rows Ns Nd fm); tauto)) as Z2.
  assert (RE : exists r, repulsion_forces 50 20 Ns Nd (c_spos (renumber_config s t p)) (c_dpos (renumber_config s t p)) (c_ddx (renumber_config s t p))
     (c_ssizes (renumber_config s t p)) (c_dsizes (renumber_config s t p)) 0 (unrow a) (unrow a0) (unrow a1) = Ok r).
  { unfold repulsion_forces. cbv zeta. destruct (Nat.ltb_spec 0 Ns); destruct (Nat.leb_spec Ns (2 * 0)); cbn [andb]; try lia; eexists; reflexivity. }
  destruct RE as [[[Fa2 Fb2] D2] E4]. rewrite E4. cbn [bind]. eexists. split; [reflexivity|].
  apply repulsion_correct in E3. apply repulsion_correct in E4. unfold repulsion_statement in E3, E4. cbv zeta in E3, E4.
  unfold renumber_config in E4. cbn [c_ssizes c_spos c_dsizes c_dpos c_ddx] in E4.
  match type of E3 with context [total_repulsion 50 20 ?xx ?aa _ _ _] => set (x := xx) in E3; set (b := aa) in E3 end.
  match type of E4 with context [total_repulsion 50 20 ?xx ?aa _ _ _] => set (x' := xx) in E4; set (b' := aa) in E4 end.
  assert (HX : forall q, (q < Ns + 2 * Nd)%nat -> x' q = x (br q)).
  { intros q Hq. exact (beads_renumbered (c_spos p) (fun j l => c_dpos p j l - c_ddx p j l / 2) (fun j l => c_dpos p j l + c_ddx p j l / 2) q Hq). }
  assert (HB : forall q, (q < Ns + 2 * Nd)%nat -> b' q = b (br q)).
  { intros q Hq. exact (beads_renumbered (c_ssizes p) (c_dsizes p) (c_dsizes p) q Hq). }
  pose proof (fun q Hq => repulsion_renumbered 50 20 x x' b b' (Ns + 2 * Nd) br q br_permutes HX HB Hq) as T. clearbody x x' b b'.
  destruct E3 as [A1 A2]. destruct E4 as [B1 B2].
  destruct (default_exactly fm) as (X1 & X2 & X3 & X4 & X5 & X6 & X7 & X8 & X9).
  unfold exactly, with_Fa, with_Fb, with_DFb. cbn [i_Fa i_Ta i_Sa i_Fb i_DFb i_Ua i_Ea i_Ub i_HalfDUb].
  assert (BD : forall d, (d < Nd)%nat -> br (Ns + d) = (Ns + t d)%nat /\ br (Ns + Nd + d) = (Ns + Nd + t d)%nat).
  { intros d Hd. unfold bead_relabel. destruct (Nat.ltb_spec (Ns + d) Ns); [lia|]. destruct (Nat.ltb_spec (Ns + d) (Ns + Nd)); [|lia].
    destruct (Nat.ltb_spec (Ns + Nd + d) Ns); [lia|]. destruct (Nat.ltb_spec (Ns + Nd + d) (Ns + Nd)); [lia|].
    replace (Ns + d - Ns)%nat with d by lia. replace (Ns + Nd + d - Ns - Nd)%nat with d by lia. auto. }
  split; [|split; [exact X2|split; [exact X3|split; [|split; [|tauto]]]]].
  - apply (perm_map (fun k => Some (row (Fa1 k))) (fun k => Some (row (Fa2 k)))); [exact Hs|]. intros j Hj. f_equal. apply row_ext. intros l _.
    pose proof (proj1 Hs j Hj) as Hsj. rewrite (A1 (s j) l Hsj), (B1 j l Hj), !Z0. f_equal. rewrite T by lia.
    unfold bead_relabel. destruct (Nat.ltb_spec j Ns); [reflexivity|lia].
  - apply (perm_map (fun k => Some (row (Fb1 k))) (fun k => Some (row (Fb2 k)))); [exact Ht|]. intros d Hd. f_equal. apply row_ext. intros l _.
    pose proof (proj1 Ht d Hd) as Htd. rewrite (proj1 (A2 (t d) l Htd)), (proj1 (B2 d l Hd)), !Z1. f_equal. rewrite !T by lia. destruct (BD d Hd) as [-> ->]. reflexivity.
  - apply (perm_map (fun k => Some (row (D1 k))) (fun k => Some (row (D2 k)))); [exact Ht|]. intros d Hd. f_equal. apply row_ext. intros l _.
    pose proof (proj1 Ht d Hd) as Htd. rewrite (proj2 (A2 (t d) l Htd)), (proj2 (B2 d l Hd)), !Z2. f_equal. rewrite !T by lia. destruct (BD d Hd) as [-> ->]. reflexivity.
Qed.

Lemma shipped_exact n fm dt : In n [1; 3; 4; 7]%Z -> input_exact (fun p u => input_ftsuoe n fm Ns Nd p u dt).
Proof. intros [<-|[<-|[<-|[<-|[]]]]]; [apply exact1|apply exact3|apply exact4|apply exact7]. Qed.
End Exact.

(** Symmetries of the shear flow in the plane xz. *)
Section Shear.
Variable Q : mat.
Hypothesis HQ : orthogonal Q.
Variables Ns Nd : nat.
Hypothesis HE : forall c, mat_turned Q (literal_xz c) (literal_xz c).
Hypothesis HO : forall w, pseudo_turned Q (v3 0 w 0) (v3 0 w 0).

Lemma literal_turned c : mat_turned Q (tensor_mat (row2 (literal_xz c))) (tensor_mat (row2 (literal_xz c))).
Proof.
  intros k l Hk Hl.
  assert (E : forall a b, (a < 3)%nat -> (b < 3)%nat -> tensor_mat (row2 (literal_xz c)) a b = literal_xz c a b)
    by (intros a b Ha Hb; unfold tensor_mat, row2, row; idx3 Ha; idx3 Hb; reflexivity).
  rewrite E by assumption. rewrite (HE c k l Hk Hl). unfold rot2. apply rsum_ext. intros a Ha. apply rsum_ext. intros b Hb. rewrite E by assumption. reflexivity.
Qed.
Lemma zero_vec : vec_turned Q (v3 0 0 0) (v3 0 0 0).
Proof. intros l Hl. unfold rot, mvec, rsum, v3. idx3 Hl; ring. Qed.
Lemma any_shear i i' k c w : inputs_turned Q i i' ->
  forall h, h_Ea h = repeat (literal_xz c) k -> h_U h = v3 0 0 0 -> h_O h = v3 0 w 0 -> vec_turned Q (h_centre h) (h_centre h) ->
  inputs_turned Q (fst (with_shear i h)) (fst (with_shear i' h)) /\ flow_turned Q (snd (with_shear i h)) (snd (with_shear i' h)).
Proof.
  intros (A1 & A2 & A3 & A4 & A5 & A6 & A7 & A8 & A9 & A10 & A11 & A12 & A13) h E U O C. split.
  - unfold with_shear, with_Ea, inputs_turned. cbn [fst i_Fa i_Ta i_Sa i_Fb i_DFb i_Ua i_Ea i_Ub i_HalfDUb]. rewrite E.
    assert (R : map (fun m => Some (row2 m)) (repeat (literal_xz c) k) = repeat (Some (row2 (literal_xz c))) k).
    { clear. induction k as [|k IH]; cbn [repeat map]; [reflexivity|rewrite IH; reflexivity]. }
    rewrite R.
    assert (T : tensors_turned Q (repeat (Some (row2 (literal_xz c))) k) (repeat (Some (row2 (literal_xz c))) k)).
    { apply lists_self. intros t Ht. apply in_repeat_some in Ht. subst t. apply literal_turned. }
    assert (G : given_st (repeat (Some (row2 (literal_xz c))) k)).
    { intros t Ht. apply in_repeat_some in Ht. subst t. apply literal_st. }
    tauto.
  - unfold with_shear, flow_turned, unbounded. cbn [snd f_U f_O f_centre f_mu f_bl f_tr]. rewrite U, O.
    split; [exact zero_vec|]. split; [apply HO|]. split; [exact C|]. auto.
Qed.
Lemma input7_turned fm dt : input_turned Q Ns Nd (fun p t => input_ftsuoe 7 fm Ns Nd p t dt) (fun p t => input_ftsuoe 7 fm Ns Nd p t dt).
Proof.
  intros p p' t i f i' f' HT E E'. unfold input_ftsuoe in E, E'. cbn [Z.ltb Z.compare] in E, E'. cbv zeta in E, E'.
  destruct (any_shear _ _ _ (5 / 10 * 1) (5 / 10 * 1) (default_turned Q Ns Nd fm) (constant_shear 1 t dt (v3 0 0 0) Ns) eq_refl eq_refl eq_refl zero_vec) as [A B].
  set (w := with_shear _ _) in *. assert (OK2 : forall a b : inputs * flow, Ok a = Ok b -> a = b) by (intros u v H; injection H; auto).
  apply OK2 in E. apply OK2 in E'. rewrite E in A, B, E'. injection E' as <- <-. split; [exact A|exact B].
Qed.
Lemma input3_turned fm dt : vec_turned Q (v3 (225 / 100) 0 (225 / 100)) (v3 (225 / 100) 0 (225 / 100)) ->
  input_turned Q Ns Nd (fun p t => input_ftsuoe 3 fm Ns Nd p t dt) (fun p t => input_ftsuoe 3 fm Ns Nd p t dt).
Proof.
  intros HC p p' t i f i' f' HT E E'. unfold input_ftsuoe in E, E'. cbn [Z.ltb Z.compare] in E, E'. cbv zeta in E, E'.
  unfold oscillatory_shear in E, E'. cbv zeta in E, E'. destruct (Reqb 10 0); [discriminate|]. cbn [bind] in E, E'.
  assert (OK2 : forall a b : inputs * flow, Ok a = Ok b -> a = b) by (intros u v H; injection H; auto).
  apply OK2 in E. apply OK2 in E'.
  match type of E with with_shear ?i0 ?h0 = _ => set (ii := i0) in E; set (h := h0) in E, E' end.
  match type of E' with with_shear ?i0 ?h0 = _ => set (ii' := i0) in E' end.
  assert (I2 : inputs_turned Q ii ii').
  { assert (F : rows_turned Q (map (fun k => Some (spring_force (c_ddx p k))) (seq 0 Nd)) (map (fun k => Some (spring_force (c_ddx p' k))) (seq 0 Nd))).
    { apply (lists_map _ Nd (fun k => spring_force (c_ddx p k)) (fun k => spring_force (c_ddx p' k))). intros k Hk.
      apply spring_turned; [exact HQ|]. destruct HT as (_ & _ & _ & _ & HT). apply (HT k Hk). }
    pose proof (default_turned Q Ns Nd fm) as (D1 & D2 & D3 & D4 & D5 & D6 & D7 & D8 & D9 & D10).
    unfold ii, ii', with_DFb, inputs_turned. cbn [i_Fa i_Ta i_Sa i_Fb i_DFb i_Ua i_Ea i_Ub i_HalfDUb]. tauto. }
  destruct (any_shear ii ii' _ _ _ I2 h eq_refl eq_refl eq_refl HC) as [S1 S2]. rewrite E, E' in S1, S2. split; [exact S1|exact S2].
Qed.
End Shear.

(** The identity and the reflection in a point. *)
Lemma one_vec v v' : (forall l, (l < 3)%nat -> v' l = v l) -> vec_turned one v v'.
Proof. intros H l Hl. rewrite one_rot by exact Hl. apply H. exact Hl. Qed.
Lemma one_vec_same v : vec_turned one v v.
Proof. apply one_vec. reflexivity. Qed.
Lemma one_pseudo v : pseudo_turned one v v.
Proof. intros l Hl. rewrite one_det, one_rot by exact Hl. ring. Qed.
Lemma one_mat A : mat_turned one A A.
Proof. intros k l Hk Hl. unfold rot2, rsum, one, delta. idx3 Hk; idx3 Hl; cbn [Nat.eqb]; ring. Qed.
Lemma inversion_orthogonal : orthogonal inversion.
Proof. intros i j Hi Hj. split; unfold mmul, mtr, inversion, delta, rsum; idx3 Hi; idx3 Hj; cbn [Nat.eqb]; ring. Qed.
Lemma inversion_det : det3 inversion = -1.
Proof. unfold det3, inversion, delta. cbn [Nat.eqb]. ring. Qed.
Lemma inversion_rot v l : (l < 3)%nat -> rot inversion v l = - v l.
Proof. intros Hl. unfold rot, mvec, rsum, inversion, delta. idx3 Hl; cbn [Nat.eqb]; ring. Qed.
Lemma inversion_pseudo v : pseudo_turned inversion v v.
Proof. intros l Hl. rewrite inversion_det, inversion_rot by exact Hl. ring. Qed.
Lemma inversion_mat A : mat_turned inversion A A.
Proof. intros k l Hk Hl. unfold rot2, rsum, inversion, delta. idx3 Hk; idx3 Hl; cbn [Nat.eqb]; ring. Qed.
