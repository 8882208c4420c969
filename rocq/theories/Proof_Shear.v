(** Shear inputs and sheared boxes. *)
From Coq Require Import Reals ZArith List Arith Bool Lia Lra.
From Verif Require Import Base Py Model_Mob Model_Close Model_Step Model_Shear Spec_Shear Spec_Close Proof_Periodic Proof_Step2.
Import ListNotations.
Local Open Scope R_scope.

Lemma nth_repeat_lt {A} (a d : A) n k : (k < n)%nat -> nth k (repeat a n) d = a.
Proof. revert k. induction n as [|n IH]; intros [|k] H; try lia; simpl; [reflexivity|apply IH; lia]. Qed.

Definition still_flow (h : shear) (k : nat) (x : vec) : vec :=
  fst (add_background_flow_sphere (v3 0 0 0) (v3 0 0 0) (nth k (h_Ea h) mzero) (h_U h) (h_O h) x (h_centre h)).

Ltac flow_calc := unfold still_flow, add_background_flow_sphere, fst, h_Ea, h_U, h_O, h_centre;
  rewrite nth_repeat_lt by assumption;
  unfold simple_shear, mvec, cross, vsub; cbn [rsum].

Lemma constant_flow g f dt c n k x l : (k < Nat.max 1 n)%nat -> (l < 3)%nat ->
  still_flow (constant_shear g f dt c n) k x l = simple_shear 0 2 g (vsub x c) l.
Proof.
  intros Hk Hl. unfold constant_shear. cbv zeta. flow_calc.
  idx3 Hl; simpl; lra.
Qed.

Lemma osc_ok A T f dt ph c n ax tr op h : oscillatory_shear A T f dt ph c n ax tr op = Ok h -> T <> 0 /\ (ax = 1 \/ ax = 2)%nat.
Proof.
  unfold oscillatory_shear. cbv zeta. unfold Reqb. destruct (Req_EM_T T 0); [discriminate|]. intros H. split; [assumption|].
  destruct ax as [|[|[|]]]; try discriminate; auto.
Qed.
Lemma osc_total A T f dt ph c n ax tr op : T <> 0 -> (ax = 1 \/ ax = 2)%nat ->
  exists h, oscillatory_shear A T f dt ph c n ax tr op = Ok h.
Proof.
  intros HT [-> | ->]; unfold oscillatory_shear; cbv zeta; unfold Reqb; destruct (Req_EM_T T 0); try contradiction; eexists; reflexivity.
Qed.
Lemma osc_other A T f dt ph c n ax tr op : T <> 0 -> ax <> 1%nat -> ax <> 2%nat ->
  oscillatory_shear A T f dt ph c n ax tr op = Raise UnboundLocalError.
Proof.
  intros HT H1 H2. unfold oscillatory_shear. cbv zeta. unfold Reqb. destruct (Req_EM_T T 0); [contradiction|].
  destruct ax as [|[|[|]]]; try reflexivity; lia.
Qed.

Ltac osc_cases H :=
  let HT := fresh in let Hax := fresh in
  destruct (osc_ok _ _ _ _ _ _ _ _ _ _ _ H) as [HT Hax];
  unfold oscillatory_shear in H; cbv zeta in H; unfold Reqb in H;
  destruct (Req_EM_T _ 0) in H; [contradiction|];
  destruct Hax as [-> | ->]; injection H as <-.

Lemma osc_flow A T f dt ph c n ax tr op h k x l :
  oscillatory_shear A T f dt ph c n ax tr op = Ok h -> (k < Nat.max 1 n)%nat -> (l < 3)%nat ->
  still_flow h k x l =
  simple_shear (fst (osc_axes ax tr)) (snd (osc_axes ax tr))
    (osc_sign ax op * (A * (2 * PI / T) * cos (2 * PI / T * (f * dt) + ph))) (vsub x c) l.
Proof.
  intros H Hk Hl. osc_cases H.
  - flow_calc. rewrite (Rmult_comm (2 * PI / T) (f * dt)).
    set (co := cos _). destruct tr; idx3 Hl; simpl; field; assumption.
  - flow_calc. rewrite (Rmult_comm (2 * PI / T) (f * dt)).
    set (co := cos _). destruct tr, op; idx3 Hl; simpl; field; assumption.
Qed.

Lemma strain_entries A T f dt ph c n ax tr op h k : oscillatory_shear A T f dt ph c n ax tr op = Ok h ->
  length (h_Ea h) = Nat.max 1 n /\ h_centre h = c /\ ((k < Nat.max 1 n)%nat -> nth k (h_Ea h) mzero = nth 0 (h_Ea h) mzero).
Proof.
  intros H. osc_cases H; cbn [h_Ea h_centre]; (split; [apply repeat_length|split; [reflexivity|]]); intros Hk;
    rewrite nth_repeat_lt by exact Hk; (rewrite nth_repeat_lt; [reflexivity|destruct n; lia]).
Qed.

(** ** Accumulated strain *)
Definition moves (Ot : vec) (Et : mat) (x : vec) : vec := fun l => cross Ot x l + rsum 3 (fun k => Et l k * x k).

Lemma constant_moves g f dt c n x l : (l < 3)%nat ->
  moves (h_Ot (constant_shear g f dt c n)) (h_Et (constant_shear g f dt c n)) x l = simple_shear 0 2 (g * (f * dt)) x l.
Proof.
  intros Hl. unfold constant_shear, moves. cbv zeta. cbn [h_Ot h_Et rsum]. unfold cross, simple_shear.
  idx3 Hl; simpl; field.
Qed.
Lemma osc_moves A T f dt ph c n ax tr op h x l :
  oscillatory_shear A T f dt ph c n ax tr op = Ok h -> (l < 3)%nat ->
  moves (h_Ot h) (h_Et h) x l =
  simple_shear (fst (osc_axes ax tr)) (snd (osc_axes ax tr))
    (osc_sign ax op * (A * sin (2 * PI / T * (f * dt) + ph))) x l.
Proof.
  intros H Hl. osc_cases H; unfold moves; cbn [h_Ot h_Et rsum]; unfold cross, simple_shear;
    rewrite (Rmult_comm (2 * PI / T) (f * dt)); set (co := sin _).
  - destruct tr; idx3 Hl; simpl; field.
  - destruct tr, op; idx3 Hl; simpl; field.
Qed.

(** ** The sheared lattice *)
Section Lattice.
Variables (box : vec) (Ot : vec) (Et : mat) (i j : nat) (strain : R).
Hypothesis Hij : i <> j.
Hypothesis Hi : (i < 3)%nat.
Hypothesis Hj : (j < 3)%nat.
Hypothesis Hm : forall x l, (l < 3)%nat -> moves Ot Et x l = simple_shear i j strain x l.
Let B := shear_basis_vectors (diag3 box) box Ot Et.

Lemma sheared_row k l : (k < 3)%nat -> (l < 3)%nat ->
  B k l = edges box k l + (if (Nat.eqb k j && Nat.eqb l i)%bool then rmod (strain * box j) (box i) else 0).
Proof.
  intros Hk Hl. unfold B, shear_basis_vectors.
  change (cross Ot (diag3 box k) l + rsum 3 (fun m => Et l m * diag3 box k m)) with (moves Ot Et (diag3 box k) l).
  rewrite Hm by exact Hl. unfold simple_shear, diag3, edges.
  destruct (Nat.eqb_spec l i) as [->|Hne].
  - destruct (Nat.eqb_spec k j) as [->|Hne'].
    + cbn [andb]. reflexivity.
    + cbn [andb]. rewrite Rmult_0_r, rmod_0. reflexivity.
  - rewrite andb_false_r, rmod_0. reflexivity.
Qed.
Lemma carried_row k l : (k < 3)%nat -> (l < 3)%nat ->
  carried i j strain (edges box k) l = edges box k l + (if (Nat.eqb k j && Nat.eqb l i)%bool then strain * box j else 0).
Proof.
  intros Hk Hl. unfold carried, simple_shear, edges. f_equal.
  destruct (Nat.eqb_spec l i), (Nat.eqb_spec k j); subst; cbn [andb]; try reflexivity; ring.
Qed.

Lemma sheared_volume : volume B = box 0%nat * box 1%nat * box 2%nat.
Proof.
  unfold volume, dot3, cross, v3. rewrite !sheared_row by lia. unfold edges.
  destruct i as [|[|[|]]]; [| | |lia]; (destruct j as [|[|[|]]]; [| | |lia]); try lia; simpl; ring.
Qed.

Lemma sheared_lattice v : in_lattice B v <-> in_lattice (fun k => carried i j strain (edges box k)) v.
Proof.
  assert (E : exists z : Z, rmod (strain * box j) (box i) = strain * box j - IZR z * box i).
  { exists (Int_part (strain * box j / box i)). unfold rmod. ring. }
  destruct E as (z & E).
  split; intros (m & H);
   [exists (fun k => if Nat.eqb k i then (m k - z * m j)%Z else m k) | exists (fun k => if Nat.eqb k i then (m k + z * m j)%Z else m k)];
   intros l Hl; rewrite H by exact Hl; cbn [rsum]; rewrite ?sheared_row, ?carried_row, ?E by lia; clear H; unfold edges;
   (destruct i as [|[|[|]]]; [| | |lia]); (destruct j as [|[|[|]]]; [| | |lia]); try lia; idx3 Hl; cbn [Nat.eqb andb];
   rewrite ?minus_IZR, ?plus_IZR, ?mult_IZR; ring.
Qed.
End Lattice.

Lemma carried_compose i j s s' x l : i <> j -> carried i j s' (carried i j s x) l = carried i j (s + s') x l.
Proof.
  intros Hij. unfold carried, simple_shear. destruct (Nat.eqb_spec j i) as [->|]; [contradiction|].
  destruct (Nat.eqb l i); ring.
Qed.

Lemma constant_euler g f dt c n box x y k k' Ua Oa :
  let h := constant_shear g f dt c n in
  let h' := constant_shear g (f + 1) dt c n in
  (k < Nat.max 1 n)%nat -> (k' < Nat.max 1 n)%nat ->
  images (shear_basis_vectors (diag3 box) box (h_Ot h) (h_Et h)) x y ->
  images (shear_basis_vectors (diag3 box) box (h_Ot h') (h_Et h'))
    (euler_timestep x (fst (add_background_flow_sphere Ua Oa (nth k (h_Ea h) mzero) (h_U h) (h_O h) x (h_centre h))) dt)
    (euler_timestep y (fst (add_background_flow_sphere Ua Oa (nth k' (h_Ea h) mzero) (h_U h) (h_O h) y (h_centre h))) dt).
Proof.
  intros h h' Hk Hk' H. unfold images in *.
  rewrite (sheared_lattice box _ _ 0 2 (g * (f * dt))) in H by (try lia; intros; apply constant_moves; assumption).
  rewrite (sheared_lattice box _ _ 0 2 (g * ((f + 1) * dt))) by (try lia; intros; apply constant_moves; assumption).
  destruct H as (m & H). exists m. intros l Hl.
  assert (F : forall k x, (k < Nat.max 1 n)%nat -> fst (add_background_flow_sphere Ua Oa (nth k (h_Ea h) mzero) (h_U h) (h_O h) x (h_centre h)) l
              = Ua l + simple_shear 0 2 g (vsub x c) l).
  { intros k0 x0 Hk0. rewrite <- (constant_flow g f dt c n k0 x0 l Hk0 Hl). fold h.
    unfold still_flow, add_background_flow_sphere, fst. replace (v3 0 0 0 l) with 0 by (idx3 Hl; reflexivity). ring. }
  unfold euler_timestep. rewrite !F by assumption.
  pose proof (H 0%nat ltac:(lia)) as H0. pose proof (H 1%nat ltac:(lia)) as H1. pose proof (H 2%nat ltac:(lia)) as H2. clear H F.
  cbn [rsum] in *. unfold carried, simple_shear, edges, vsub in *. idx3 Hl; cbn [Nat.eqb] in *; nra.
Qed.

Lemma flow_split Ua Oa E U W x c l : (l < 3)%nat ->
  fst (add_background_flow_sphere Ua Oa E U W x c) l = Ua l + fst (add_background_flow_sphere (v3 0 0 0) (v3 0 0 0) E U W x c) l.
Proof.
  intros Hl. unfold add_background_flow_sphere, fst. replace (v3 0 0 0 l) with 0 by (idx3 Hl; reflexivity). ring.
Qed.
Lemma constant_flow_any g f dt c n k Ua Oa x l :
  let h := constant_shear g f dt c n in
  (k < Nat.max 1 n)%nat -> (l < 3)%nat ->
  fst (add_background_flow_sphere Ua Oa (nth k (h_Ea h) mzero) (h_U h) (h_O h) x (h_centre h)) l
  = Ua l + simple_shear 0 2 g (vsub x c) l.
Proof. intros h Hk Hl. rewrite flow_split by exact Hl. f_equal. exact (constant_flow g f dt c n k x l Hk Hl). Qed.
Lemma osc_flow_any A T f dt ph c n ax tr op h k Ua Oa x l :
  oscillatory_shear A T f dt ph c n ax tr op = Ok h -> (k < Nat.max 1 n)%nat -> (l < 3)%nat ->
  length (h_Ea h) = Nat.max 1 n /\
  fst (add_background_flow_sphere Ua Oa (nth k (h_Ea h) mzero) (h_U h) (h_O h) x (h_centre h)) l
  = Ua l + simple_shear (fst (osc_axes ax tr)) (snd (osc_axes ax tr))
    (osc_sign ax op * (A * (2 * PI / T) * cos (2 * PI / T * (f * dt) + ph))) (vsub x c) l.
Proof.
  intros H Hk Hl. split; [exact (proj1 (strain_entries _ _ _ _ _ _ _ _ _ _ _ k H))|].
  rewrite flow_split by exact Hl. f_equal. exact (osc_flow _ _ _ _ _ _ _ _ _ _ _ k x l H Hk Hl).
Qed.
Lemma osc_lattice A T f dt ph c n ax tr op h box :
  oscillatory_shear A T f dt ph c n ax tr op = Ok h ->
  let B := shear_basis_vectors (diag3 box) box (h_Ot h) (h_Et h) in
  volume B = box 0%nat * box 1%nat * box 2%nat /\
  forall v, in_lattice B v <->
    in_lattice (fun k => carried (fst (osc_axes ax tr)) (snd (osc_axes ax tr))
                  (osc_sign ax op * (A * sin (2 * PI / T * (f * dt) + ph))) (edges box k)) v.
Proof.
  intros H B. pose proof (osc_ok _ _ _ _ _ _ _ _ _ _ _ H) as [_ Hax].
  assert (Ha : fst (osc_axes ax tr) <> snd (osc_axes ax tr) /\ (fst (osc_axes ax tr) < 3)%nat /\ (snd (osc_axes ax tr) < 3)%nat).
  { destruct Hax as [-> | ->], tr; cbn; lia. }
  destruct Ha as (Ha1 & Ha2 & Ha3).
  split.
  - apply (sheared_volume box (h_Ot h) (h_Et h) _ _ _ Ha1 Ha2 Ha3 (fun x l Hl => osc_moves _ _ _ _ _ _ _ _ _ _ _ x l H Hl)).
  - intros v. apply (sheared_lattice box (h_Ot h) (h_Et h) _ _ _ Ha1 Ha2 Ha3 (fun x l Hl => osc_moves _ _ _ _ _ _ _ _ _ _ _ x l H Hl)).
Qed.
