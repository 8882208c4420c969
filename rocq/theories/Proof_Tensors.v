(** The tensors L1..L9 for a unit vector. *)
From Coq Require Import Reals Arith Bool List Lia Lra.
From Verif Require Import Base Model_Mob Model_Minf Model_Close Model_R2B Spec_R2B Spec_Calc Proof_Mob.
Local Open Scope R_scope.

Section Unit.
Variable d : vec.
Hypothesis Hd : dot3 d d = 1.

Lemma unit_sq : d 0%nat * d 0%nat = 1 - d 1%nat * d 1%nat - d 2%nat * d 2%nat.
Proof. unfold dot3 in Hd. lra. Qed.

(** Contractions of the longitudinal and transverse parts. *)
Lemma sum_dd : rsum 3 (fun k => d k * d k) = 1.
Proof. simpl. unfold dot3 in Hd. lra. Qed.
Lemma sum_dt j : (j < 3)%nat -> rsum 3 (fun k => d k * trans d k j) = 0.
Proof. intros Hj. pose proof unit_sq as H. idx3 Hj; unfold trans, delta; simpl; ring [H]. Qed.
Lemma sum_tt i j : (i < 3)%nat -> (j < 3)%nat -> rsum 3 (fun k => trans d i k * trans d k j) = trans d i j.
Proof. intros Hi Hj. pose proof unit_sq as H. idx3 Hi; idx3 Hj; unfold trans, delta; simpl; ring [H]. Qed.
Lemma sum_t : rsum 3 (fun k => trans d k k) = 2.
Proof. pose proof unit_sq as H. unfold trans, delta; simpl; ring [H]. Qed.

End Unit.

Section Products.
Variable d : vec.
Hypothesis Hd : dot3 d d = 1.
Ltac crunch Hi Hj Hm Hn :=
  let x := fresh "x" in let y := fresh "y" in let z := fresh "z" in let H := fresh in
  pose proof (unit_sq d Hd) as H; set (x := d 0%nat) in *; set (y := d 1%nat) in *; set (z := d 2%nat) in *;
  idx3 Hi; idx3 Hj; idx3 Hm; idx3 Hn; unfold L7t, L8t, L9t, delta; cbn [rsum Nat.eqb]; fold x y z; clearbody x y z;
  first [ring [H] | (field [H])].

Lemma L88 i j m n : (i < 3)%nat -> (j < 3)%nat -> (m < 3)%nat -> (n < 3)%nat ->
  rsum 3 (fun k => rsum 3 (fun l => L8t d i j k l * L8t d k l m n)) = L8t d i j m n.
Proof. intros Hi Hj Hm Hn. crunch Hi Hj Hm Hn. Qed.
Lemma L99 i j m n : (i < 3)%nat -> (j < 3)%nat -> (m < 3)%nat -> (n < 3)%nat ->
  rsum 3 (fun k => rsum 3 (fun l => L9t d i j k l * L9t d k l m n)) = L9t d i j m n.
Proof. intros Hi Hj Hm Hn. crunch Hi Hj Hm Hn. Qed.
Lemma L89 i j m n : (i < 3)%nat -> (j < 3)%nat -> (m < 3)%nat -> (n < 3)%nat ->
  rsum 3 (fun k => rsum 3 (fun l => L8t d i j k l * L9t d k l m n)) = 0.
Proof. intros Hi Hj Hm Hn. crunch Hi Hj Hm Hn. Qed.

(** Contraction with d d - 1/3. *)
Lemma dev8 m n : (m < 3)%nat -> (n < 3)%nat ->
  rsum 3 (fun k => rsum 3 (fun l => dev d k l * L8t d k l m n)) = 0.
Proof. intros Hm Hn. pose proof (unit_sq d Hd) as H. idx3 Hm; idx3 Hn; unfold dev, L8t, delta; cbn [rsum Nat.eqb]; field [H]. Qed.
Lemma dev9 m n : (m < 3)%nat -> (n < 3)%nat ->
  rsum 3 (fun k => rsum 3 (fun l => dev d k l * L9t d k l m n)) = 0.
Proof. intros Hm Hn. pose proof (unit_sq d Hd) as H. idx3 Hm; idx3 Hn; unfold dev, L9t, delta; cbn [rsum Nat.eqb]; field [H]. Qed.
Lemma dev7 m n : (m < 3)%nat -> (n < 3)%nat ->
  rsum 3 (fun k => rsum 3 (fun l => dev d k l * L7t d k l m n)) = dev d m n.
Proof.
  intros Hm Hn.
  assert (E : rsum 3 (fun k => rsum 3 (fun l => dev d k l * L7t d k l m n))
     = 3 / 2 * rsum 3 (fun k => rsum 3 (fun l => dev d k l * dev d k l)) * dev d m n).
  { unfold L7t, dev. cbn [rsum]. ring. }
  rewrite E. assert (rsum 3 (fun k => rsum 3 (fun l => dev d k l * dev d k l)) = 2 / 3) as ->.
  { pose proof (unit_sq d Hd) as H. unfold dev, delta; cbn [rsum Nat.eqb]; field [H]. }
  field.
Qed.
Lemma L7_any (T : nat -> nat -> nat -> nat -> R) i j m n :
  rsum 3 (fun k => rsum 3 (fun l => L7t d i j k l * T k l m n)) =
  3 / 2 * dev d i j * rsum 3 (fun k => rsum 3 (fun l => dev d k l * T k l m n)).
Proof. unfold L7t, dev. cbn [rsum]. ring. Qed.
Lemma L77 i j m n : (i < 3)%nat -> (j < 3)%nat -> (m < 3)%nat -> (n < 3)%nat ->
  rsum 3 (fun k => rsum 3 (fun l => L7t d i j k l * L7t d k l m n)) = L7t d i j m n.
Proof. intros Hi Hj Hm Hn. rewrite L7_any, dev7 by assumption. reflexivity. Qed.
Lemma L78 i j m n : (i < 3)%nat -> (j < 3)%nat -> (m < 3)%nat -> (n < 3)%nat ->
  rsum 3 (fun k => rsum 3 (fun l => L7t d i j k l * L8t d k l m n)) = 0.
Proof. intros Hi Hj Hm Hn. rewrite L7_any, dev8 by assumption. ring. Qed.
Lemma L79 i j m n : (i < 3)%nat -> (j < 3)%nat -> (m < 3)%nat -> (n < 3)%nat ->
  rsum 3 (fun k => rsum 3 (fun l => L7t d i j k l * L9t d k l m n)) = 0.
Proof. intros Hi Hj Hm Hn. rewrite L7_any, dev9 by assumption. ring. Qed.

Lemma L789 i j k l : 
  L7t d i j k l + L8t d i j k l + L9t d i j k l =
  (delta i k * delta j l + delta i l * delta j k) / 2 - delta i j * delta k l / 3.
Proof. unfold L7t, L8t, L9t. field. Qed.
End Products.

(** Pair exchange and index symmetry hold for any d. *)
Lemma L4sym d i j k : L4t d i j k = L4t d j i k.
Proof. unfold L4t. rewrite (delta_sym i j). ring. Qed.
Lemma L5sym d i j k : L5t d i j k = L5t d j i k.
Proof. unfold L5t. ring. Qed.
Lemma L6sym d i j k : (i < 3)%nat -> (j < 3)%nat -> (k < 3)%nat -> L6t d i j k = L6t d j i k.
Proof. intros Hi Hj Hk. idx3 Hi; idx3 Hj; idx3 Hk; unfold L6t, lsum, others, levi; simpl; ring. Qed.
Lemma L7sym d i j k l : L7t d i j k l = L7t d j i k l /\ L7t d i j k l = L7t d k l i j.
Proof. unfold L7t. rewrite (delta_sym i j). split; ring. Qed.
Lemma L8sym d i j k l : L8t d i j k l = L8t d j i k l /\ L8t d i j k l = L8t d k l i j.
Proof.
  unfold L8t. split; [ring|].
  rewrite (delta_sym j l), (delta_sym i l), (delta_sym j k), (delta_sym i k). ring.
Qed.
Lemma L9sym d i j k l : L9t d i j k l = L9t d j i k l /\ L9t d i j k l = L9t d k l i j.
Proof.
  unfold L9t. split; [rewrite (delta_sym i j); ring|].
  rewrite (delta_sym j l), (delta_sym i l), (delta_sym j k), (delta_sym i k). ring.
Qed.
Section Trace.
Variable d : vec.
Hypothesis Hd : dot3 d d = 1.
Lemma trace4 k : rsum 3 (fun i => L4t d i i k) = 0.
Proof. pose proof (unit_sq d Hd) as H. unfold L4t, delta; cbn [rsum Nat.eqb]; field [H]. Qed.
Lemma trace5 k : (k < 3)%nat -> rsum 3 (fun i => L5t d i i k) = 0.
Proof. intros Hk. pose proof (unit_sq d Hd) as H. idx3 Hk; unfold L5t, delta; cbn [rsum Nat.eqb]; ring [H]. Qed.
Lemma trace6 k : (k < 3)%nat -> rsum 3 (fun i => L6t d i i k) = 0.
Proof. intros Hk. idx3 Hk; unfold L6t, lsum, others, levi; simpl; ring. Qed.
Lemma trace7 k l : rsum 3 (fun i => L7t d i i k l) = 0.
Proof. pose proof (unit_sq d Hd) as H. unfold L7t; cbn [rsum]. rewrite !delta_same. field [H]. Qed.
Lemma trace8 k l : (k < 3)%nat -> (l < 3)%nat -> rsum 3 (fun i => L8t d i i k l) = 0.
Proof. intros Hk Hl. pose proof (unit_sq d Hd) as H. idx3 Hk; idx3 Hl; unfold L8t, delta; cbn [rsum Nat.eqb]; field [H]. Qed.
Lemma trace9 k l : (k < 3)%nat -> (l < 3)%nat -> rsum 3 (fun i => L9t d i i k l) = 0.
Proof. intros Hk Hl. pose proof (unit_sq d Hd) as H. idx3 Hk; idx3 Hl; unfold L9t, delta; cbn [rsum Nat.eqb]; field [H]. Qed.

(** The vector-type tensors. *)
Lemma L12_sum i j : L1t d i j + L2t d i j = delta i j.
Proof. unfold L1t, L2t. ring. Qed.
Lemma L11 i j : rsum 3 (fun k => L1t d i k * L1t d k j) = L1t d i j.
Proof. pose proof (unit_sq d Hd) as H. unfold L1t. cbn [rsum]. ring [H]. Qed.
Lemma L22 i j : (i < 3)%nat -> (j < 3)%nat -> rsum 3 (fun k => L2t d i k * L2t d k j) = L2t d i j.
Proof. intros. apply (sum_tt d Hd); assumption. Qed.
Lemma L12 i j : (i < 3)%nat -> (j < 3)%nat -> rsum 3 (fun k => L1t d i k * L2t d k j) = 0.
Proof.
  intros Hi Hj. transitivity (d i * rsum 3 (fun k => d k * trans d k j)).
  - unfold L1t, L2t, trans. cbn [rsum]. ring.
  - rewrite (sum_dt d Hd) by exact Hj. ring.
Qed.
Lemma L3_cross v i : (i < 3)%nat -> rsum 3 (fun j => L3t d i j * v j) = cross v d i.
Proof. intros Hi. idx3 Hi; unfold L3t, lsum, others, levi, cross, v3; simpl; ring. Qed.
Lemma L3_anti i j : (i < 3)%nat -> (j < 3)%nat -> L3t d i j = - L3t d j i.
Proof. intros Hi Hj. idx3 Hi; idx3 Hj; unfold L3t, lsum, others, levi; simpl; ring. Qed.
Lemma L3_axial i : (i < 3)%nat -> rsum 3 (fun j => L3t d i j * d j) = 0.
Proof. intros Hi. rewrite L3_cross by exact Hi. idx3 Hi; unfold cross, v3; ring. Qed.
(** L4 is along d, L5 and L6 across. *)
Lemma L4_along i j : rsum 3 (fun k => L4t d i j k * d k) = dev d i j.
Proof. pose proof (unit_sq d Hd) as H. unfold L4t, dev. cbn [rsum]. field [H]. Qed.
Lemma L5_across i j : (i < 3)%nat -> (j < 3)%nat -> rsum 3 (fun k => L5t d i j k * d k) = 0.
Proof. intros Hi Hj. pose proof (unit_sq d Hd) as H. idx3 Hi; idx3 Hj; unfold L5t, delta; cbn [rsum Nat.eqb]; ring [H]. Qed.
Lemma L6_across i j : (i < 3)%nat -> (j < 3)%nat -> rsum 3 (fun k => L6t d i j k * d k) = 0.
Proof. intros Hi Hj. idx3 Hi; idx3 Hj; unfold L6t, lsum, others, levi; simpl; ring. Qed.
End Trace.
