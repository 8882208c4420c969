(** From the pair table to the run-time formulae; the rows of the test file. *)
From Coq Require Import Reals List ZArith Arith Bool Lra Lia.
From Verif Require Import Py Base Model_Pack Model_Mob Model_Scalars Model_Table Spec_Scalars Spec_Layout Spec_Minf Spec_R2B
  Proof_R2B2 Proof_Scalars Proof_Table Proof_Table2 Model_Lamb Proof_Lamb.
Import ListNotations.
Local Open Scope R_scope.

(** The run-time formulae with the scalars [4 n + 2 p + q] are the tensors of
    sphere [p] and the motion of sphere [q]. *)
Definition governs (sc : nat -> R) (a : R) (X : nat -> R) (d d' : vec) (p q : nat) : Prop :=
  (forall i j, two_body sc KU KU d a i j = tA X d' p q i j) /\
  (forall i j, two_body sc KO KU d a i j = tB X d' p q i j) /\
  (forall i j, two_body sc KO KO d a i j = tC X d' p q i j) /\
  (forall i j, two_body sc KS KU d a i j = condense_idx (fun k l => tG X d' p q k l j) i) /\
  (forall i j, two_body sc KS KO d a i j = condense_idx (fun k l => tH X d' p q k l j) i) /\
  (forall i j, two_body sc KS KS d a i j
     = condense_idx (fun k l => condense_idx (fun m n => tM X d' p q k l m n) j) i).

Lemma scales_any X p q d : (p < 2)%nat -> (q < 2)%nat ->
  governs (fun n => nondimensionalise_scalars X resistance_scales (4 * n + 2 * p + q)%nat) 1 X d d p q.
Proof.
  intros Hp Hq. set (sc := fun n => _). pose proof PI_RGT_0 as Hpi.
  assert (HA : forall n, (n < 2)%nat -> sc n = scalar X n p q / (6 * PI)).
  { intros n Hn. destruct p as [|[|]]; [| |lia]; (destruct q as [|[|]]; [| |lia]); destruct n as [|[|]]; try lia; reflexivity. }
  assert (HB : sc 2%nat = scalar X 2 p q / (4 * PI)) by (destruct p as [|[|]]; [| |lia]; (destruct q as [|[|]]; [| |lia]); reflexivity).
  assert (HC : forall n, (n = 3 \/ n = 4)%nat -> sc n = scalar X n p q / (8 * PI)).
  { intros n Hn. destruct p as [|[|]]; [| |lia]; (destruct q as [|[|]]; [| |lia]); destruct Hn as [-> | ->]; reflexivity. }
  assert (HG : forall n, (n = 5 \/ n = 6)%nat -> sc n = scalar X n p q / (4 * PI)).
  { intros n Hn. destruct p as [|[|]]; [| |lia]; (destruct q as [|[|]]; [| |lia]); destruct Hn as [-> | ->]; reflexivity. }
  assert (HH : sc 7%nat = scalar X 7 p q / (8 * PI)) by (destruct p as [|[|]]; [| |lia]; (destruct q as [|[|]]; [| |lia]); reflexivity).
  assert (HM : forall n, (n = 8 \/ n = 9 \/ n = 10)%nat -> sc n = scalar X n p q / (20 / 3 * PI)).
  { intros n Hn. destruct p as [|[|]]; [| |lia]; (destruct q as [|[|]]; [| |lia]); destruct Hn as [-> |[-> | ->]]; reflexivity. }
  unfold governs, two_body. rewrite !HA, HB, !HC, !HG, HH, !HM by lia. clearbody sc. clear HA HB HC HG HH HM.
  repeat split; intros i j; unfold tA, tB, tC, trans; try (field; lra).
  - rewrite <- condense_scal. apply condense_ext2. intros k l. unfold tG, dev, trans. field. lra.
  - rewrite <- condense_scal. apply condense_ext2. intros k l. unfold tH. field. lra.
  - rewrite <- condense_scal. apply condense_ext2. intros k l. rewrite <- condense_scal. apply condense_ext2. intros m n.
    unfold tM, dev, trans. field. lra.
Qed.

Lemma governs_via sc sc' a a' X d1 d p q : (forall k1 k2 i j, two_body sc k1 k2 d1 a i j = two_body sc' k1 k2 d a' i j) ->
  governs sc' a' X d d p q -> governs sc a X d1 d p q.
Proof.
  intros H (A & B & C & G & HH & M). repeat split; intros i j; rewrite H; auto.
Qed.

Lemma convert_ext inv x y : (forall n, (n < 44)%nat -> y n = x n) ->
  convert_dim_kim_mobility_to_dim_resistance inv y = convert_dim_kim_mobility_to_dim_resistance inv x.
Proof.
  intros H. unfold convert_dim_kim_mobility_to_dim_resistance.
  repeat match goal with |- context [y ?n] => rewrite (H n) by (repeat constructor) end. reflexivity.
Qed.
