(** C43: conversion of two-sphere mobility scalars to resistance scalars. *)
From Coq Require Import Reals List Arith Bool Lia Lra.
From Verif Require Import Base Model_Pack Model_Mob Model_Scalars Spec_Scalars Spec_Layout Spec_Minf Spec_R2B Proof_R2B2 Proof_Scalars Proof_Table2.
Import ListNotations.
Local Open Scope R_scope.

(** All motions and moments related by the mobility problem with the given
    scalars are related by the resistance problem with the scalars returned.
    [m_xa], [m_xc], [m_yabc] are the three matrices that the code inverts. *)
Theorem C43_resistance inv x d U O F T E S :
  x 2%nat = x 1%nat -> x 6%nat = x 5%nat -> x 18%nat = x 17%nat ->
  is_inv 2 (m_xa x) (inv (m_xa x)) -> is_inv 2 (m_xc x) (inv (m_xc x)) -> is_inv 4 (m_yabc x) (inv (m_yabc x)) ->
  d 0%nat * d 0%nat + d 1%nat * d 1%nat + d 2%nat * d 2%nat = 1 ->
  (forall q, (q < 2)%nat -> strain (E q)) ->
  mobility_law x d U O F T E S ->
  resistance_law (convert_dim_kim_mobility_to_dim_resistance inv x) d U O F T E S.
Proof. intros Ha Hy Hc Ia Ic Iy. exact (converted_law inv x Ha Hy Hc Ia Ic Iy d U O F T E S). Qed.
Print Assumptions C43_resistance.

(** After division by the scales, the scalars are what the run-time formulae
    for a sphere of unit radius expect. *)
Theorem C43_scales X gamma d :
  (gamma < 2)%nat ->
  let sc := fun n => nondimensionalise_scalars X resistance_scales (4 * n + gamma)%nat in
  (forall i j, two_body sc KU KU d 1 i j = tA X d 0 gamma i j) /\
  (forall i j, two_body sc KO KU d 1 i j = tB X d 0 gamma i j) /\
  (forall i j, two_body sc KO KO d 1 i j = tC X d 0 gamma i j) /\
  (forall i j, two_body sc KS KU d 1 i j = condense_idx (fun k l => tG X d 0 gamma k l j) i) /\
  (forall i j, two_body sc KS KO d 1 i j = condense_idx (fun k l => tH X d 0 gamma k l j) i) /\
  (forall i j, two_body sc KS KS d 1 i j
     = condense_idx (fun k l => condense_idx (fun m n => tM X d 0 gamma k l m n) j) i).
Proof.
  intros Hg sc. pose proof PI_RGT_0 as Hpi.
  assert (HA : forall n, (n < 2)%nat -> sc n = scalar X n 0 gamma / (6 * PI)).
  { intros n Hn. destruct gamma as [|[|]]; [| |lia]; destruct n as [|[|]]; try lia; reflexivity. }
  assert (HB : sc 2%nat = scalar X 2 0 gamma / (4 * PI)) by (destruct gamma as [|[|]]; [reflexivity|reflexivity|lia]).
  assert (HC : forall n, (n = 3 \/ n = 4)%nat -> sc n = scalar X n 0 gamma / (8 * PI)).
  { intros n Hn. destruct gamma as [|[|]]; [| |lia]; destruct Hn as [-> | ->]; reflexivity. }
  assert (HG : forall n, (n = 5 \/ n = 6)%nat -> sc n = scalar X n 0 gamma / (4 * PI)).
  { intros n Hn. destruct gamma as [|[|]]; [| |lia]; destruct Hn as [-> | ->]; reflexivity. }
  assert (HH : sc 7%nat = scalar X 7 0 gamma / (8 * PI)) by (destruct gamma as [|[|]]; [reflexivity|reflexivity|lia]).
  assert (HM : forall n, (n = 8 \/ n = 9 \/ n = 10)%nat -> sc n = scalar X n 0 gamma / (20 / 3 * PI)).
  { intros n Hn. destruct gamma as [|[|]]; [| |lia]; destruct Hn as [-> |[-> | ->]]; reflexivity. }
  unfold two_body. rewrite !HA, HB, !HC, !HG, HH, !HM by lia. clearbody sc. clear HA HB HC HG HH HM.
  repeat split; intros i j; unfold tA, tB, tC, trans; try (field; lra).
  - rewrite <- condense_scal. apply condense_ext2. intros k l. unfold tG, dev, trans. field. lra.
  - rewrite <- condense_scal. apply condense_ext2. intros k l. unfold tH. field. lra.
  - rewrite <- condense_scal. apply condense_ext2. intros k l. rewrite <- condense_scal. apply condense_ext2. intros m n.
    unfold tM, dev, trans. field. lra.
Qed.
Print Assumptions C43_scales.

(** A coupled pair. *)
Definition C43_x : nat -> R := fun n => nth n
  [2; 1; 1; 2;  2; 0; 0; 2;  1; 0; 0; 1;  2; 1; 1; 2;  2; 0; 0; 2;
   3; 0; 0; -3;  1; 0; 0; -1;  1; 0; 0; 1;  1; 0; 0; 1;  1; 0; 0; 1;  1; 0; 0; 1] 0.
Definition C43_inv (A : mat) : mat :=
  if Req_EM_T (A 0%nat 2%nat) 0 then of_rows [[2 / 3; - (1 / 3)]; [- (1 / 3); 2 / 3]]
  else of_rows [[2 / 3; 0; - (1 / 3); 0]; [0; 2 / 3; 0; - (1 / 3)]; [- (1 / 3); 0; 2 / 3; 0]; [0; - (1 / 3); 0; 2 / 3]].
Lemma C43_inv_xa : C43_inv (m_xa C43_x) = of_rows [[2 / 3; - (1 / 3)]; [- (1 / 3); 2 / 3]].
Proof. unfold C43_inv, m_xa, of_rows. cbn [nth]. destruct (Req_EM_T 0 0); [reflexivity|congruence]. Qed.
Lemma C43_inv_xc : C43_inv (m_xc C43_x) = of_rows [[2 / 3; - (1 / 3)]; [- (1 / 3); 2 / 3]].
Proof. unfold C43_inv, m_xc, of_rows. cbn [nth]. destruct (Req_EM_T 0 0); [reflexivity|congruence]. Qed.
Lemma C43_inv_y : C43_inv (m_yabc C43_x)
  = of_rows [[2 / 3; 0; - (1 / 3); 0]; [0; 2 / 3; 0; - (1 / 3)]; [- (1 / 3); 0; 2 / 3; 0]; [0; - (1 / 3); 0; 2 / 3]].
Proof. unfold C43_inv, m_yabc, of_rows. cbn [nth]. unfold C43_x. cbn [nth]. destruct (Req_EM_T 1 0); [lra|reflexivity]. Qed.
Example C43_example :
  C43_x 2%nat = C43_x 1%nat /\ C43_x 6%nat = C43_x 5%nat /\ C43_x 18%nat = C43_x 17%nat /\
  is_inv 2 (m_xa C43_x) (C43_inv (m_xa C43_x)) /\ is_inv 2 (m_xc C43_x) (C43_inv (m_xc C43_x)) /\
  is_inv 4 (m_yabc C43_x) (C43_inv (m_yabc C43_x)) /\
  convert_dim_kim_mobility_to_dim_resistance C43_inv C43_x 20%nat = 2 /\
  convert_dim_kim_mobility_to_dim_resistance C43_inv C43_x 21%nat = -1 /\
  convert_dim_kim_mobility_to_dim_resistance C43_inv C43_x 8%nat = - (1 / 3).
Proof.
  split; [reflexivity|]. split; [reflexivity|]. split; [reflexivity|].
  split; [|split; [|split; [|split; [|split]]]].
  - rewrite C43_inv_xa. intros i j Hi Hj. destruct i as [|[|i]]; try lia; destruct j as [|[|j]]; try lia;
      split; unfold mmul, m_xa, of_rows, delta, C43_x; cbn [rsum nth Nat.eqb]; field.
  - rewrite C43_inv_xc. intros i j Hi Hj. destruct i as [|[|i]]; try lia; destruct j as [|[|j]]; try lia;
      split; unfold mmul, m_xc, of_rows, delta, C43_x; cbn [rsum nth Nat.eqb]; field.
  - rewrite C43_inv_y. intros i j Hi Hj. do 4 (destruct i as [|i]; [do 4 (destruct j as [|j]; [
      split; unfold mmul, m_yabc, of_rows, delta, C43_x; cbn [rsum nth Nat.eqb]; field|]); lia|]); lia.
  - transitivity (0 + C43_x 20%nat * C43_inv (m_xa C43_x) 0%nat 0%nat + C43_x 21%nat * C43_inv (m_xa C43_x) 1%nat 0%nat); [reflexivity|].
    rewrite C43_inv_xa. unfold of_rows, C43_x. cbn [nth]. field.
  - transitivity (0 + C43_x 20%nat * C43_inv (m_xa C43_x) 0%nat 1%nat + C43_x 21%nat * C43_inv (m_xa C43_x) 1%nat 1%nat); [reflexivity|].
    rewrite C43_inv_xa. unfold of_rows, C43_x. cbn [nth]. field.
  - transitivity (C43_inv (m_yabc C43_x) 0%nat 2%nat); [reflexivity|]. rewrite C43_inv_y. reflexivity.
Qed.
