(** Configurations in a plane. *)
From Coq Require Import Reals Arith Bool List Lia Lra FunctionalExtensionality.
From Verif Require Import Base Model_Pack Model_Mob Model_Layout Model_Minf
  Spec_Layout Spec_Minf Spec_Rotate Proof_Layout
  Proof_Rotate1 Proof_Rotate2 Proof_Rotate3 Proof_Rotate4 Proof_Rotate5 Proof_Rotate8.
Import ListNotations.
Local Open Scope R_scope.

Lemma mirror_orthogonal : orthogonal mirror_z.
Proof. intros i j Hi Hj. split; unfold mmul, mtr, mirror_z, delta, rsum; idx3 Hi; idx3 Hj; cbn [Nat.eqb]; ring. Qed.
Lemma mirror_det : det3 mirror_z = -1. Proof. unfold det3, mirror_z. ring. Qed.
Lemma mirror_fix x y : rot mirror_z (v3 x y 0) = v3 x y 0.
Proof.
  apply functional_extensionality. intros [|[|[|i]]]; unfold rot, mvec, rsum, mirror_z, v3; try ring.
Qed.
Lemma planar_fixed p : planar_configuration p -> turned mirror_z p = p.
Proof.
  intros (A & B & C). destruct p as [Ns Nd ss sp ds dp dx]. unfold turned. cbn [num_spheres num_dumbbells sphere_sizes sphere_positions dumbbell_sizes dumbbell_positions dumbbell_deltax] in *.
  f_equal; apply functional_extensionality; intros i.
  - destruct (A i) as (x & y & ->). apply mirror_fix.
  - destruct (B i) as (x & y & ->). apply mirror_fix.
  - destruct (C i) as (x & y & ->). apply mirror_fix.
Qed.

Definition sgn5 (m : nat) : R := if Nat.ltb m 3 then 1 else -1.
Lemma rot5_mirror c m : (m < 5)%nat -> rot5 mirror_z c m = sgn5 m * c m.
Proof.
  intros Hm. unfold rot5.
  transitivity (condense_idx (tensor_of (fun m => sgn5 m * c m)) m); [|apply (condense_tensor (fun m => sgn5 m * c m)); assumption].
  unfold condense_idx. apply rsum_ext. intros k Hk. apply rsum_ext. intros l Hl. f_equal.
  idx3 Hk; idx3 Hl; unfold rot2, mirror_z, tensor_of, get2, uncondense1, sgn5, rsum; cbn [nth Nat.ltb Nat.leb]; unfold Rdiv; ring.
Qed.
(** Sign of a component under the reflection. *)
Definition ksgn (k : kind) (i : nat) : R :=
  match k with
  | KU | KB => if Nat.ltb i 2 then 1 else -1
  | KO => if Nat.ltb i 2 then -1 else 1
  | KS => sgn5 i
  end.
Lemma turn_mirror Ns Nd k p v i : kvalid Ns Nd k p -> (i < ksize k)%nat ->
  turn_vec mirror_z Ns v (kstart Ns k p + i)%nat = ksgn k i * v (kstart Ns k p + i)%nat.
Proof.
  intros V Hi. rewrite (turn_at mirror_z Ns Nd) by assumption. destruct k; cbn [ksize] in *.
  - cbn [tmat ksgn]. unfold rsum, mirror_z. idx3 Hi; cbn [Nat.ltb Nat.leb]; ring.
  - cbn [tmat ksgn]. unfold mscal. rewrite mirror_det. unfold rsum, mirror_z. idx3 Hi; cbn [Nat.ltb Nat.leb]; ring.
  - cbn [tmat]. rewrite <- (rot5_lin mirror_z (fun a => v (kstart Ns KS p + a)%nat)). rewrite rot5_mirror by assumption. reflexivity.
  - cbn [tmat ksgn]. unfold rsum, mirror_z. idx3 Hi; cbn [Nat.ltb Nat.leb]; ring.
Qed.
Lemma planar_iff Ns Nd v : planar_vec Ns Nd v <->
  forall k p i, kvalid Ns Nd k p -> (i < ksize k)%nat -> turn_vec mirror_z Ns v (kstart Ns k p + i)%nat = v (kstart Ns k p + i)%nat.
Proof.
  split.
  - intros [A B] k p i V Hi. rewrite (turn_mirror Ns Nd) by assumption.
    destruct k; cbn [kvalid ksize kstart ksgn] in *.
    + destruct (A p V) as (A1 & _). idx3 Hi; unfold ksgn; cbn [Nat.ltb Nat.leb]; rewrite ?A1; ring.
    + destruct (A p V) as (_ & A1 & A2 & _). rewrite <- (Nat.add_0_r (3 * Ns + 3 * p)) in A1.
      idx3 Hi; cbn [Nat.ltb Nat.leb]; rewrite ?A1, ?A2; ring.
    + destruct (A p V) as (_ & _ & _ & A1 & A2). unfold sgn5.
      destruct i as [|[|[|[|[|i]]]]]; try lia; cbn [Nat.ltb Nat.leb]; rewrite ?A1, ?A2; ring.
    + pose proof (B (p - Ns)%nat ltac:(lia)) as B1. idx3 Hi; cbn [Nat.ltb Nat.leb]; rewrite ?B1; ring.
  - intros H. split.
    + intros p Hp. repeat split.
      * pose proof (H KU p 2%nat Hp ltac:(cbn; lia)) as E. rewrite (turn_mirror Ns Nd) in E by (cbn; lia). cbn [ksgn kstart Nat.ltb Nat.leb] in E. lra.
      * pose proof (H KO p 0%nat Hp ltac:(cbn; lia)) as E. rewrite (turn_mirror Ns Nd) in E by (cbn; lia). cbn [ksgn kstart Nat.ltb Nat.leb] in E. rewrite Nat.add_0_r in E. lra.
      * pose proof (H KO p 1%nat Hp ltac:(cbn; lia)) as E. rewrite (turn_mirror Ns Nd) in E by (cbn; lia). cbn [ksgn kstart Nat.ltb Nat.leb] in E. lra.
      * pose proof (H KS p 3%nat Hp ltac:(cbn; lia)) as E. rewrite (turn_mirror Ns Nd) in E by (cbn; lia). cbn [ksgn kstart sgn5 Nat.ltb Nat.leb] in E. lra.
      * pose proof (H KS p 4%nat Hp ltac:(cbn; lia)) as E. rewrite (turn_mirror Ns Nd) in E by (cbn; lia). cbn [ksgn kstart sgn5 Nat.ltb Nat.leb] in E. lra.
    + intros d Hd. assert (V : kvalid Ns Nd KB (Ns + d)) by (cbn; lia). pose proof (H KB (Ns + d)%nat 2%nat V ltac:(cbn; lia)) as E.
      rewrite (turn_mirror Ns Nd) in E by (assumption || (cbn; lia)). cbn [ksgn kstart Nat.ltb Nat.leb] in E.
      replace (Ns + d - Ns)%nat with d in E by lia. lra.
Qed.
Lemma planar_preserved Ns Nd M v : commutes mirror_z Ns Nd M M -> planar_vec Ns Nd v -> planar_vec Ns Nd (mvec (11 * Ns + 6 * Nd) M v).
Proof.
  intros H Hv. apply planar_iff. intros k p i V Hi.
  assert (R0 : (kstart Ns k p + i < 11 * Ns + 6 * Nd)%nat) by (apply block_range; assumption).
  rewrite <- H by exact R0. unfold mvec. apply rsum_ext. intros t Ht. f_equal.
  destruct (block_cover Ns Nd t Ht) as (k' & p' & i' & V' & Hi' & ->). apply (proj1 (planar_iff Ns Nd v) Hv); assumption.
Qed.
