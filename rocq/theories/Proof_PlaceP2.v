From Coq Require Import Reals List Arith ZArith Bool Lia Lra.
From Verif Require Import Base Py Model_Mob Model_Close Model_Place Model_PlaceP Spec_Place Spec_PlaceP Proof_Place Proof_Periodic2 Proof_PlaceP.
Import ListNotations.
Local Open Scope R_scope.

Section Q.
Variables lo hi : vec.
Notation image := (image lo hi).
Notation W i := (hi i - lo i).

Lemma wrap_int p : exists m k n, forall i, (i < 3)%nat -> wrap lo hi p i = p i - v3 (IZR m * W 0%nat) (IZR k * 1000000) (IZR n * W 2%nat) i.
Proof.
  exists (Int_part ((p 0%nat - lo 0%nat) / W 0%nat)), (Int_part ((p 1%nat - lo 1%nat) / 1000000)), (Int_part ((p 2%nat - lo 2%nat) / W 2%nat)).
  intros i Hi. unfold wrap, rmod, Dbox, vsub. idx3 Hi; cbn [v3]; ring.
Qed.
Lemma wrap_range p : 0 < W 0%nat -> 0 < W 2%nat ->
  (lo 0%nat <= wrap lo hi p 0%nat < hi 0%nat) /\ (lo 1%nat <= wrap lo hi p 1%nat < lo 1%nat + 1000000) /\ (lo 2%nat <= wrap lo hi p 2%nat < hi 2%nat).
Proof.
  intros A B. unfold wrap, Dbox, vsub. cbn [v3].
  pose proof (rmod_range (p 0%nat - lo 0%nat) (W 0%nat) A). pose proof (rmod_range (p 1%nat - lo 1%nat) 1000000 ltac:(lra)).
  pose proof (rmod_range (p 2%nat - lo 2%nat) (W 2%nat) B). lra.
Qed.

Lemma far w e x (m : Z) : 0 < w -> 0 <= e -> Rabs x <= w + 2 * e -> (m < -1 \/ 1 < m)%Z -> w - 2 * e <= Rabs (x - IZR m * w).
Proof.
  intros Hw He Hx Hm.
  assert (A : - (w + 2 * e) <= x <= w + 2 * e) by (split; [|]; unfold Rabs in Hx; destruct (Rcase_abs x); lra).
  destruct Hm as [Hm|Hm].
  - assert (B : (m <= -2)%Z) by lia. apply IZR_le in B. apply Rle_trans with (2 := Rle_abs _). nra.
  - assert (B : (2 <= m)%Z) by lia. apply IZR_le in B. rewrite <- Rabs_Ropp. apply Rle_trans with (2 := Rle_abs _). nra.
Qed.
Lemma apart_all e r p r' q : 0 < W 0%nat -> 0 < W 2%nat -> 0 <= e ->
  r + r' + 2 * e <= W 0%nat -> r + r' + 2 * e <= W 2%nat ->
  Rabs (p 0%nat - q 0%nat) <= W 0%nat + 2 * e -> Rabs (p 2%nat - q 2%nat) <= W 2%nat + 2 * e ->
  (forall m n, (-1 <= m <= 1)%Z -> (-1 <= n <= 1)%Z -> apart r p r' (image q m n)) ->
  forall m n, apart r p r' (image q m n).
Proof.
  intros A B He E0 E2 X0 X2 F m n.
  destruct (Z_le_dec (-1) m) as [M1|M1], (Z_le_dec m 1) as [M2|M2], (Z_le_dec (-1) n) as [N1|N1], (Z_le_dec n 1) as [N2|N2];
    try (apply F; lia); unfold apart.
  all: try (apply Rle_trans with (W 0%nat - 2 * e); [lra|]; apply (dist_ge _ _ 0%nat); [lia|]; unfold Spec_PlaceP.image; cbn [v3];
    replace (p 0%nat - (q 0%nat + IZR m * W 0%nat)) with (p 0%nat - q 0%nat - IZR m * W 0%nat) by ring; apply far; try assumption; lia).
  all: apply Rle_trans with (W 2%nat - 2 * e); [lra|]; apply (dist_ge _ _ 2%nat); [lia|]; unfold Spec_PlaceP.image; cbn [v3];
    replace (p 2%nat - (q 2%nat + IZR n * W 2%nat)) with (p 2%nat - q 2%nat - IZR n * W 2%nat) by ring; apply far; try assumption; lia.
Qed.
Lemma apart_image_sym r p r' q m n : apart r p r' (image q m n) <-> apart r' q r (image p (- m) (- n)).
Proof.
  unfold apart. replace (dist3 q (image p (- m) (- n))) with (dist3 p (image q m n)); [lra|].
  unfold dist3, Spec_PlaceP.image. cbn [v3]. rewrite !opp_IZR. f_equal. ring.
Qed.
Lemma direction_le t f i : (i < 3)%nat -> Rabs (direction t f i) <= 1.
Proof.
  intros Hi. pose proof (direction_unit t f) as U.
  assert (S : direction t f i * direction t f i <= 1).
  { unfold direction. set (a := sin t * cos f) in *. set (b := sin t * sin f) in *. set (c := cos t) in *. clearbody a b c. idx3 Hi; cbn [v3]; nra. }
  unfold Rabs. destruct (Rcase_abs _); nra.
Qed.
End Q.
