(** How the pair functions turn. *)
From Coq Require Import Reals Arith Bool List Lia Lra.
From Verif Require Import Base Model_Pack Model_Mob Model_Layout Model_Minf Spec_Layout Spec_Minf Spec_Rotate.
Import ListNotations.
Local Open Scope R_scope.

Section Rotate.
Variable Q : mat.
Hypothesis HQ : orthogonal Q.
Let e := det3 Q.

Lemma rows_on i j : (i < 3)%nat -> (j < 3)%nat -> Q i 0%nat * Q j 0%nat + Q i 1%nat * Q j 1%nat + Q i 2%nat * Q j 2%nat = delta i j.
Proof. intros Hi Hj. destruct (HQ i j Hi Hj) as [H _]. unfold mmul, mtr, rsum in H. lra. Qed.
Lemma cols_on i j : (i < 3)%nat -> (j < 3)%nat -> Q 0%nat i * Q 0%nat j + Q 1%nat i * Q 1%nat j + Q 2%nat i * Q 2%nat j = delta i j.
Proof. intros Hi Hj. destruct (HQ i j Hi Hj) as [_ H]. unfold mmul, mtr, rsum in H. lra. Qed.

Lemma det_sq : e * e = 1.
Proof.
  pose proof (rows_on 0 0 ltac:(lia) ltac:(lia)) as A. pose proof (rows_on 1 1 ltac:(lia) ltac:(lia)) as B.
  pose proof (rows_on 2 2 ltac:(lia) ltac:(lia)) as C. pose proof (rows_on 0 1 ltac:(lia) ltac:(lia)) as D.
  pose proof (rows_on 0 2 ltac:(lia) ltac:(lia)) as E. pose proof (rows_on 1 2 ltac:(lia) ltac:(lia)) as F.
  unfold delta in *. simpl in *.
  transitivity
   ((Q 0%nat 0%nat * Q 0%nat 0%nat + Q 0%nat 1%nat * Q 0%nat 1%nat + Q 0%nat 2%nat * Q 0%nat 2%nat) *
    ((Q 1%nat 0%nat * Q 1%nat 0%nat + Q 1%nat 1%nat * Q 1%nat 1%nat + Q 1%nat 2%nat * Q 1%nat 2%nat) *
     (Q 2%nat 0%nat * Q 2%nat 0%nat + Q 2%nat 1%nat * Q 2%nat 1%nat + Q 2%nat 2%nat * Q 2%nat 2%nat)
     - (Q 1%nat 0%nat * Q 2%nat 0%nat + Q 1%nat 1%nat * Q 2%nat 1%nat + Q 1%nat 2%nat * Q 2%nat 2%nat) *
       (Q 1%nat 0%nat * Q 2%nat 0%nat + Q 1%nat 1%nat * Q 2%nat 1%nat + Q 1%nat 2%nat * Q 2%nat 2%nat))
    - (Q 0%nat 0%nat * Q 1%nat 0%nat + Q 0%nat 1%nat * Q 1%nat 1%nat + Q 0%nat 2%nat * Q 1%nat 2%nat) *
      ((Q 0%nat 0%nat * Q 1%nat 0%nat + Q 0%nat 1%nat * Q 1%nat 1%nat + Q 0%nat 2%nat * Q 1%nat 2%nat) *
       (Q 2%nat 0%nat * Q 2%nat 0%nat + Q 2%nat 1%nat * Q 2%nat 1%nat + Q 2%nat 2%nat * Q 2%nat 2%nat)
       - (Q 1%nat 0%nat * Q 2%nat 0%nat + Q 1%nat 1%nat * Q 2%nat 1%nat + Q 1%nat 2%nat * Q 2%nat 2%nat) *
         (Q 0%nat 0%nat * Q 2%nat 0%nat + Q 0%nat 1%nat * Q 2%nat 1%nat + Q 0%nat 2%nat * Q 2%nat 2%nat))
    + (Q 0%nat 0%nat * Q 2%nat 0%nat + Q 0%nat 1%nat * Q 2%nat 1%nat + Q 0%nat 2%nat * Q 2%nat 2%nat) *
      ((Q 0%nat 0%nat * Q 1%nat 0%nat + Q 0%nat 1%nat * Q 1%nat 1%nat + Q 0%nat 2%nat * Q 1%nat 2%nat) *
       (Q 1%nat 0%nat * Q 2%nat 0%nat + Q 1%nat 1%nat * Q 2%nat 1%nat + Q 1%nat 2%nat * Q 2%nat 2%nat)
       - (Q 1%nat 0%nat * Q 1%nat 0%nat + Q 1%nat 1%nat * Q 1%nat 1%nat + Q 1%nat 2%nat * Q 1%nat 2%nat) *
         (Q 0%nat 0%nat * Q 2%nat 0%nat + Q 0%nat 1%nat * Q 2%nat 1%nat + Q 0%nat 2%nat * Q 2%nat 2%nat))).
  - unfold e, det3. ring.
  - rewrite A, B, C, D, E, F. ring.
Qed.

(** Triple product of rows. *)
Lemma triple_rows i j k : (i < 3)%nat -> (j < 3)%nat -> (k < 3)%nat ->
  rsum 3 (fun c => Q k c * cross (Q i) (Q j) c) = e * levi i j k.
Proof.
  intros Hi Hj Hk. idx3 Hi; idx3 Hj; idx3 Hk; unfold e, det3, levi, cross, v3; simpl; ring.
Qed.

(** The components of a vector from those along the rows. *)
Lemma from_rows (v : vec) c : (c < 3)%nat -> v c = rsum 3 (fun l => Q l c * rsum 3 (fun d => Q l d * v d)).
Proof.
  intros Hc.
  pose proof (cols_on c 0 Hc ltac:(lia)) as A. pose proof (cols_on c 1 Hc ltac:(lia)) as B. pose proof (cols_on c 2 Hc ltac:(lia)) as C.
  simpl. transitivity ((Q 0%nat c * Q 0%nat 0%nat + Q 1%nat c * Q 1%nat 0%nat + Q 2%nat c * Q 2%nat 0%nat) * v 0%nat
    + (Q 0%nat c * Q 0%nat 1%nat + Q 1%nat c * Q 1%nat 1%nat + Q 2%nat c * Q 2%nat 1%nat) * v 1%nat
    + (Q 0%nat c * Q 0%nat 2%nat + Q 1%nat c * Q 1%nat 2%nat + Q 2%nat c * Q 2%nat 2%nat) * v 2%nat); [|ring].
  rewrite A, B, C. idx3 Hc; unfold delta; simpl; ring.
Qed.

Lemma rot_norm2 r : rot Q r 0%nat ^ 2 + rot Q r 1%nat ^ 2 + rot Q r 2%nat ^ 2 = r 0%nat ^ 2 + r 1%nat ^ 2 + r 2%nat ^ 2.
Proof.
  pose proof (cols_on 0 0 ltac:(lia) ltac:(lia)) as A. pose proof (cols_on 1 1 ltac:(lia) ltac:(lia)) as B.
  pose proof (cols_on 2 2 ltac:(lia) ltac:(lia)) as C. pose proof (cols_on 0 1 ltac:(lia) ltac:(lia)) as D.
  pose proof (cols_on 0 2 ltac:(lia) ltac:(lia)) as E. pose proof (cols_on 1 2 ltac:(lia) ltac:(lia)) as F.
  unfold delta in *. simpl in A, B, C, D, E, F.
  unfold rot, mvec, rsum.
  transitivity ((Q 0%nat 0%nat * Q 0%nat 0%nat + Q 1%nat 0%nat * Q 1%nat 0%nat + Q 2%nat 0%nat * Q 2%nat 0%nat) * r 0%nat ^ 2
   + (Q 0%nat 1%nat * Q 0%nat 1%nat + Q 1%nat 1%nat * Q 1%nat 1%nat + Q 2%nat 1%nat * Q 2%nat 1%nat) * r 1%nat ^ 2
   + (Q 0%nat 2%nat * Q 0%nat 2%nat + Q 1%nat 2%nat * Q 1%nat 2%nat + Q 2%nat 2%nat * Q 2%nat 2%nat) * r 2%nat ^ 2
   + 2 * (Q 0%nat 0%nat * Q 0%nat 1%nat + Q 1%nat 0%nat * Q 1%nat 1%nat + Q 2%nat 0%nat * Q 2%nat 1%nat) * r 0%nat * r 1%nat
   + 2 * (Q 0%nat 0%nat * Q 0%nat 2%nat + Q 1%nat 0%nat * Q 1%nat 2%nat + Q 2%nat 0%nat * Q 2%nat 2%nat) * r 0%nat * r 2%nat
   + 2 * (Q 0%nat 1%nat * Q 0%nat 2%nat + Q 1%nat 1%nat * Q 1%nat 2%nat + Q 2%nat 1%nat * Q 2%nat 2%nat) * r 1%nat * r 2%nat); [ring|].
  rewrite A, B, C, D, E, F. ring.
Qed.

Lemma rot_norm r : norm (rot Q r) = norm r.
Proof. unfold norm. rewrite rot_norm2. reflexivity. Qed.

Lemma rot_vsub x y i : rot Q (vsub x y) i = vsub (rot Q x) (rot Q y) i.
Proof. unfold rot, mvec, vsub, rsum. ring. Qed.
Lemma rot_vopp x i : rot Q (vopp x) i = vopp (rot Q x) i.
Proof. unfold rot, mvec, vopp, rsum. ring. Qed.
Lemma rot_vadd x y i : rot Q (vadd x y) i = vadd (rot Q x) (rot Q y) i.
Proof. unfold rot, mvec, vadd, rsum. ring. Qed.
Lemma rot_vscal c x i : rot Q (vscal c x) i = vscal c (rot Q x) i.
Proof. unfold rot, mvec, vscal, rsum. ring. Qed.

(** The tensor epsilon_ijl r_l *)
Definition eps (r : vec) (i j : nat) : R := rsum 3 (fun l => levi i j l * r l).
Lemma eps_rot r i j : (i < 3)%nat -> (j < 3)%nat -> eps (rot Q r) i j = e * rot2 Q (eps r) i j.
Proof.
  intros Hi Hj.
  assert (rot2 Q (eps r) i j = rsum 3 (fun c => r c * cross (Q i) (Q j) c)) as ->.
  { unfold rot2, eps, levi, cross, v3. simpl. ring. }
  assert (rsum 3 (fun c => r c * cross (Q i) (Q j) c)
          = rsum 3 (fun l => (e * levi i j l) * rot Q r l)) as ->.
  { rewrite (rsum_ext 3 (fun l => (e * levi i j l) * rot Q r l)
       (fun l => rsum 3 (fun c => Q l c * cross (Q i) (Q j) c) * rot Q r l))
      by (intros l Hl; rewrite triple_rows by assumption; reflexivity).
    pose proof (from_rows r 0 ltac:(lia)) as A. pose proof (from_rows r 1 ltac:(lia)) as B. pose proof (from_rows r 2 ltac:(lia)) as C.
    generalize (cross (Q i) (Q j)). intros w. simpl rsum at 1. rewrite A, B, C. unfold rot, mvec. simpl. ring. }
  unfold eps. rewrite <- rsum_scal_l. apply rsum_ext. intros l Hl.
  transitivity (e * e * (levi i j l * rot Q r l)); [rewrite det_sq|]; ring.
Qed.

Lemma delta_rows i j : (i < 3)%nat -> (j < 3)%nat -> delta i j = rsum 3 (fun a => Q i a * Q j a).
Proof. intros. rewrite <- rows_on by assumption. unfold rsum. ring. Qed.
End Rotate.
