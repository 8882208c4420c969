(** Inverse of diagonal matrices, used by the concrete examples. *)
From Coq Require Import Reals Lra Lia Arith Bool.
From Verif Require Import Base Py Spec_Convert.
Local Open Scope R_scope.

Definition dinv (n : nat) (A : mat) : mat := fun i j => if Nat.eqb i j then / A i i else 0.

Lemma dinv_ok n A :
  (forall i j, (i < n)%nat -> (j < n)%nat -> i <> j -> A i j = 0) ->
  (forall i, (i < n)%nat -> A i i <> 0) ->
  inv_ok dinv n A.
Proof.
  intros H0 H1 i j Hi Hj. unfold mmul, dinv. split.
  - rewrite (rsum_single n j); [|exact Hj|].
    + rewrite Nat.eqb_refl. unfold delta. destruct (Nat.eqb_spec i j) as [->|Hne].
      * field. apply H1; assumption.
      * rewrite (H0 i j) by assumption. ring.
    + intros k Hk Hkj. apply Nat.eqb_neq in Hkj. rewrite Hkj. ring.
  - rewrite (rsum_single n i); [|exact Hi|].
    + rewrite Nat.eqb_refl. unfold delta. destruct (Nat.eqb_spec i j) as [->|Hne].
      * field. apply H1; lia.
      * rewrite (H0 i j) by assumption. ring.
    + intros k Hk Hki. assert (E : Nat.eqb i k = false) by (apply Nat.eqb_neq; congruence).
      rewrite E. ring.
Qed.
