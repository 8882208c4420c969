(** Folds of block writes: an entry touched by exactly one step has the value
    written by that step. *)
From Coq Require Import Reals Lia List Arith Bool.
From Verif Require Import Base.
Import ListNotations.
Local Open Scope R_scope.

Section Folds.
Context {A : Type} (step : mat -> A -> mat).

Lemma fold_none l M i j :
  (forall a M, In a l -> step M a i j = M i j) -> fold_left step l M i j = M i j.
Proof.
  revert M. induction l as [|a l IH]; intros M H; simpl; [reflexivity|].
  rewrite IH by (intros; apply H; right; assumption). apply H. left; reflexivity.
Qed.

Lemma fold_last l M i j v a0 :
  (forall a b : A, {a = b} + {a <> b}) ->
  In a0 l -> (forall M, step M a0 i j = v) ->
  (forall a M, In a l -> a <> a0 -> step M a i j = M i j) ->
  fold_left step l M i j = v.
Proof.
  intros dec Hin Hv Hother. revert M Hin.
  induction l as [|a l IH]; intros M Hin; [destruct Hin|]. simpl.
  destruct (in_dec dec a0 l) as [Hl|Hl].
  - apply IH; [|exact Hl]. intros b M' Hb; apply Hother; right; exact Hb.
  - destruct Hin as [->|Hin]; [|contradiction].
    rewrite fold_none; [apply Hv|].
    intros b M' Hb. apply Hother; [right; exact Hb|]. intros ->. contradiction.
Qed.

(** Two runs that agree on the values each step writes agree at [i j]. *)
Lemma fold_rel {B : Type} (step' : mat -> B -> mat) (P : mat -> mat -> Prop) (f : A -> B) l M M' :
  P M M' -> (forall a X Y, In a l -> P X Y -> P (step X a) (step' Y (f a))) ->
  P (fold_left step l M) (fold_left step' (map f l) M').
Proof.
  revert M M'. induction l as [|a l IH]; intros M M' HP H; simpl; [exact HP|].
  apply IH; [apply H; [left; reflexivity|exact HP]|].
  intros b X Y Hb. apply H. right; exact Hb.
Qed.

Lemma fold_inv (P : mat -> Prop) l M :
  P M -> (forall a X, In a l -> P X -> P (step X a)) -> P (fold_left step l M).
Proof.
  revert M. induction l as [|a l IH]; intros M HP H; simpl; [exact HP|].
  apply IH; [apply H; [left; reflexivity|exact HP]|].
  intros b X Hb. apply H. right; exact Hb.
Qed.
End Folds.

Definition natpair_dec : forall a b : nat * nat, {a = b} + {a <> b}.
Proof. decide equality; apply Nat.eq_dec. Defined.
