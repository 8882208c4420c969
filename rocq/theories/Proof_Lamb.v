(** The 44 mobility scalars are read out of Lamb's solution. *)
From Coq Require Import Reals List ZArith Arith Bool Lra Lia.
From Verif Require Import Base Model_Mob Model_Scalars Spec_Scalars Model_Lamb.
Import ListNotations.
Local Open Scope R_scope.

Definition e_x : vec := v3 1 0 0.

Lemma sqrt2_nz : sqrt 2 <> 0.
Proof. pose proof (sqrt_lt_R0 2 ltac:(lra)). lra. Qed.
Lemma sqrt3_pos : 0 < sqrt 3.
Proof. apply sqrt_lt_R0. lra. Qed.

(** The numbers in the new order. *)
Definition new_order (U O : nat -> vec) (S : nat -> mat) : list R :=
  let rp := 5 / 10 * (1 + sqrt 3) in
  let rm := 5 / 10 * (- (1) + sqrt 3) in
  let c p := [rp * S p 0%nat 0%nat + rm * S p 1%nat 1%nat; sqrt 2 * S p 0%nat 1%nat; rm * S p 0%nat 0%nat + rp * S p 1%nat 1%nat;
              sqrt 2 * S p 0%nat 2%nat; sqrt 2 * S p 1%nat 2%nat] in
  [U 0 0; U 0 1; U 0 2; U 1 0; U 1 1; U 1 2; O 0 0; O 0 1; O 0 2; O 1 0; O 1 1; O 1 2]%nat ++ c 0%nat ++ c 1%nat.

Lemma written_spec out U O S k : (forall j, (j < 22)%nat -> out j = short_output U O S j) -> (k < 22)%nat ->
  written out k = nth k (new_order U O S) 0.
Proof.
  intros H Hk. unfold written.
  rewrite (rsum_ext 22 _ (fun j => reorder k j * short_output U O S j)) by (intros j Hj; rewrite H by exact Hj; reflexivity).
  unfold reorder, of_rows, short_output, new_order. cbv zeta.
  do 22 (destruct k as [|k]; [cbn [rsum nth flat_map app]; ring|]). lia.
Qed.

Section Read.
Variables (lamb : case -> nat -> R) (x : nat -> R) (U O : case -> nat -> vec) (S : case -> nat -> mat).
Hypothesis out : forall c k, In c cases -> (k < 22)%nat -> lamb c k = short_output (U c) (O c) (S c) k.
Hypothesis law : forall c, In c cases -> mobility_law x e_x (U c) (O c) (Ff c) (Tt c) (Ee c) (S c).

Lemma read_entry i k : (i < 14)%nat -> (k < 22)%nat -> reordered lamb i k = nth k (new_order (U (nth i cases F11)) (O (nth i cases F11)) (S (nth i cases F11))) 0.
Proof.
  intros Hi Hk. unfold reordered. apply written_spec; [|exact Hk].
  intros j Hj. apply out; [apply nth_In; exact Hi|exact Hj].
Qed.
Lemma law_U c p i : In c cases -> (p < 2)%nat -> (i < 3)%nat -> U c p i = rsum 2 (fun q => rsum 3 (fun j => tA x e_x p q i j * Ff c q j) + rsum 3 (fun j => tB x e_x q p j i * Tt c q j)
                              - rsum 3 (fun j => rsum 3 (fun k => tG x e_x q p j k i * Ee c q j k))).
Proof. intros Hc Hp Hi. exact (proj1 (law c Hc) p i Hp Hi). Qed.
Lemma law_O c p i : In c cases -> (p < 2)%nat -> (i < 3)%nat -> O c p i = rsum 2 (fun q => rsum 3 (fun j => tB x e_x p q i j * Ff c q j) + rsum 3 (fun j => tC x e_x p q i j * Tt c q j)
                              - rsum 3 (fun j => rsum 3 (fun k => tH x e_x q p j k i * Ee c q j k))).
Proof. intros Hc Hp Hi. exact (proj1 (proj2 (law c Hc)) p i Hp Hi). Qed.
Lemma law_S c p i j : In c cases -> (p < 2)%nat -> (i < 3)%nat -> (j < 3)%nat -> S c p i j = rsum 2 (fun q => rsum 3 (fun k => tG x e_x p q i j k * Ff c q k) + rsum 3 (fun k => tH x e_x p q i j k * Tt c q k)
                                + rsum 3 (fun k => rsum 3 (fun l => tM x e_x p q i j k l * Ee c q k l))).
Proof. intros Hc Hp Hi Hj. exact (proj2 (proj2 (law c Hc)) p i j Hp Hi Hj). Qed.

Ltac inc := unfold cases; cbn [In]; tauto.
Ltac one := 
  rewrite read_entry by lia; cbn [nth cases new_order app]; cbv zeta;
  rewrite ?law_U, ?law_O, ?law_S by (first [inc|lia]);
  unfold tA, tB, tC, tG, tH, tM, scalar, e_x, delta, levi, put, put3, no2, no3;
  cbn [rsum v3 Nat.eqb Nat.mul Nat.add Nat.ltb Nat.leb andb orb Ff Tt Ee]; unfold put, put3, no2, no3; cbn [Nat.eqb andb];
  pose proof sqrt2_nz; pose proof sqrt3_pos; field; try lra.
Lemma read_all n : (n < 44)%nat -> find_dim_kim_mobility_scalars lamb n = x n.
Proof.
  intros Hn. unfold find_dim_kim_mobility_scalars. cbv zeta.
  do 44 (destruct n as [|n]; [cbn [nth]; one|]). lia.
Qed.
End Read.
