(** With the coefficient 748 in place of 728 the stresslets are regular. *)
From Coq Require Import Reals List Arith Lra Lia.
From Verif Require Import Base Model_Mob Model_Nearfield Spec_Scalars Spec_Nearfield Proof_Nearfield3 Proof_Nearfield4.
Import ListNotations.
Local Open Scope R_scope.

(** The change of G6ym: from 728 to 748. *)
Definition dG6 (lam : R) : R := - (3 / 2500 * lam * (20 * lam + 20 * lam ^ 3) / (1 + lam) ^ 3).

Section Pair.
Variables (c : R -> R) (zeta : R -> R -> R) (a b : R) (d V w x0 : vec) (E : mat).
Hypotheses (Ha : 0 < a) (Hb : 0 < b) (HE : strain E).
Variables (F T : R -> nat -> vec) (S : R -> nat -> mat).
Notation corr := (fun xi lam => dG6 lam * (xi * ln (/ xi)) + c lam).
Notation r xi := (centre_distance a b xi).
Hypothesis H : forall xi, 0 < xi -> resistance_law (corrected_scalars corr zeta a b xi) d
    (fun p => linear_flow V w E (centre d (r xi) x0 p)) (fun _ => w) (F xi) (T xi) (fun _ => E) (S xi).
Notation s' xi := (scalar (corrected_scalars corr zeta a b xi)).
Notation s xi := (scalar (pair_scalars zeta a b xi)).

Lemma s_same xi n p q : (n < 11)%nat -> n <> 9%nat -> (p < 2)%nat -> (q < 2)%nat -> s' xi n p q = s xi n p q.
Proof.
  intros Hn N Hp Hq. destruct p as [|[|p]]; [| |lia]; (destruct q as [|[|q]]; [| |lia]);
  do 11 (destruct n as [|n]; [first [reflexivity|exfalso; apply N; reflexivity]|]); lia.
Qed.
Lemma s_nine p : (p < 2)%nat -> exists k, forall xi, 0 < xi -> s' xi 9%nat p p + s' xi 9%nat p (other p) =
  s xi 9%nat p p + s xi 9%nat p (other p) - residue a b * (xi * ln (/ xi)) + k.
Proof.
  intros Hp. destruct p as [|[|p]]; [| |lia].
  - exists (scalar_unit 9 a * c (b / a)). intros xi Hx.
    unfold scalar. cbn [other Nat.mul Nat.add corrected_scalars pair_scalars near scalar_unit odd_in_d Nat.div Nat.modulo Nat.divmod fst snd Nat.sub].
    cbv beta. change (near zeta (Nat.div 37 4) 1 xi (b / a)) with (Y12M xi (b / a)).
    unfold dG6, residue. field. split; [|lra]. lra.
  - exists (scalar_unit 9 b * c (a / b)). intros xi Hx.
    unfold scalar. cbn [other Nat.mul Nat.add corrected_scalars pair_scalars near scalar_unit odd_in_d Nat.div Nat.modulo Nat.divmod fst snd Nat.sub].
    cbv beta. unfold dG6, residue. field. split; [|lra]. lra.
Qed.
Lemma corrected_regular p i j : (p < 2)%nat -> (i < 3)%nat -> (j < 3)%nat -> regular (fun xi => S xi p i j).
Proof.
  intros Hp Hi Hj. destruct (s_nine p Hp) as [k Hk].
  assert (Ho : (other p < 2)%nat) by (destruct p as [|[|p]]; cbn; lia).
  apply (regular_ext _ (fun xi => (s xi 5%nat p p + s xi 5%nat p (other p)) * ((d i * d j - delta i j / 3) * dU d V w x0 E (r xi) p)
    + (s xi 6%nat p p + s xi 6%nat p (other p)) * (d i * (flow_at d V w x0 E (r xi) p j - dU d V w x0 E (r xi) p * d j)
                                         + d j * (flow_at d V w x0 E (r xi) p i - dU d V w x0 E (r xi) p * d i))
    + (s xi 7%nat p p + s xi 7%nat p (other p) + toward p * (r xi * s xi 6%nat p (other p))) * (d i * cr d w j + d j * cr d w i)
    + (3 / 2 * s xi 8%nat p p + 3 / 2 * s xi 8%nat p (other p) + toward p * (r xi * s xi 5%nat p (other p))) * ((d i * d j - delta i j / 3) * dEd d E)
    + (s xi 9%nat p p + s xi 9%nat p (other p) + toward p * (r xi * s xi 6%nat p (other p)) - residue a b * (xi * ln (/ xi))) * (d i * shear d E j + d j * shear d E i)
    + (s xi 10%nat p p + s xi 10%nat p (other p)) * zpart d E i j + k * (d i * shear d E j + d j * shear d E i))).
  { intros xi Hx. rewrite (S_flow _ d V w x0 E (r xi) HE _ _ _ (H xi Hx) p i j Hp Hi Hj).
    rewrite (Hk xi Hx). rewrite !(s_same xi 5), !(s_same xi 6), !(s_same xi 7), !(s_same xi 8), !(s_same xi 10) by (assumption || lia). ring. }
  apply regular_plus.
  - repeat apply regular_plus; apply regular_prod;
    try (apply linear_mul_l, (lin_dU a b)); try (apply linear_plus; apply linear_mul_l, (lin_perp a b)); try apply linear_const;
    first [apply c_S_rot; assumption|apply c_S_x; assumption|apply c_S_y; assumption|apply c_same; [assumption..|cbn [In]; tauto]|idtac].
  - exists (k * (d i * shear d E j + d j * shear d E i)), 0, 0, 0, 0. intros xi Hx. ring.
Qed.
End Pair.
