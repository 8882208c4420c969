(** The coefficients of odd order are symmetric, for the families with three
    sequences. *)
From Coq Require Import Reals List Arith ZArith Bool Lra Lia.
From Verif Require Import Base Model_Nearfield Proof_Nearfield1 Proof_Nearfield2 Proof_Nearfield5 Proof_Nearfield6 Proof_Nearfield7.
Import ListNotations.
Local Open Scope R_scope.
Section YRev.
Variable n0 : nat.
Hypothesis Hn0 : (1 <= n0)%nat.
Ltac cases3 c := destruct c as [|[|[|c]]].

Lemma Y_reversal p q : Z.odd (p + q) = true -> PY (kron n0) (fun _ => 0) n0 p q = PY (kron n0) (fun _ => 0) n0 (q - 1)%Z (p + 1)%Z.
Proof.
  intros Ho. 
  assert (E := family_reversal 3 rY tY eY rY_sym eY_sym tY_sym eY_odd eY_pos (yY (kron n0) (fun _ => 0)) n0 0 ((gY (INR n0) / INR n0 / rY n0 0 0)) (Z.of_nat n0 - 1)%Z Hn0 ltac:(lia)
    (yY_zero (kron n0) (fun _ => 0))).
  assert (E1 : forall n c p q, (1 <= n)%nat -> (c < 3)%nat -> yY (kron n0) (fun _ => 0) n c p q =
    (if Nat.eqb n n0 then (gY (INR n0) / INR n0 / rY n0 0 0) * (rY n c 0 * (at_ (p + (Z.of_nat n0 - 1) =? eY n c 0)%Z * at_ (q =? 0)%Z)) else 0)
    + lsum (fun a => rY n c a * lsum (fun s => lsum (fun b => tY n a s b * yY (kron n0) (fun _ => 0) s b q (p - eY n c a)%Z) (seq 0 3)) (range 1 (q + 1))) (seq 0 3)).
  { clear E p q Ho. intros n c p q Hn Hc. rewrite yY_sum by assumption. f_equal. pos_n n.
    cases3 c; [..|lia]; cbn [srcY]; unfold origin, kron, eY; rewrite ?(Nat.eqb_sym n0 n);
      (destruct (Nat.eqb_spec n n0) as [En|En]; [subst n|]);
      repeat match goal with |- context [(?a =? ?b)%Z] => destruct (Z.eqb_spec a b); try lia end;
      cbn [andb at_ rY]; unfold gY, hY; cbn [INR] in *; try ring; try (field; repeat split; first [lra|nra]). }
  specialize (E E1 (p + Z.of_nat n0)%Z q). cbn [yY] in E.
  replace (p + Z.of_nat n0 - Z.of_nat n0)%Z with p in E by lia.
  replace (q + (Z.of_nat n0 - 1) - Z.of_nat n0)%Z with (q - 1)%Z in E by lia.
  replace (p + Z.of_nat n0 - (Z.of_nat n0 - 1))%Z with (p + 1)%Z in E by lia.
  pos_n n0. apply (Rmult_eq_reg_l (gY (INR n0) / INR n0)); [apply E|unfold gY; replace (INR n0 * (INR n0 + 1) / INR n0) with (INR n0 + 1) by (field; lra); lra].
  replace (p + Z.of_nat n0 + q + (Z.of_nat n0 - 1))%Z with (p + q + 2 * (Z.of_nat n0) - 1)%Z by lia.
  rewrite Z.odd_sub, Z.odd_add, Z.odd_mul, Ho. reflexivity.
Qed.

Lemma YQ_reversal p q : Z.odd (p + q) = true -> QY (fun _ => 0) (kron n0) n0 p q = QY (fun _ => 0) (kron n0) n0 (q - 1)%Z (p + 1)%Z.
Proof.
  intros Ho. 
  assert (E := family_reversal 3 rY tY eY rY_sym eY_sym tY_sym eY_odd eY_pos (yY (fun _ => 0) (kron n0)) n0 2 ((gY (INR n0) / rY n0 2 2)) (Z.of_nat n0)%Z Hn0 ltac:(lia)
    (yY_zero (fun _ => 0) (kron n0))).
  assert (E1 : forall n c p q, (1 <= n)%nat -> (c < 3)%nat -> yY (fun _ => 0) (kron n0) n c p q =
    (if Nat.eqb n n0 then (gY (INR n0) / rY n0 2 2) * (rY n c 2 * (at_ (p + (Z.of_nat n0) =? eY n c 2)%Z * at_ (q =? 0)%Z)) else 0)
    + lsum (fun a => rY n c a * lsum (fun s => lsum (fun b => tY n a s b * yY (fun _ => 0) (kron n0) s b q (p - eY n c a)%Z) (seq 0 3)) (range 1 (q + 1))) (seq 0 3)).
  { clear E p q Ho. intros n c p q Hn Hc. rewrite yY_sum by assumption. f_equal. pos_n n.
    cases3 c; [..|lia]; cbn [srcY]; unfold origin, kron, eY; rewrite ?(Nat.eqb_sym n0 n);
      (destruct (Nat.eqb_spec n n0) as [En|En]; [subst n|]);
      repeat match goal with |- context [(?a =? ?b)%Z] => destruct (Z.eqb_spec a b); try lia end;
      cbn [andb at_ rY]; unfold gY, hY; cbn [INR] in *; try ring; try (field; repeat split; first [lra|nra]). }
  specialize (E E1 (p + (Z.of_nat n0 + 1))%Z q). cbn [yY] in E.
  replace (p + (Z.of_nat n0 + 1) - Z.of_nat n0 - 1)%Z with p in E by lia.
  replace (q + Z.of_nat n0 - Z.of_nat n0 - 1)%Z with (q - 1)%Z in E by lia.
  replace (p + (Z.of_nat n0 + 1) - Z.of_nat n0)%Z with (p + 1)%Z in E by lia.
  pos_n n0. apply (Rmult_eq_reg_l (gY (INR n0))); [apply E|unfold gY; apply Rmult_integral_contrapositive_currified; lra].
  replace (p + (Z.of_nat n0 + 1) + q + Z.of_nat n0)%Z with (p + q + 2 * (Z.of_nat n0) + 1)%Z by lia.
  rewrite Z.odd_add, Z.odd_add, Z.odd_mul, Ho. reflexivity.
Qed.
End YRev.
Section ZRev.
Ltac cases3 c := destruct c as [|[|[|c]]].

Lemma Z_reversal p q : Z.odd (p + q) = true -> PZM 2 p q = PZM 2 (q - 1)%Z (p + 1)%Z.
Proof.
  intros Ho. assert (Hn0 : (1 <= 2)%nat) by lia.
  assert (E := family_reversal 3 rZ tZ eZ rZ_sym eZ_sym tZ_sym eZ_odd eZ_pos (yZ) 2 0 ((gZ 2 / 2 / rZ 2 0 0)) (1)%Z Hn0 ltac:(lia)
    (yZ_zero)).
  assert (E1 : forall n c p q, (1 <= n)%nat -> (c < 3)%nat -> yZ n c p q =
    (if Nat.eqb n 2 then (gZ 2 / 2 / rZ 2 0 0) * (rZ n c 0 * (at_ (p + (1) =? eZ n c 0)%Z * at_ (q =? 0)%Z)) else 0)
    + lsum (fun a => rZ n c a * lsum (fun s => lsum (fun b => tZ n a s b * yZ s b q (p - eZ n c a)%Z) (seq 0 3)) (range 1 (q + 1))) (seq 0 3)).
  { clear E p q Ho. intros n c p q Hn Hc. rewrite yZ_sum by assumption. f_equal. pos_n n.
    cases3 c; [..|lia]; cbn [srcZ]; unfold origin, kron, eZ; rewrite ?(Nat.eqb_sym 2 n);
      (destruct (Nat.eqb_spec n 2) as [En|En]; [subst n|]);
      repeat match goal with |- context [(?a =? ?b)%Z] => destruct (Z.eqb_spec a b); try lia end;
      cbn [andb at_ rZ]; unfold gZ, hZ; cbn [INR] in *; try ring; try (field; repeat split; first [lra|nra]). }
  specialize (E E1 (p + 2)%Z q). cbn [yZ] in E.
  replace (p + 2 - Z.of_nat 2)%Z with p in E by lia.
  replace (q + 1 - Z.of_nat 2)%Z with (q - 1)%Z in E by lia.
  replace (p + 2 - 1)%Z with (p + 1)%Z in E by lia.
  apply (Rmult_eq_reg_l (gZ (INR 2) / INR 2)); [apply E|unfold gZ; cbn [INR]; lra].
  replace (p + 2 + q + 1)%Z with (p + q + 3)%Z by lia.
  rewrite Z.odd_add, Ho. reflexivity.
Qed.
End ZRev.
