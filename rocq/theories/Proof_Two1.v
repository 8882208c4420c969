(** The mobilities of a pair of beads on the z axis, and the bound on the
    interaction of the pair. *)
From Coq Require Import Reals Arith Bool List Lia Lra Psatz.
From Verif Require Import Base Model_Pack Model_Mob Model_Layout Model_Minf Spec_Layout Spec_Minf Spec_Rotate Proof_Mob Proof_Mob2 Proof_Pack.
Import ListNotations.
Local Open Scope R_scope.

(** Entries for the displacement (0, 0, s) and radii u s and v s, in units of
    8 pi mu s to the power of the kinds. *)
Definition kpow (k : kind) (s : R) : R := match k with KU | KB => 1 | _ => s end.
Definition ax (k1 k2 : kind) (u v : R) (i j : nat) : R :=
  let q := u ^ 2 + v ^ 2 in
  match k1, k2, i, j with
  | KU, KU, 0, 0 | KU, KU, 1, 1 => (1 + q / 3)%R
  | KU, KU, 2, 2 => (2 * (1 - q / 3))%R
  | KU, KO, 0, 1 | KO, KU, 0, 1 => (1)%R
  | KU, KO, 1, 0 | KO, KU, 1, 0 => (-1)%R
  | KU, KS, 2, 0 | KU, KS, 2, 2 => (- (sqrt 3 * (1 - u ^ 2 - 3 / 5 * v ^ 2)))%R
  | KU, KS, 0, 3 | KU, KS, 1, 4 => (s2 * (u ^ 2 + 3 / 5 * v ^ 2))%R
  | KS, KU, 0, 2 | KS, KU, 2, 2 => (sqrt 3 * (1 - v ^ 2 - 3 / 5 * u ^ 2))%R
  | KS, KU, 3, 0 | KS, KU, 4, 1 => (- (s2 * (v ^ 2 + 3 / 5 * u ^ 2)))%R
  | KO, KO, 0, 0 | KO, KO, 1, 1 => (- (1 / 2))%R
  | KO, KO, 2, 2 => (1)%R
  | KO, KS, 0, 4 | KS, KO, 4, 0 => (3 / 2 * s2)%R
  | KO, KS, 1, 3 | KS, KO, 3, 1 => (- (3 / 2 * s2))%R
  | KS, KS, 0, 0 | KS, KS, 2, 2 => (- (3) + 21 / 5 * q)%R
  | KS, KS, 0, 2 | KS, KS, 2, 0 => (- (3) + 3 * q)%R
  | KS, KS, 1, 1 => (6 / 5 * q)%R
  | KS, KS, 3, 3 | KS, KS, 4, 4 => (3 - 24 / 5 * q)%R
  | _, _, _, _ => (0)%R
  end%nat.

Ltac split5 i Hi := destruct i as [|[|[|[|[|?]]]]]; try (exfalso; cbn in Hi; lia).

Section Axis.
Variables (s u v c mu : R).
Hypothesis Hs : tiny < s.
Let z : vec := v3 0 0 s.

Lemma s_pos : 0 < s. Proof. pose proof Hs. unfold tiny in *. assert (0 < / 10 ^ 10) by (apply Rinv_0_lt_compat; apply pow_lt; lra). lra. Qed.
Lemma ax_tiny (b : R) : tiny < Rabs (z 0%nat) + Rabs (z 1%nat) + Rabs (z 2%nat).
Proof. unfold z, v3. rewrite Rabs_R0, (Rabs_right s); [pose proof Hs; lra|pose proof s_pos; lra]. Qed.
Lemma ax_tiny' : tiny < Rabs (vopp z 0%nat) + Rabs (vopp z 1%nat) + Rabs (vopp z 2%nat).
Proof. unfold vopp. rewrite !Rabs_Ropp. apply (ax_tiny 0). Qed.

Ltac calc := unfold J, Lap_J, Rt, Lap_R, K, Lap_K, D_R, D_K, DLap_K, D_J, DD_J, DLap_J, lsum2, distinct3, levi, kronkron, delta, z, v3, vopp, rsum; cbn [Nat.eqb negb andb orb].
Ltac close := pose proof s_pos; calc; field; lra.

Lemma ax_M11 i j : (i < 3)%nat -> (j < 3)%nat -> M11 (z i) (z j) s (u * s) (v * s) i j c mu = c / s * ax KU KU u v i j.
Proof.
  intros Hi Hj. unfold M11. destruct (Rlt_dec tiny s) as [_|N]; [|pose proof Hs; contradiction].
  split5 i Hi; split5 j Hj; cbn [ax]; close.
Qed.
Lemma ax_M12 i j : (i < 3)%nat -> (j < 3)%nat -> M12 z s (u * s) (v * s) i j c mu = c / s ^ 2 * ax KU KO u v i j.
Proof.
  intros Hi Hj. unfold M12. destruct (Rlt_dec tiny s) as [_|N]; [|pose proof Hs; contradiction].
  split5 i Hi; split5 j Hj; cbn [ax]; close.
Qed.
Lemma ax_M21 i j : (i < 3)%nat -> (j < 3)%nat -> M12 (vopp z) s (v * s) (u * s) j i c mu = c / s ^ 2 * ax KO KU u v i j.
Proof.
  intros Hi Hj. unfold M12. destruct (Rlt_dec tiny s) as [_|N]; [|pose proof Hs; contradiction].
  split5 i Hi; split5 j Hj; cbn [ax]; close.
Qed.
Lemma ax_M22 i j : (i < 3)%nat -> (j < 3)%nat -> M22 z s (u * s) (v * s) i j c mu = c / s ^ 3 * ax KO KO u v i j.
Proof.
  intros Hi Hj. unfold M22. destruct (Rlt_dec _ _) as [_|N]; [|pose proof (ax_tiny 0); contradiction].
  split5 i Hi; split5 j Hj; cbn [ax]; close.
Qed.
(** Condensation of a symmetric traceless pair of indices. *)
Lemma hs3_sum : hs3p1 + hs3m1 = sqrt 3. Proof. unfold hs3p1, hs3m1, s3. field. Qed.
Lemma hs3_prod : hs3p1 * hs3m1 = 1 / 2.
Proof. unfold hs3p1, hs3m1, s3. pose proof (sqrt_sqrt 3 ltac:(lra)). nra. Qed.
Lemma hs3_sq : hs3p1 * hs3p1 + hs3m1 * hs3m1 = 2.
Proof. unfold hs3p1, hs3m1, s3. pose proof (sqrt_sqrt 3 ltac:(lra)). nra. Qed.
Lemma s2_sq : s2 * s2 = 2. Proof. unfold s2. apply sqrt_sqrt. lra. Qed.
Lemma cond_table (f : nat -> nat -> R) m : (m < 5)%nat ->
  condense_idx f m = match m with
    | 0 => (hs3p1 * f 0%nat 0%nat + hs3m1 * f 1%nat 1%nat)%R | 1 => (s2 * f 0%nat 1%nat)%R | 2 => (hs3m1 * f 0%nat 0%nat + hs3p1 * f 1%nat 1%nat)%R
    | 3 => (s2 * f 0%nat 2%nat)%R | _ => (s2 * f 1%nat 2%nat)%R end%nat.
Proof. intros Hm. unfold condense_idx, rsum. split5 m Hm; cbn [contraction]; ring. Qed.

(** With displacement (0, 0, e s). *)
Lemma ax_M13 e i j k u' v' : e = 1 \/ e = - (1) -> (i < 3)%nat -> (j < 3)%nat -> (k < 3)%nat ->
  M13 (v3 0 0 (e * s)) s (u' * s) (v' * s) i j k c mu = c / s ^ 2 * e *
   match i, j, k with
   | 2, 0, 0 | 2, 1, 1 => (- (1 - u' ^ 2 - 3 / 5 * v' ^ 2))%R
   | 2, 2, 2 => (2 * (1 - u' ^ 2 - 3 / 5 * v' ^ 2))%R
   | 0, 0, 2 | 0, 2, 0 | 1, 1, 2 | 1, 2, 1 => (u' ^ 2 + 3 / 5 * v' ^ 2)%R
   | _, _, _ => (0)%R
   end%nat.
Proof.
  intros He Hi Hj Hk. unfold M13. destruct (Rlt_dec tiny s) as [_|N]; [|pose proof Hs; contradiction].
  destruct He as [->| ->]; split5 i Hi; split5 j Hj; split5 k Hk; close.
Qed.
Lemma z_opp : forall i, vopp z i = v3 0 0 (- (1) * s) i.
Proof. intros i. unfold vopp, z, v3. destruct i as [|[|[|]]]; ring. Qed.
Lemma ax_M23 e i j k u' v' : e = 1 \/ e = - (1) -> (i < 3)%nat -> (j < 3)%nat -> (k < 3)%nat ->
  M23 (v3 0 0 (e * s)) s (u' * s) (v' * s) i j k c mu = c / s ^ 3 *
   match i, j, k with
   | 0, 1, 2 | 0, 2, 1 => (3 / 2)%R
   | 1, 0, 2 | 1, 2, 0 => (- (3 / 2))%R
   | _, _, _ => (0)%R
   end%nat.
Proof.
  intros He Hi Hj Hk. unfold M23. destruct (Rlt_dec _ _) as [_|N].
  - destruct He as [->| ->]; split5 i Hi; split5 j Hj; split5 k Hk; close.
  - exfalso. apply N. cbn [v3]. rewrite Rabs_R0, Rabs_mult, (Rabs_right s) by (pose proof s_pos; lra).
    destruct He as [->| ->]; rewrite ?Rabs_Ropp, Rabs_R1; pose proof Hs; lra.
Qed.
Lemma ax_M33 i j k l : (i < 3)%nat -> (j < 3)%nat -> (k < 3)%nat -> (l < 3)%nat ->
  M33 z s (u * s) (v * s) i j k l c mu = c / s ^ 3 *
   let q := u ^ 2 + v ^ 2 in
   match i, j, k, l with
   | 0, 0, 0, 0 | 1, 1, 1, 1 => (- (1) + 9 / 5 * q)%R
   | 0, 0, 1, 1 | 1, 1, 0, 0 => (- (1) + 3 / 5 * q)%R
   | 0, 1, 0, 1 | 0, 1, 1, 0 | 1, 0, 0, 1 | 1, 0, 1, 0 => (3 / 5 * q)%R
   | 0, 2, 0, 2 | 0, 2, 2, 0 | 2, 0, 0, 2 | 2, 0, 2, 0 | 1, 2, 1, 2 | 1, 2, 2, 1 | 2, 1, 1, 2 | 2, 1, 2, 1 => (3 / 2 - 12 / 5 * q)%R
   | 0, 0, 2, 2 | 2, 2, 0, 0 | 1, 1, 2, 2 | 2, 2, 1, 1 => (2 - 12 / 5 * q)%R
   | 2, 2, 2, 2 => (- (4) + 24 / 5 * q)%R
   | _, _, _, _ => (0)%R
   end%nat.
Proof.
  intros Hi Hj Hk Hl. unfold M33. cbn zeta.
  split5 i Hi; split5 j Hj; split5 k Hk; split5 l Hl; close.
Qed.
End Axis.
