(** Particles that are not crowded: the mobility matrix of the code. *)
From Coq Require Import Reals Arith Bool List Lia Lra Psatz.
From Verif Require Import Base Model_Pack Model_Mob Model_Layout Model_Minf Model_L Spec_Layout Spec_Minf Spec_Convert Spec_Posdef Spec_Two
  Proof_Layout Proof_Mob Proof_Minf Proof_Minf3 Proof_Posdef Proof_Run Proof_Wide2 Proof_Wide3 Proof_Two2 Proof_Two3.
Local Open Scope R_scope.

Theorem uncrowded_far bb p mu :
  let nb := (num_spheres p + 2 * num_dumbbells p)%nat in let n := (11 * num_spheres p + 6 * num_dumbbells p)%nat in
  0 < mu -> (forall b, (b < nb)%nat -> 0 < bead_sizes p b) ->
  (forall b b', (b < nb)%nat -> (b' < nb)%nat -> b <> b' -> / 10 ^ 8 < norm (vsub (bead_positions p b) (bead_positions p b'))) ->
  uncrowded nb (bead_positions p) (bead_sizes p) ->
  pos_def n (generate_Minfinity bb p mu).
Proof.
  intros nb n Hmu Ha Hx HU.
  apply (pos_def_ext n (minf_transform (num_spheres p) (num_dumbbells p) (minf_loop bb p mu))).
  - intros i j Hi Hj. symmetry. apply gen_transform; assumption.
  - apply transform_pos_def. exact (uncrowded_loop bb (bead_positions p) (bead_sizes p) (num_spheres p) (num_dumbbells p) mu Hmu Ha Hx HU).
Qed.

(** Spheres only: the loop is the whole matrix. *)
Lemma lone_E a Ns mu v : 0 < mu -> (forall b, (b < Ns)%nat -> 0 < a b) ->
  rsum (Ns + 2 * 0) (E a Ns mu v) = lone_power Ns a mu v.
Proof.
  intros Hmu Ha. unfold lone_power. replace (Ns + 2 * 0)%nat with Ns by lia. apply rsum_ext. intros b Hb. pose proof (Ha b Hb) as A.
  unfold E, alone, sq, W, bk. destruct (Nat.ltb_spec b Ns); [|lia]. cbn [kstart]. unfold rsum. pose proof PI_RGT_0. field. repeat split; lra.
Qed.
Theorem spheres_power bb p mu v : num_dumbbells p = 0%nat ->
  let Ns := num_spheres p in
  0 < mu -> (forall b, (b < Ns)%nat -> 0 < bead_sizes p b) ->
  (forall b b', (b < Ns)%nat -> (b' < Ns)%nat -> b <> b' -> / 10 ^ 8 < norm (vsub (bead_positions p b) (bead_positions p b'))) ->
  uncrowded Ns (bead_positions p) (bead_sizes p) ->
  Rabs (rsum (11 * Ns) (fun r => v r * mvec (11 * Ns) (generate_Minfinity bb p mu) v r) - lone_power Ns (bead_sizes p) mu v)
  <= 9 / 10 * lone_power Ns (bead_sizes p) mu v.
Proof.
  intros H0 Ns Hmu Ha Hx HU.
  pose proof (near_lone bb (bead_positions p) (bead_sizes p) Ns 0 mu Hmu) as H. replace (Ns + 2 * 0)%nat with Ns in H by lia.
  specialize (H Ha Hx HU v). replace (11 * Ns + 6 * 0)%nat with (11 * Ns)%nat in H by lia.
  pose proof (lone_E (bead_sizes p) Ns mu v Hmu Ha) as L. replace (Ns + 2 * 0)%nat with Ns in L by lia. rewrite L in H.
  unfold generate_Minfinity. rewrite H0. exact H.
Qed.

(** How to be uncrowded. *)
Lemma mean_two a b : 0 < a -> 0 < b -> 2 * sqrt (a * b) <= a + b.
Proof.
  intros A B. assert (Q : sqrt (a * b) * sqrt (a * b) = a * b) by (apply sqrt_sqrt; nra). pose proof (sqrt_pos (a * b)).
  apply Rsqr_incr_0_var; [|lra]. unfold Rsqr. pose proof (sq0 (a - b)). lra.
Qed.
Lemma sep_touch x1 x2 a1 a2 : 0 < a1 -> 0 < a2 -> a1 + a2 <= used_separation x1 x2 a1 a2.
Proof. intros. unfold used_separation. apply Rle_trans with (2 := Rmax_r _ _). lra. Qed.
Lemma influence_1 x a p q : 0 < a p -> 0 < a q -> 0 <= influence x a p q <= 1.
Proof.
  intros A B. pose proof (sep_touch (x p) (x q) (a p) (a q) A B) as S. pose proof (mean_two _ _ A B) as M. unfold influence.
  set (s := used_separation _ _ _ _) in *. pose proof (sqrt_pos (a p * a q)) as P. split.
  - apply Rmult_le_pos; [lra|]. left. apply Rinv_0_lt_compat. lra.
  - apply Rmult_le_reg_r with s; [lra|]. unfold Rdiv. rewrite Rmult_assoc, Rinv_l by lra. lra.
Qed.
Lemma two_uncrowded x a : 0 < a 0%nat -> 0 < a 1%nat -> uncrowded 2 x a.
Proof.
  intros A B p Hp. pose proof (influence_1 x a 0%nat 1%nat A B). pose proof (influence_1 x a 1%nat 0%nat B A).
  destruct p as [|[|p]]; [| |lia]; cbn; lra.
Qed.
Lemma influence_far x a A p q : 0 < a p <= A -> 0 < a q <= A -> 0 < norm (vsub (x p) (x q)) ->
  influence x a p q <= 2 * A / norm (vsub (x p) (x q)).
Proof.
  intros P Q D. unfold influence. set (d := norm _) in *.
  assert (S : d <= used_separation (x p) (x q) (a p) (a q)) by apply Rmax_l. set (s := used_separation _ _ _ _) in *.
  assert (T : sqrt (a p * a q) <= A) by (pose proof (mean_two _ _ (proj1 P) (proj1 Q)); lra). pose proof (sqrt_pos (a p * a q)).
  apply Rmult_le_reg_r with (d * s); [nra|]. replace (2 * sqrt (a p * a q) / s * (d * s)) with (2 * sqrt (a p * a q) * d) by (field; lra).
  replace (2 * A / d * (d * s)) with (2 * A * s) by (field; lra). nra.
Qed.
Lemma spaced_uncrowded n x a A : (0 < n)%nat -> (forall b, (b < n)%nat -> 0 < a b <= A) ->
  (forall b b', (b < n)%nat -> (b' < n)%nat -> b <> b' -> 2 * (INR n - 1) * A <= norm (vsub (x b) (x b'))) ->
  uncrowded n x a.
Proof.
  intros Hn HA HX p Hp. destruct (Nat.eq_dec n 1) as [->|N1].
  { replace p with 0%nat by lia. cbn. lra. }
  assert (Hn1 : 0 < INR n - 1) by (pose proof (le_INR 2 n ltac:(lia)); cbn in *; lra).
  apply Rle_trans with (rsum n (fun q => if Nat.eqb p q then 0 else / (INR n - 1))).
  - apply rsum_le. intros q Hq. destruct (Nat.eqb_spec p q) as [->|N]; [lra|].
    pose proof (HA p Hp) as P. pose proof (HA q Hq) as Q. pose proof (HX p q Hp Hq N) as D.
    assert (D0 : 0 < 2 * (INR n - 1) * A) by (apply Rmult_lt_0_compat; lra).
    apply Rle_trans with (1 := influence_far x a A p q P Q ltac:(lra)).
    set (d := norm _) in *. apply Rmult_le_reg_r with (d * (INR n - 1)); [nra|].
    replace (2 * A / d * (d * (INR n - 1))) with (2 * (INR n - 1) * A) by (field; lra).
    replace (/ (INR n - 1) * (d * (INR n - 1))) with d by (field; lra). lra.
  - apply Req_le. rewrite (rsum_ext n _ (fun q => / (INR n - 1) - / (INR n - 1) * delta p q)).
    + rewrite rsum_minus, rsum_scal_l.
      replace (rsum n (delta p)) with 1; [replace (rsum n (fun _ => / (INR n - 1))) with (INR n * / (INR n - 1)); [field; lra|]|].
      * clear. induction n as [|n IH]; [cbn; ring|]. cbn [rsum]. rewrite S_INR at 1. rewrite <- S_INR.
        generalize (/ (INR (S n) - 1)). intros t. clear IH.
        assert (G : forall m, rsum m (fun _ => t) = INR m * t) by (induction m; [cbn; ring|cbn [rsum]; rewrite IHm, S_INR; ring]).
        rewrite G, S_INR. ring.
      * symmetry. rewrite (rsum_ext n _ (fun q => delta p q * 1)) by (intros; ring). rewrite (rsum_delta_l n p (fun _ => 1)) by exact Hp. reflexivity.
    + intros q _. unfold delta. destruct (Nat.eqb p q); ring.
Qed.
