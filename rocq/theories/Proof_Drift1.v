(** Two equal spheres pulled alike: the equations solved. *)
From Coq Require Import Reals Arith Bool List Lia Lra Psatz FunctionalExtensionality.
From Verif Require Import Base Model_Pack Model_Mob Model_Layout Model_Minf Spec_Layout Spec_Minf Spec_Rotate Spec_Convert Spec_Posdef Spec_Two Spec_Drift
  Proof_Layout Proof_Mob Proof_Minf Proof_Minf2 Proof_Minf3 Proof_Minf4 Proof_Posdef Proof_Rotate1 Proof_Rotate2 Proof_Rotate3 Proof_Rotate4 Proof_Rotate5
  Proof_Two1 Proof_Two2 Proof_Two3 Proof_Two4.
From Verif Require Proof_Axi1.
Import ListNotations.
Local Open Scope R_scope.

(** One of the equations: the unknown stresslet [t] in the direction of the
    line of centres, and the velocity [U]. *)
Lemma along_stress a s c p t : 0 < a -> 0 < s -> 2 * a <= s -> 0 < c ->
  let u := a / s in let g := 1 - u ^ 2 - 3 / 5 * u ^ 2 in
  c * (6 / 5 / a ^ 3) * t + c / s * (2 * (sqrt 3 * g * / s * p) + / s * / s * (6 - 72 / 5 * u ^ 2) * t) = 0 ->
  sqrt 3 * t = - 5 * g * p * s * u ^ 3 / (1 + 5 * u ^ 3 - 12 * u ^ 5).
Proof.
  intros Ha Hs Has Hc u g E1.
  assert (Hu : 0 < u) by (apply Rdiv_lt_0_compat; assumption).
  assert (Hu2 : u <= 1 / 2) by (apply Rmult_le_reg_r with s; [exact Hs|]; unfold u; replace (a / s * s) with a by (field; lra); lra).
  assert (Ea : a = u * s) by (unfold u; field; lra). clearbody u. subst a.
  assert (U3 : 0 < u ^ 3) by (apply pow_lt; exact Hu).
  assert (U5 : 12 * u ^ 5 <= 3 * u ^ 3) by (replace (u ^ 5) with (u ^ 3 * (u * u)) by ring; assert (u * u <= 1 / 2 * (1 / 2)) by (apply Rmult_le_compat; lra); nra).
  assert (D : 0 < 1 + 5 * u ^ 3 - 12 * u ^ 5) by lra.
  set (r3 := sqrt 3) in *. assert (R3 : r3 * r3 = 3) by (apply sqrt_sqrt; lra).
  apply Rmult_eq_reg_r with (c * (1 + 5 * u ^ 3 - 12 * u ^ 5) * (6 / 5) / (s ^ 3 * u ^ 3)).
  2:{ apply Rgt_not_eq. apply Rdiv_lt_0_compat; [|apply Rmult_lt_0_compat; apply pow_lt; assumption]. apply Rmult_lt_0_compat; [apply Rmult_lt_0_compat|]; lra. }
  transitivity (r3 * (c * (6 / 5 / (u * s) ^ 3) * t + c / s * (2 * (r3 * g * / s * p) + / s * / s * (6 - 72 / 5 * u ^ 2) * t)) - 2 * (r3 * r3) * g * p * c / s ^ 2).
  - field. lra.
  - rewrite E1, R3. field. repeat split; lra.
Qed.
Lemma along_solved a s c p t U : 0 < a -> 0 < s -> 2 * a <= s -> 0 < c ->
  let u := a / s in let g := 1 - u ^ 2 - 3 / 5 * u ^ 2 in
  c * (6 / 5 / a ^ 3) * t + c / s * (2 * (sqrt 3 * g * / s * p) + / s * / s * (6 - 72 / 5 * u ^ 2) * t) = 0 ->
  U = c * (4 / 3 / a) * p + c / s * (2 * (1 - (u ^ 2 + u ^ 2) / 3) * p + / s * (sqrt 3 * g) * t) ->
  U = c * (4 / 3 / a) * (along_gain u * p).
Proof.
  intros Ha Hs Has Hc u g E1 ->. pose proof (along_stress a s c p t Ha Hs Has Hc E1) as T. cbv zeta in T. fold u in T. fold g in T. clear E1.
  assert (Hu : 0 < u) by (apply Rdiv_lt_0_compat; assumption).
  assert (Hu2 : u <= 1 / 2) by (apply Rmult_le_reg_r with s; [exact Hs|]; unfold u; replace (a / s * s) with a by (field; lra); lra).
  assert (Ea : a = u * s) by (unfold u; field; lra). clearbody u. subst a.
  assert (U3 : 0 < u ^ 3) by (apply pow_lt; exact Hu).
  assert (U5 : 12 * u ^ 5 <= 3 * u ^ 3) by (replace (u ^ 5) with (u ^ 3 * (u * u)) by ring; assert (u * u <= 1 / 2 * (1 / 2)) by (apply Rmult_le_compat; lra); nra).
  assert (D : 0 < 1 + 5 * u ^ 3 - 12 * u ^ 5) by lra.
  set (r3 := sqrt 3) in *.
  transitivity (c * (4 / 3 / (u * s)) * p + c / s * (2 * (1 - (u ^ 2 + u ^ 2) / 3) * p + / s * g * (r3 * t))); [ring|].
  rewrite T. unfold along_gain, g. field. repeat split; lra.
Qed.
Lemma across_stress a s c p t : 0 < a -> 0 < s -> 2 * a <= s -> 0 < c ->
  let u := a / s in let h := u ^ 2 + 3 / 5 * u ^ 2 in
  c * (6 / 5 / a ^ 3) * t + c / s * (- (s2 * h) * / s * p - / s * / s * (3 - 24 / 5 * (u ^ 2 + u ^ 2)) * t) = 0 ->
  s2 * t = 5 / 3 * h * p * s * u ^ 3 / (1 - 5 / 2 * u ^ 3 + 8 * u ^ 5).
Proof.
  intros Ha Hs Has Hc u h E1.
  assert (Hu : 0 < u) by (apply Rdiv_lt_0_compat; assumption).
  assert (Hu2 : u <= 1 / 2) by (apply Rmult_le_reg_r with s; [exact Hs|]; unfold u; replace (a / s * s) with a by (field; lra); lra).
  assert (Ea : a = u * s) by (unfold u; field; lra). clearbody u. subst a.
  assert (U3 : 0 < u ^ 3) by (apply pow_lt; exact Hu). assert (U5 : 0 < u ^ 5) by (apply pow_lt; exact Hu).
  assert (U3' : u ^ 3 <= (1 / 2) ^ 3) by (apply pow_incr; lra).
  assert (D : 0 < 1 - 5 / 2 * u ^ 3 + 8 * u ^ 5) by lra.
  set (r2 := s2) in *. assert (R2 : r2 * r2 = 2) by exact s2_sq.
  apply Rmult_eq_reg_r with (c * (1 - 5 / 2 * u ^ 3 + 8 * u ^ 5) * (6 / 5) / (s ^ 3 * u ^ 3)).
  2:{ apply Rgt_not_eq. apply Rdiv_lt_0_compat; [|apply Rmult_lt_0_compat; apply pow_lt; assumption]. apply Rmult_lt_0_compat; [apply Rmult_lt_0_compat|]; lra. }
  transitivity (r2 * (c * (6 / 5 / (u * s) ^ 3) * t + c / s * (- (r2 * h) * / s * p - / s * / s * (3 - 24 / 5 * (u ^ 2 + u ^ 2)) * t)) + (r2 * r2) * h * p * c / s ^ 2).
  - field. lra.
  - rewrite E1, R2. field. repeat split; lra.
Qed.
Lemma across_solved a s c p t U : 0 < a -> 0 < s -> 2 * a <= s -> 0 < c ->
  let u := a / s in let h := u ^ 2 + 3 / 5 * u ^ 2 in
  c * (6 / 5 / a ^ 3) * t + c / s * (- (s2 * h) * / s * p - / s * / s * (3 - 24 / 5 * (u ^ 2 + u ^ 2)) * t) = 0 ->
  U = c * (4 / 3 / a) * p + c / s * ((1 + (u ^ 2 + u ^ 2) / 3) * p - / s * (s2 * h) * t) ->
  U = c * (4 / 3 / a) * (across_gain u * p).
Proof.
  intros Ha Hs Has Hc u h E1 ->. pose proof (across_stress a s c p t Ha Hs Has Hc E1) as T. cbv zeta in T. fold u in T. fold h in T. clear E1.
  assert (Hu : 0 < u) by (apply Rdiv_lt_0_compat; assumption).
  assert (Hu2 : u <= 1 / 2) by (apply Rmult_le_reg_r with s; [exact Hs|]; unfold u; replace (a / s * s) with a by (field; lra); lra).
  assert (Ea : a = u * s) by (unfold u; field; lra). clearbody u. subst a.
  assert (U3 : 0 < u ^ 3) by (apply pow_lt; exact Hu). assert (U5 : 0 < u ^ 5) by (apply pow_lt; exact Hu).
  assert (U3' : u ^ 3 <= (1 / 2) ^ 3) by (apply pow_incr; lra).
  assert (D : 0 < 1 - 5 / 2 * u ^ 3 + 8 * u ^ 5) by lra.
  set (r2 := s2) in *.
  transitivity (c * (4 / 3 / (u * s)) * p + c / s * ((1 + (u ^ 2 + u ^ 2) / 3) * p - / s * h * (r2 * t))); [ring|].
  rewrite T. unfold across_gain, h. field. repeat split; lra.
Qed.

(** A row of the mobility matrix of two spheres, seen from the turned frame. *)
Section Pair.
Variables (bb : bool) (p : posdata) (mu : R).
Hypothesis Ns2 : num_spheres p = 2%nat.
Hypothesis Nd0 : num_dumbbells p = 0%nat.
Let x := bead_positions p.
Let a := bead_sizes p 0%nat.
Let s := used_separation (x 0%nat) (x 1%nat) a a.
Let c := 1 / (8 * PI * mu).
Let M := generate_Minfinity bb p mu.
Hypothesis Hmu : 0 < mu.
Hypothesis Ha : 0 < a.
Hypothesis Ha1 : bead_sizes p 1%nat = a.
Hypothesis Hx : / 10 ^ 8 < norm (vsub (x 0%nat) (x 1%nat)).
Let r := fst (pair_geometry (x 0%nat) (x 1%nat) a a).

Definition selfc (k : kind) (a0 : R) : R := match k with KU | KB => 4 / 3 / a0 | KO => / a0 ^ 3 | KS => 6 / 5 / a0 ^ 3 end.
Lemma self_entry k1 k2 i j : k1 <> KB -> k2 <> KB -> (i < ksize k1)%nat -> (j < ksize k2)%nat ->
  M (kstart 2 k1 0 + i)%nat (kstart 2 k2 0 + j)%nat = match k1, k2 with KU, KU | KO, KO | KS, KS => c * selfc k1 a * delta i j | _, _ => 0 end.
Proof.
  intros N1 N2 Hi Hj. pose proof (sphere_ent bb p mu k1 0 k2 0 i j ltac:(lia) ltac:(lia) N1 N2 Hi Hj) as E. rewrite Ns2 in E.
  unfold M. rewrite E. unfold minf_loop. rewrite Ns2. rewrite loop_self by (try assumption; destruct k1, k2; cbn; congruence || lia).
  pose proof PI_RGT_0. fold a. unfold c. destruct k1, k2; try congruence; cbn [self_value selfc]; try reflexivity; field; repeat split; lra.
Qed.
Lemma cross_entry k1 k2 i j : k1 <> KB -> k2 <> KB -> (i < ksize k1)%nat -> (j < ksize k2)%nat ->
  M (kstart 2 k1 0 + i)%nat (kstart 2 k2 1 + j)%nat = pmob k1 k2 r s a a c mu i j.
Proof.
  intros N1 N2 Hi Hj. pose proof (sphere_ent bb p mu k1 0 k2 1 i j ltac:(lia) ltac:(lia) N1 N2 Hi Hj) as E. rewrite Ns2 in E.
  destruct (geom_used (x 0%nat) (x 1%nat) a a ltac:(lra) Hx) as (G1 & _ & _).
  unfold M. rewrite E. unfold minf_loop. rewrite Ns2, loop_pair.
  - unfold bead_mobility. fold x. rewrite Ha1. fold a. rewrite G1. fold r s. destruct k1, k2; congruence || reflexivity.
  - destruct k1; cbn; congruence || lia.
  - destruct k2; cbn; congruence || lia.
  - exact Hi.
  - exact Hj.
  - discriminate.
  - rewrite Ha1. fold a. lra.
  - fold x. pose proof e8. unfold tiny in *. lra.
Qed.
Lemma row_0 w k i : k <> KB -> (i < ksize k)%nat ->
  mvec 22 M w (kstart 2 k 0 + i)%nat = c * selfc k a * w (kstart 2 k 0 + i)%nat +
    (rsum 3 (fun j => pmob k KU r s a a c mu i j * w (kstart 2 KU 1 + j)%nat) + rsum 3 (fun j => pmob k KO r s a a c mu i j * w (kstart 2 KO 1 + j)%nat)
     + rsum 5 (fun j => pmob k KS r s a a c mu i j * w (kstart 2 KS 1 + j)%nat)).
Proof.
  intros Nk Hi. unfold mvec. change 22%nat with (11 * 2 + 6 * 0)%nat. rewrite rsum_blocks. cbn [Nat.mul]. change (rsum 0 _) with 0. rewrite Rplus_0_r.
  change (rsum 2 ?f) with (0 + f 0%nat + f 1%nat). cbn beta.
  assert (C : forall k2, k2 <> KB -> rsum (ksize k2) (fun j => M (kstart 2 k 0 + i)%nat (kstart 2 k2 1 + j)%nat * w (kstart 2 k2 1 + j)%nat)
                = rsum (ksize k2) (fun j => pmob k k2 r s a a c mu i j * w (kstart 2 k2 1 + j)%nat)).
  { intros k2 N2. apply rsum_ext. intros j Hj. rewrite cross_entry by assumption. reflexivity. }
  pose proof (C KU ltac:(discriminate)) as C1. pose proof (C KO ltac:(discriminate)) as C2. pose proof (C KS ltac:(discriminate)) as C3. cbn [ksize] in C1, C2, C3.
  rewrite C1, C2, C3. clear C C1 C2 C3.
  assert (S0 : forall k2, k2 <> KB -> rsum (ksize k2) (fun j => M (kstart 2 k 0 + i)%nat (kstart 2 k2 0 + j)%nat * w (kstart 2 k2 0 + j)%nat)
                = match k, k2 with KU, KU | KO, KO | KS, KS => c * selfc k a * w (kstart 2 k 0 + i)%nat | _, _ => 0 end).
  { intros k2 N2. rewrite (rsum_ext _ _ (fun j => match k, k2 with KU, KU | KO, KO | KS, KS => c * selfc k a * delta i j | _, _ => 0 end * w (kstart 2 k2 0 + j)%nat)).
    2:{ intros j Hj. rewrite self_entry by assumption. reflexivity. }
    destruct k, k2; try congruence; cbn [ksize] in *; try (apply rsum_zero; intros; ring);
      match goal with |- rsum ?m (fun j => ?A * delta i j * ?B) = _ => rewrite (rsum_ext m _ (fun j => delta i j * (A * B))) by (intros; ring); apply rsum_delta_l; exact Hi end. }
  pose proof (S0 KU ltac:(discriminate)) as C1. pose proof (S0 KO ltac:(discriminate)) as C2. pose proof (S0 KS ltac:(discriminate)) as C3. cbn [ksize] in C1, C2, C3.
  rewrite C1, C2, C3. destruct k; try congruence; ring.
Qed.

Variable Q : mat.
Hypothesis HQ : orthogonal Q.
Hypothesis EQ : forall i, (i < 3)%nat -> rot Q r i = v3 0 0 (norm r) i.
Definition seen (w : vec) (b : nat) : kind -> nat -> R := turnX Q (fun k i => w (kstart 2 k b + i)%nat).
Lemma row_seen w u k i : (forall r0, (r0 < 22)%nat -> u r0 = mvec 22 M w r0) -> k <> KB -> (i < ksize k)%nat ->
  seen u 0 k i = c * selfc k a * seen w 0 k i +
    c / s * (/ kpow k s * (rsum 3 (fun j => ax k KU (a / s) (a / s) i j * seen w 1 KU j) + / s * rsum 3 (fun j => ax k KO (a / s) (a / s) i j * seen w 1 KO j)
      + / s * rsum 5 (fun j => ax k KS (a / s) (a / s) i j * seen w 1 KS j))).
Proof.
  intros Hu Nk Hi.
  destruct (geom_used (x 0%nat) (x 1%nat) a a ltac:(lra) Hx) as (_ & _ & G2). fold r s in G2.
  assert (Hs : tiny < s). { unfold s, used_separation. apply Rlt_le_trans with (2 := Rmax_l _ _). pose proof e8. unfold tiny in *. lra. }
  pose proof (s_pos s Hs) as SP.
  assert (B : forall k2, k2 <> KB ->
     rsum (ksize k) (fun i0 => tmat Q k i i0 * rsum (ksize k2) (fun j => pmob k k2 r s a a c mu i0 j * w (kstart 2 k2 1 + j)%nat))
     = c / s * (/ kpow k s * (/ kpow k2 s * rsum (ksize k2) (fun j => ax k k2 (a / s) (a / s) i j * seen w 1 k2 j)))).
  { intros k2 N2.
    transitivity (rsum (ksize k2) (fun j => turned_block Q k k2 (fun y z => pmob k k2 r s a a c mu y z) i j * seen w 1 k2 j)).
    - unfold seen, turnX. rewrite (pull_back Q HQ). rewrite (rsum_ext (ksize k) _ (fun i0 => rsum (ksize k2) (fun j => tmat Q k i i0 * (pmob k k2 r s a a c mu i0 j * w (kstart 2 k2 1 + j)%nat)))) by (intros; rewrite rsum_scal_l; reflexivity).
      rewrite rsum_swap. apply rsum_ext. intros j _. rewrite <- rsum_scal_r. apply rsum_ext. intros. ring.
    - rewrite <- !rsum_scal_l. apply rsum_ext. intros j Hj.
      assert (P : turned_block Q k k2 (fun y z => pmob k k2 r s a a c mu y z) i j = pmob k k2 (v3 0 0 s) s (a / s * s) (a / s * s) c mu i j).
      { replace (a / s * s) with a by (field; lra). rewrite <- G2.
        rewrite (pmob_ext3 k k2 _ (rot Q r)) by (try assumption; intros; symmetry; apply EQ; assumption).
        symmetry. apply (pmob_rot Q HQ); try assumption. left. rewrite G2. exact Hs. }
      rewrite P, axis_entry by assumption. ring. }
  unfold seen at 1. unfold turnX at 1.
  assert (RB : (forall i0, (i0 < ksize k)%nat -> (kstart 2 k 0 + i0 < 22)%nat)) by (destruct k; try congruence; cbn [kstart ksize]; intros; lia).
  rewrite (rsum_ext (ksize k) _ (fun i0 => c * selfc k a * (tmat Q k i i0 * w (kstart 2 k 0 + i0)%nat) +
     (tmat Q k i i0 * rsum 3 (fun j => pmob k KU r s a a c mu i0 j * w (kstart 2 KU 1 + j)%nat) + tmat Q k i i0 * rsum 3 (fun j => pmob k KO r s a a c mu i0 j * w (kstart 2 KO 1 + j)%nat)
      + tmat Q k i i0 * rsum 5 (fun j => pmob k KS r s a a c mu i0 j * w (kstart 2 KS 1 + j)%nat)))).
  2:{ intros i0 Hi0. rewrite Hu by (apply RB; exact Hi0). rewrite row_0 by assumption. ring. }
  rewrite !rsum_plus, rsum_scal_l.
  pose proof (B KU ltac:(discriminate)) as B1. pose proof (B KO ltac:(discriminate)) as B2. pose proof (B KS ltac:(discriminate)) as B3. cbn [ksize kpow] in B1, B2, B3.
  rewrite B1, B2, B3. change (seen w 0 k i) with (rsum (ksize k) (fun i0 => tmat Q k i i0 * w (kstart 2 k 0 + i0)%nat)). rewrite Rinv_1. ring.
Qed.

(** The same force on both, no torques, opposite stresslets, no strain. *)
Variables (w u F : vec).
Hypothesis HM : linrel 22 M w u.
Hypothesis HF : forall b l, (b < 2)%nat -> (l < 3)%nat -> w (3 * b + l)%nat = F l.
Hypothesis HT : forall l, (l < 3)%nat -> w (9 + l)%nat = 0.
Hypothesis HS : forall l, (l < 5)%nat -> w (17 + l)%nat = - w (12 + l)%nat.
Hypothesis HE : forall l, (l < 5)%nat -> u (12 + l)%nat = 0.
Let phi := fun i => rsum 3 (fun l => Q i l * F l).
Lemma s_far : tiny < s /\ 2 * a <= s.
Proof.
  clear HM HF HT HS HE. unfold s, used_separation. split.
  - apply Rlt_le_trans with (2 := Rmax_l _ _). pose proof e8. unfold tiny in *. lra.
  - apply Rle_trans with (2 := Rmax_r _ _). lra.
Qed.
Lemma seen_F b i : (b < 2)%nat -> seen w b KU i = phi i.
Proof. intros Hb. unfold seen, turnX, phi. cbn [ksize tmat kstart]. apply rsum_ext. intros l Hl. rewrite HF by assumption. reflexivity. Qed.
Lemma seen_T i : seen w 1 KO i = 0.
Proof. unfold seen, turnX. cbn [ksize kstart]. apply rsum_zero. intros l Hl. rewrite HT by assumption. ring. Qed.
Lemma seen_S i : seen w 1 KS i = - seen w 0 KS i.
Proof.
  unfold seen, turnX. cbn [ksize kstart]. rewrite <- rsum_opp. apply rsum_ext. intros l Hl.
  change (6 * 2 + 5 * 1 + l)%nat with (17 + l)%nat. change (6 * 2 + 5 * 0 + l)%nat with (12 + l)%nat. rewrite HS by assumption. ring.
Qed.
Lemma seen_E i : seen u 0 KS i = 0.
Proof. unfold seen, turnX. cbn [ksize kstart]. apply rsum_zero. intros l Hl. change (6 * 2 + 5 * 0 + l)%nat with (12 + l)%nat. rewrite HE by assumption. ring. Qed.
Lemma seen_row k i : k <> KB -> (i < ksize k)%nat ->
  seen u 0 k i = c * selfc k a * seen w 0 k i +
    c / s * (/ kpow k s * (rsum 3 (fun j => ax k KU (a / s) (a / s) i j * phi j) - / s * rsum 5 (fun j => ax k KS (a / s) (a / s) i j * seen w 0 KS j))).
Proof.
  intros Nk Hi. rewrite (row_seen w u k i HM Nk Hi). f_equal. f_equal. f_equal.
  rewrite (rsum_ext 3 (fun j => ax k KU (a / s) (a / s) i j * seen w 1 KU j) (fun j => ax k KU (a / s) (a / s) i j * phi j)) by (intros; rewrite seen_F by lia; reflexivity).
  rewrite (rsum_zero 3 (fun j => ax k KO (a / s) (a / s) i j * seen w 1 KO j)) by (intros; rewrite seen_T; ring).
  rewrite (rsum_ext 5 (fun j => ax k KS (a / s) (a / s) i j * seen w 1 KS j) (fun j => - (ax k KS (a / s) (a / s) i j * seen w 0 KS j))) by (intros; rewrite seen_S; ring).
  rewrite rsum_opp. ring.
Qed.
Lemma cpos : 0 < c. Proof. unfold c. pose proof PI_RGT_0. apply Rdiv_lt_0_compat; [lra|]. apply Rmult_lt_0_compat; [|exact Hmu]. lra. Qed.
Lemma seen_U i : (i < 3)%nat -> seen u 0 KU i = c * (4 / 3 / a) * ((if Nat.eqb i 2 then along_gain (a / s) else across_gain (a / s)) * phi i).
Proof.
  intros Hi. destruct s_far as [Hs Has]. pose proof (s_pos s Hs) as SP. pose proof cpos as Hc.
  pose proof (seen_row KU i ltac:(discriminate) Hi) as R. rewrite (seen_F 0 i ltac:(lia)) in R. cbn [kpow selfc] in R. rewrite Rinv_1 in R.
  assert (RS : forall j, (j < 5)%nat -> 0 = c * (6 / 5 / a ^ 3) * seen w 0 KS j +
    c / s * (/ s * (rsum 3 (fun l => ax KS KU (a / s) (a / s) j l * phi l) - / s * rsum 5 (fun l => ax KS KS (a / s) (a / s) j l * seen w 0 KS l)))).
  { intros j Hj. pose proof (seen_row KS j ltac:(discriminate) Hj) as E. rewrite seen_E in E. exact E. }
  assert (J : (i = 0 \/ i = 1 \/ i = 2)%nat) by lia. destruct J as [-> |[-> | ->]]; cbn [Nat.eqb].
  - apply (across_solved a s c (phi 0%nat) (seen w 0 KS 3%nat)); try assumption.
    + rewrite (RS 3%nat ltac:(lia)). unfold rsum. cbn [ax]. ring.
    + rewrite R. unfold rsum. cbn [ax]. ring.
  - apply (across_solved a s c (phi 1%nat) (seen w 0 KS 4%nat)); try assumption.
    + rewrite (RS 4%nat ltac:(lia)). unfold rsum. cbn [ax]. ring.
    + rewrite R. unfold rsum. cbn [ax]. ring.
  - apply (along_solved a s c (phi 2%nat) (seen w 0 KS 0%nat + seen w 0 KS 2%nat)); try assumption.
    + pose proof (RS 0%nat ltac:(lia)) as E0. pose proof (RS 2%nat ltac:(lia)) as E2. unfold rsum in E0, E2. cbn [ax] in E0, E2.
      transitivity (0 + 0); [|ring].
      lazymatch type of E0 with 0 = ?A => lazymatch type of E2 with 0 = ?B => transitivity (A + B); [|rewrite <- E0, <- E2; reflexivity] end end.
      set (u0 := a / s). field. split; lra.
    + rewrite R. unfold rsum. cbn [ax]. ring.
Qed.

Lemma seen_rows j : (j < 5)%nat -> 0 = c * (6 / 5 / a ^ 3) * seen w 0 KS j +
    c / s * (/ s * (rsum 3 (fun l => ax KS KU (a / s) (a / s) j l * phi l) - / s * rsum 5 (fun l => ax KS KS (a / s) (a / s) j l * seen w 0 KS l))).
Proof. intros Hj. pose proof (seen_row KS j ltac:(discriminate) Hj) as E. rewrite seen_E in E. exact E. Qed.
Lemma flat_zero q t : q = 6 / 5 * ((a / s) ^ 2 + (a / s) ^ 2) -> 0 = c * (6 / 5 / a ^ 3) * t - c / s * (/ s * (/ s * (q * t))) -> t = 0.
Proof.
  intros Hq E. destruct s_far as [Hs Has]. pose proof (s_pos s Hs) as SP. pose proof cpos as Hc.
  assert (Hu : 0 < a / s) by (apply Rdiv_lt_0_compat; assumption).
  assert (Hu2 : a / s <= 1 / 2) by (apply Rmult_le_reg_r with s; [exact SP|]; replace (a / s * s) with a by (field; lra); lra).
  assert (Ea : a = a / s * s) by (field; lra). set (v := a / s) in *. rewrite Ea in E.
  assert (V2 : 0 < v ^ 2 <= 1 / 4) by (split; [apply pow_lt; exact Hu|]; replace (1 / 4) with ((1 / 2) ^ 2) by field; apply pow_incr; lra).
  assert (V3 : 0 < v ^ 3 <= 1 / 8) by (split; [apply pow_lt; exact Hu|]; replace (1 / 8) with ((1 / 2) ^ 3) by field; apply pow_incr; lra).
  assert (P : 0 < 6 / 5 - q * v ^ 3) by (rewrite Hq; nra).
  assert (E' : 0 = c * (6 / 5 - q * v ^ 3) / (v ^ 3 * s ^ 3) * t) by (rewrite E; field; lra).
  assert (NZ : 0 < c * (6 / 5 - q * v ^ 3) / (v ^ 3 * s ^ 3)).
  { apply Rdiv_lt_0_compat; [apply Rmult_lt_0_compat; lra|]. apply Rmult_lt_0_compat; [lra|apply pow_lt; exact SP]. }
  symmetry in E'. apply Rmult_integral in E'. destruct E'; [lra|assumption].
Qed.
Lemma line_Q l : (l < 3)%nat -> Q 2%nat l = - towards (x 0%nat) (x 1%nat) l.
Proof.
  intros Hl. destruct s_far as [Hs _]. pose proof (s_pos s Hs) as SP.
  destruct (geom_used (x 0%nat) (x 1%nat) a a ltac:(lra) Hx) as (_ & G1 & G2). fold r s in G2.
  assert (E : r l = Q 2%nat l * s).
  { transitivity (rsum 3 (fun i => Q i l * rot Q r i)).
    - unfold rot, mvec. rewrite (rsum_ext 3 _ (fun i => rsum 3 (fun m => Q i l * Q i m * r m))) by (intros; rewrite <- rsum_scal_l; apply rsum_ext; intros; ring).
      rewrite rsum_swap. rewrite (rsum_ext 3 _ (fun m => delta l m * r m)).
      + symmetry. apply rsum_delta_l. exact Hl.
      + intros m Hm. rewrite rsum_scal_r. rewrite <- (tmat_cols Q HQ KU l m Hl Hm). reflexivity.
    - unfold rsum. rewrite !EQ by lia. cbn [v3]. rewrite G2. ring. }
  assert (N0 : 0 < norm (vsub (x 0%nat) (x 1%nat))) by (assert (0 < / 10 ^ 8) by (apply Rinv_0_lt_compat, pow_lt; lra); lra).
  unfold r in E. rewrite (G1 l Hl) in E. fold s in E. unfold along, vscal, vsub in E.
  apply Rmult_eq_reg_r with s; [|lra]. rewrite <- E. unfold towards.
  replace (norm (vsub (x 1%nat) (x 0%nat))) with (norm (vsub (x 0%nat) (x 1%nat))) by (unfold norm, vsub; f_equal; ring).
  change (norm (fun i : nat => x 0%nat i - x 1%nat i)) with (norm (vsub (x 0%nat) (x 1%nat))). field. lra.
Qed.

Theorem solved_drift l : (l < 3)%nat -> u l = drift a mu (x 0%nat) (x 1%nat) F l.
Proof.
  intros Hl. pose proof PI_RGT_0 as HPI.
  assert (B : u l = rsum 3 (fun i => Q i l * seen u 0 KU i)).
  { unfold seen, turnX. cbn [ksize tmat kstart]. rewrite (rsum_ext 3 _ (fun i => rsum 3 (fun m => Q i l * Q i m * u m))) by (intros; rewrite <- rsum_scal_l; apply rsum_ext; intros; cbn [Nat.mul Nat.add]; ring).
    rewrite rsum_swap. rewrite (rsum_ext 3 _ (fun m => delta l m * u m)).
    + symmetry. apply rsum_delta_l. exact Hl.
    + intros m Hm. rewrite rsum_scal_r. rewrite <- (tmat_cols Q HQ KU l m Hl Hm). reflexivity. }
  assert (BF : F l = rsum 3 (fun i => Q i l * phi i)).
  { unfold phi. rewrite (rsum_ext 3 _ (fun i => rsum 3 (fun m => Q i l * Q i m * F m))) by (intros; rewrite <- rsum_scal_l; apply rsum_ext; intros; ring).
    rewrite rsum_swap. rewrite (rsum_ext 3 _ (fun m => delta l m * F m)).
    + symmetry. apply rsum_delta_l. exact Hl.
    + intros m Hm. rewrite rsum_scal_r. rewrite <- (tmat_cols Q HQ KU l m Hl Hm). reflexivity. }
  assert (P2 : phi 2%nat = - dot3 F (towards (x 0%nat) (x 1%nat))).
  { unfold phi, dot3, rsum. rewrite !line_Q by lia. ring. }
  assert (FT : rsum 3 (fun i => Q i l * phi i) = Q 0%nat l * phi 0%nat + Q 1%nat l * phi 1%nat + Q 2%nat l * phi 2%nat) by (unfold rsum; ring).
  rewrite B. unfold rsum. rewrite !seen_U by lia. cbn [Nat.eqb].
  transitivity (c * (4 / 3 / a) * (across_gain (a / s) * (Q 0%nat l * phi 0%nat + Q 1%nat l * phi 1%nat) + along_gain (a / s) * (Q 2%nat l * phi 2%nat))); [ring|].
  replace (Q 0%nat l * phi 0%nat + Q 1%nat l * phi 1%nat) with (F l - Q 2%nat l * phi 2%nat) by (rewrite BF, FT; ring).
  rewrite (line_Q l Hl), P2. unfold drift. fold s. set (e := towards _ _). set (d := dot3 F e). unfold c. field. repeat split; lra.
Qed.
(** The stresslet of the first sphere. *)
Variable A : mat.
Hypothesis HA : st A.
Hypothesis HAw : forall k, (k < 5)%nat -> w (12 + k)%nat = condense_idx A k.
Lemma A_seen m : (m < 5)%nat -> condense_idx (rot2 Q A) m = seen w 0 KS m.
Proof.
  intros Hm. rewrite (cond_rot Q A m HA Hm). unfold seen, turnX. cbn [ksize tmat kstart]. apply rsum_ext. intros k Hk.
  change (6 * 2 + 5 * 0 + k)%nat with (12 + k)%nat. rewrite HAw by exact Hk. reflexivity.
Qed.
Let B := rot2 Q A.
Let v := a / s.
Let sg := 5 / 3 * (1 - 8 / 5 * v ^ 2) * s * v ^ 3 / (1 + 5 * v ^ 3 - 12 * v ^ 5).
Let bt := 4 / 3 * v ^ 2 * s * v ^ 3 / (1 - 5 / 2 * v ^ 3 + 8 * v ^ 5).
Lemma axis_stress : B 0%nat 0%nat = - (sg * phi 2%nat) / 2 /\ B 1%nat 1%nat = - (sg * phi 2%nat) / 2 /\ B 2%nat 2%nat = sg * phi 2%nat /\
  B 0%nat 1%nat = 0 /\ B 0%nat 2%nat = bt * phi 0%nat /\ B 1%nat 2%nat = bt * phi 1%nat.
Proof.
  destruct s_far as [Hs Has]. pose proof (s_pos s Hs) as SP. pose proof cpos as Hc.
  assert (Hv : 0 < v) by (apply Rdiv_lt_0_compat; assumption).
  pose proof (A_seen 0 ltac:(lia)) as C0. pose proof (A_seen 1 ltac:(lia)) as C1. pose proof (A_seen 2 ltac:(lia)) as C2.
  pose proof (A_seen 3 ltac:(lia)) as C3. pose proof (A_seen 4 ltac:(lia)) as C4. fold B in C0, C1, C2, C3, C4.
  rewrite Proof_Axi1.cond0 in C0. rewrite Proof_Axi1.cond1 in C1. rewrite Proof_Axi1.cond2 in C2. rewrite Proof_Axi1.cond3 in C3. rewrite Proof_Axi1.cond4 in C4.
  pose proof (seen_rows 0 ltac:(lia)) as E0. pose proof (seen_rows 1 ltac:(lia)) as E1. pose proof (seen_rows 2 ltac:(lia)) as E2.
  pose proof (seen_rows 3 ltac:(lia)) as E3. pose proof (seen_rows 4 ltac:(lia)) as E4. unfold rsum in E0, E1, E2, E3, E4. cbn [ax] in E0, E1, E2, E3, E4.
  set (S0 := seen w 0 KS 0%nat) in *. set (S1 := seen w 0 KS 1%nat) in *. set (S2 := seen w 0 KS 2%nat) in *. set (S3 := seen w 0 KS 3%nat) in *. set (S4 := seen w 0 KS 4%nat) in *.
  assert (Z1 : S1 = 0) by (apply (flat_zero _ _ eq_refl); rewrite E1; ring).
  assert (Z02 : S0 - S2 = 0).
  { apply (flat_zero _ _ eq_refl). transitivity (0 - 0); [ring|].
    lazymatch type of E0 with 0 = ?X => lazymatch type of E2 with 0 = ?Y => transitivity (X - Y); [rewrite <- E0, <- E2; reflexivity|] end end. set (u0 := a / s). field. split; lra. }
  assert (T : sqrt 3 * (S0 + S2) = - 5 * (1 - v ^ 2 - 3 / 5 * v ^ 2) * phi 2%nat * s * v ^ 3 / (1 + 5 * v ^ 3 - 12 * v ^ 5)).
  { apply (along_stress a s c (phi 2%nat) (S0 + S2)); try assumption. transitivity (0 + 0); [|ring].
    lazymatch type of E0 with 0 = ?X => lazymatch type of E2 with 0 = ?Y => transitivity (X + Y); [|rewrite <- E0, <- E2; reflexivity] end end. set (u0 := a / s). field. split; lra. }
  assert (T3 : s2 * S3 = 5 / 3 * (v ^ 2 + 3 / 5 * v ^ 2) * phi 0%nat * s * v ^ 3 / (1 - 5 / 2 * v ^ 3 + 8 * v ^ 5)).
  { apply (across_stress a s c (phi 0%nat) S3); try assumption. rewrite E3. ring. }
  assert (T4 : s2 * S4 = 5 / 3 * (v ^ 2 + 3 / 5 * v ^ 2) * phi 1%nat * s * v ^ 3 / (1 - 5 / 2 * v ^ 3 + 8 * v ^ 5)).
  { apply (across_stress a s c (phi 1%nat) S4); try assumption. rewrite E4. ring. }
  clear E0 E1 E2 E3 E4.
  assert (R3 : sqrt 3 * sqrt 3 = 3) by (apply sqrt_sqrt; lra). assert (R2 : s2 * s2 = 2) by exact s2_sq.
  assert (P2 : s2 <> 0) by (intros Z; rewrite Z in R2; lra). assert (P3 : sqrt 3 <> 0) by (intros Z; rewrite Z in R3; lra).
  unfold hs3p1, hs3m1, s3 in C0, C2. destruct (st_rot Q HQ A HA) as [_ TR]. fold B in TR.
  assert (D01 : B 0%nat 0%nat = B 1%nat 1%nat) by lra.
  assert (B0 : B 0%nat 0%nat = - (sg * phi 2%nat) / 2).
  { assert (K : sqrt 3 * B 0%nat 0%nat = S0) by (rewrite <- C0, D01; field).
    assert (K3 : 3 * B 0%nat 0%nat = sqrt 3 * (S0 + S2) / 2) by (replace S2 with S0 by lra; rewrite <- K; transitivity (sqrt 3 * sqrt 3 * B 0%nat 0%nat); [rewrite R3; reflexivity|field]).
    assert (B 0%nat 0%nat = sqrt 3 * (S0 + S2) / 6) by lra. rewrite H, T. unfold sg. set (dn := 1 + 5 * v ^ 3 - 12 * v ^ 5). unfold Rdiv. set (i1 := / dn). clearbody i1. field. }
  split; [exact B0|]. split; [rewrite <- D01; exact B0|]. split; [rewrite D01 in *; lra|].
  split; [apply Rmult_eq_reg_l with s2; [|exact P2]; lra|]. split.
  - assert (K : 2 * B 0%nat 2%nat = s2 * S3) by (rewrite <- C3; transitivity (s2 * s2 * B 0%nat 2%nat); [rewrite R2; reflexivity|ring]). assert (K' : B 0%nat 2%nat = s2 * S3 / 2) by lra. rewrite K', T3. unfold bt. set (dn := 1 - 5 / 2 * v ^ 3 + 8 * v ^ 5). unfold Rdiv. set (i1 := / dn). clearbody i1. field.
  - assert (K : 2 * B 1%nat 2%nat = s2 * S4) by (rewrite <- C4; transitivity (s2 * s2 * B 1%nat 2%nat); [rewrite R2; reflexivity|ring]). assert (K' : B 1%nat 2%nat = s2 * S4 / 2) by lra. rewrite K', T4. unfold bt. set (dn := 1 - 5 / 2 * v ^ 3 + 8 * v ^ 5). unfold Rdiv. set (i1 := / dn). clearbody i1. field.
Qed.
Theorem solved_stresslet k l : (k < 3)%nat -> (l < 3)%nat -> A k l = pair_stresslet a (x 0%nat) (x 1%nat) F k l.
Proof.
  intros Hk Hl. destruct axis_stress as (B00 & B11 & B22 & B01 & B02 & B12). destruct (st_rot Q HQ A HA) as [SY _]. fold B in SY.
  assert (BF : forall l, (l < 3)%nat -> F l = Q 0%nat l * phi 0%nat + Q 1%nat l * phi 1%nat + Q 2%nat l * phi 2%nat).
  { clear k l Hk Hl. intros l Hl. transitivity (rsum 3 (fun i => Q i l * phi i)); [|unfold rsum; ring].
    unfold phi. rewrite (rsum_ext 3 _ (fun i => rsum 3 (fun m => Q i l * Q i m * F m))) by (intros; rewrite <- rsum_scal_l; apply rsum_ext; intros; ring).
    rewrite rsum_swap. rewrite (rsum_ext 3 _ (fun m => delta l m * F m)).
    + symmetry. apply rsum_delta_l. exact Hl.
    + intros m Hm. rewrite rsum_scal_r. rewrite <- (tmat_cols Q HQ KU l m Hl Hm). reflexivity. }
  assert (P2 : phi 2%nat = - dot3 F (towards (x 0%nat) (x 1%nat))).
  { unfold phi, dot3, rsum. rewrite !line_Q by lia. ring. }
  assert (CO : forall y z, (y < 3)%nat -> (z < 3)%nat -> Q 0%nat y * Q 0%nat z + Q 1%nat y * Q 1%nat z + Q 2%nat y * Q 2%nat z = delta y z).
  { intros y z Hy Hz. rewrite <- (tmat_cols Q HQ KU y z Hy Hz). cbn [ksize tmat]. unfold rsum. ring. }
  assert (EA : A k l = rsum 3 (fun i => rsum 3 (fun j => Q i k * Q j l * B i j))).
  { assert (RA : A k l = rsum 3 (fun y => rsum 3 (fun z => delta k y * delta l z * A y z))).
    { rewrite (rsum_ext 3 _ (fun y => delta k y * A y l)); [symmetry; apply (rsum_delta_l 3 k (fun y => A y l)); exact Hk|]. intros y Hy.
      rewrite (rsum_ext 3 _ (fun z => delta l z * (delta k y * A y z))) by (intros; ring). apply (rsum_delta_l 3 l (fun z => delta k y * A y z)). exact Hl. }
    rewrite RA. unfold rsum, B, rot2. rewrite <- !(CO k) by lia. rewrite <- !(CO l) by lia. unfold rsum. ring. }
  rewrite EA. unfold rsum. rewrite (SY 1%nat 0%nat), (SY 2%nat 0%nat), (SY 2%nat 1%nat) by lia. rewrite B00, B11, B22, B01, B02, B12.
  transitivity (3 / 2 * (sg * phi 2%nat) * (Q 2%nat k * Q 2%nat l - (Q 0%nat k * Q 0%nat l + Q 1%nat k * Q 1%nat l + Q 2%nat k * Q 2%nat l) / 3)
    + bt * ((Q 0%nat k * phi 0%nat + Q 1%nat k * phi 1%nat) * Q 2%nat l + Q 2%nat k * (Q 0%nat l * phi 0%nat + Q 1%nat l * phi 1%nat))); [field|].
  rewrite (CO k l Hk Hl).
  replace (Q 0%nat k * phi 0%nat + Q 1%nat k * phi 1%nat) with (F k - Q 2%nat k * phi 2%nat) by (rewrite (BF k Hk); ring).
  replace (Q 0%nat l * phi 0%nat + Q 1%nat l * phi 1%nat) with (F l - Q 2%nat l * phi 2%nat) by (rewrite (BF l Hl); ring).
  rewrite (line_Q k Hk), (line_Q l Hl), P2. unfold pair_stresslet. fold s. set (e := towards _ _). set (d := dot3 F e).
  destruct s_far as [Hs Has]. pose proof (s_pos s Hs) as SP.
  assert (V : 0 < v <= 1 / 2).
  { split; [apply Rdiv_lt_0_compat; assumption|]. apply Rmult_le_reg_r with s; [exact SP|]. unfold v. replace (a / s * s) with a by (field; lra). lra. }
  assert (EV : s * v ^ 3 = a * v ^ 2) by (unfold v; field; lra). fold v. unfold sg, bt.
  replace (5 / 3 * (1 - 8 / 5 * v ^ 2) * s * v ^ 3) with (5 / 3 * (1 - 8 / 5 * v ^ 2) * (a * v ^ 2)) by (rewrite <- EV; ring).
  replace (4 / 3 * v ^ 2 * s * v ^ 3) with (4 / 3 * v ^ 2 * (a * v ^ 2)) by (rewrite <- EV; ring).
  set (d1 := 1 + 5 * v ^ 3 - 12 * v ^ 5). set (d2 := 1 - 5 / 2 * v ^ 3 + 8 * v ^ 5). unfold Rdiv. set (i1 := / d1). set (i2 := / d2). clearbody i1 i2. field.
Qed.
End Pair.
