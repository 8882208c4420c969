From Coq Require Import Reals List ZArith Arith Bool Lra Lia.
From Verif Require Import Base Model_Mob Model_Close Model_Reflect Spec_Reflect Proof_Reflect Proof_Reflect2 Proof_Reflect3.
Import ListNotations.
Local Open Scope R_scope.

(** ** The coefficients of order -m are the conjugates *)
Definition par (m : Z) : R := (- (1)) ^ Z.abs_nat m.
Definition mirror (N : nat) (c : coef) : Prop := forall n m, rng N n m ->
  c 1%nat n (- m)%Z = par m * c 1%nat n m /\ c 2%nat n (- m)%Z = - (par m * c 2%nat n m).
Lemma rng_opp N n m : rng N n m -> rng N n (- m).
Proof. intros [A B]. split; [exact A|]. lia. Qed.
Lemma par_opp m : par (- m) = par m.
Proof. unfold par. f_equal. lia. Qed.
Lemma mirror_lin N c c1 c2 u v : mirror N c1 -> mirror N c2 -> (forall j n m, rng N n m -> c j n m = u n * c1 j n m + v n * c2 j n m) -> mirror N c.
Proof.
  intros A B E n m Hr. pose proof (rng_opp _ _ _ Hr) as Hr'. rewrite !(E _ _ _ Hr), !(E _ _ _ Hr').
  destruct (A n m Hr) as [a1 a2]. destruct (B n m Hr) as [b1 b2]. rewrite a1, a2, b1, b2. split; ring.
Qed.

Lemma g_up_down nu n d : (d <= n)%nat -> g_up nu n d = g_down nu n d.
Proof.
  induction d as [|d IH]; intros Hd; [reflexivity|].
  assert (E : g_up nu n (S d) = (INR nu - (- INR n + INR d)) * g_up nu n d / (INR n + (- INR n + INR d) + 1)).
  { destruct d as [|d]; [|reflexivity]. cbn [g_up INR]. field. lra. }
  rewrite E, IH by lia. change (g_down nu n (S d)) with ((INR nu + INR (n - S d) + 1) * g_down nu n d / (0 + INR n - INR (n - S d))).
  rewrite minus_INR by exact Hd. rewrite S_INR. pose proof (pos_INR d). field; repeat split; lra.
Qed.
Lemma g_opp nu n m : g nu n (- m) = g nu n m.
Proof.
  destruct m as [|p|p]; [reflexivity| |]; cbn [Z.opp g]; destruct (Nat.leb (Pos.to_nat p) n); try reflexivity.
  - apply g_up_down. lia.
  - symmetry. apply g_up_down. lia.
Qed.
Lemma ninit_opp m : ninit (- m) = ninit m.
Proof. unfold ninit. destruct m; reflexivity. Qed.
Lemma sq1 k : (- (1)) ^ (2 * k) = 1.
Proof. rewrite pow_mult. replace ((- (1)) ^ 2) with 1 by ring. apply pow1. Qed.
Lemma weight_opp r nu n m : (Z.abs m <= Z.of_nat n)%Z -> translate_weight r nu n (- m) = translate_weight r nu n m.
Proof.
  intros B. unfold translate_weight.
  assert (P : power_m (- (1)) n (- m) = power_m (- (1)) n m).
  { unfold power_m. destruct (Z_le_gt_dec 0 m) as [C|C].
    - replace (Z.abs_nat (Z.of_nat n + m)) with (Z.abs_nat (Z.of_nat n + - m) + 2 * Z.abs_nat m)%nat by lia. rewrite pow_add, sq1. ring.
    - replace (Z.abs_nat (Z.of_nat n + - m)) with (Z.abs_nat (Z.of_nat n + m) + 2 * Z.abs_nat m)%nat by lia. rewrite pow_add, sq1. ring. }
  rewrite P. unfold FracH. replace (Z.abs_nat (- m)) with (Z.abs_nat m) by lia. reflexivity.
Qed.
Lemma translate_C_opp r nu n m c : translate_C r nu n (- m) c = translate_C r nu n m c.
Proof. unfold translate_C. rewrite !g_opp, Z.abs_opp. reflexivity. Qed.
Lemma tsum_scal lo hi u f : tsum lo hi (fun n => u * f n) = u * tsum lo hi f.
Proof. unfold tsum. rewrite rsum_scal_l. reflexivity. Qed.

Lemma mirror_translate N r f : mirror N (cA f) -> mirror N (cB f) -> mirror N (cC f) ->
  mirror N (translate_D N r f) /\ mirror N (translate_E N r f) /\ mirror N (translate_F N r f).
Proof.
  intros MA MB MC.
  split; [|split]; intros nu m Hr; unfold translate_D, translate_E, translate_F; rewrite ninit_opp; cbn [other part_sign Nat.eqb];
    (split; [rewrite <- tsum_scal|rewrite Ropp_mult_distr_l, <- tsum_scal]); apply tsum_ext; intros n Hn;
    destruct (MA n m (in_sum _ _ _ Hn)) as [a1 a2]; destruct (MB n m (in_sum _ _ _ Hn)) as [b1 b2]; destruct (MC n m (in_sum _ _ _ Hn)) as [c1 c2];
    rewrite weight_opp by (apply ninit_abs; lia); rewrite ?translate_C_opp, ?g_opp, ?a1, ?a2, ?b1, ?b2, ?c1, ?c2, ?opp_IZR; unfold translate_C, Rdiv; ring.
Qed.

Lemma par_values : par 0 = 1 /\ par 1 = - (1) /\ par (-1) = - (1) /\ par 2 = 1 /\ par (-2) = 1.
Proof. unfold par. repeat split; change (Z.abs_nat (-1)) with 1%nat; change (Z.abs_nat (-2)) with 2%nat; change (Z.abs_nat 1) with 1%nat; change (Z.abs_nat 2) with 2%nat; change (Z.abs_nat 0) with 0%nat; ring. Qed.
Lemma mirror_at1 N c0 c1 s1 : mirror N (at1 c0 c1 s1).
Proof.
  intros n m [A B]. unfold at1. destruct (Nat.eqb_spec n 1) as [->|]; [|split; ring].
  assert (M : (m = -1 \/ m = 0 \/ m = 1)%Z) by lia. destruct par_values as (p0 & p1 & p1' & _).
  destruct M as [->|[->| ->]]; cbn [Z.opp]; rewrite ?p0, ?p1, ?p1'; split; ring.
Qed.
Lemma mirror_d0 N xg E : mirror N (d0 xg E).
Proof.
  intros n m [A B]. unfold d0, initial_D. destruct (Nat.eqb_spec n 2) as [->|]; [|split; ring].
  assert (M : (m = -2 \/ m = -1 \/ m = 0 \/ m = 1 \/ m = 2)%Z) by lia.
  destruct par_values as (p0 & p1 & p1' & p2 & p2').
  destruct M as [->|[->|[->|[->| ->]]]]; cbn [Z.opp]; rewrite ?p0, ?p1, ?p1', ?p2, ?p2'; unfold Rdiv; split; ring.
Qed.
Lemma mirror_ext N c c' : mirror N c -> (forall j n m, rng N n m -> c' j n m = c j n m) -> mirror N c'.
Proof. intros M E n m Hr. rewrite !E by (try apply rng_opp; assumption). exact (M n m Hr). Qed.
Lemma mirror_A N a F : mirror N (initial_A a F).
Proof.
  apply (mirror_lin N _ (initial_C F) (initial_C F) (fun _ => a ^ 2 / 6) (fun _ => 0)); try apply mirror_at1.
  intros j n m [A B]. rewrite initial_A_eq. destruct (Nat.eq_dec n 1) as [->|Hn]; [rewrite within_true by lia; field|].
  rewrite within_hi by lia. unfold initial_C. rewrite at1_out by exact Hn. ring.
Qed.
Lemma mirror_out N a d e f : mirror N d -> mirror N e -> mirror N f ->
  mirror N (fun j n m => oA a n (d j n m) (e j n m) (f j n m)) /\ mirror N (fun j n m => oB a n (d j n m) (e j n m) (f j n m)) /\ mirror N (fun j n m => oC a n (d j n m) (e j n m) (f j n m)).
Proof.
  intros D E F. split; [|split]; intros n m Hr; destruct (D n m Hr) as [d1 d2]; destruct (E n m Hr) as [e1 e2]; destruct (F n m Hr) as [f1 f2]; rewrite d1, d2, e1, e2, f1, f2;
    unfold oA, oB, oC, outgoing, invert_A, invert_C; destruct (Nat.eqb n 1); cbn [fst snd]; unfold Rdiv; split; ring.
Qed.

Section Run.
Variables (N : nat) (radius : nat -> R) (r : nat -> nat -> R) (xg : R) (Ff Tt : nat -> vec) (Ee : nat -> mat) (s0 : arrays).
Hypothesis N2 : (2 <= N)%nat.
Hypothesis start : Set_Initial_Conditions N radius xg Ff Tt Ee = Some s0.
Notation after := (after N radius r s0).
Definition mirror6 (f : six) : Prop := mirror N (cA f) /\ mirror N (cB f) /\ mirror N (cC f) /\ mirror N (cD f) /\ mirror N (cE f) /\ mirror N (cF f).
Lemma mirror_add c c1 c2 : mirror N c1 -> mirror N c2 -> (forall j n m, rng N n m -> c j n m = c1 j n m + c2 j n m) -> mirror N c.
Proof. intros A B E. apply (mirror_lin N c c1 c2 (fun _ => 1) (fun _ => 1) A B). intros j n m Hr. rewrite E by exact Hr. ring. Qed.
Lemma mirror_sub c c1 c2 : mirror N c1 -> mirror N c2 -> (forall j n m, rng N n m -> c j n m = c1 j n m - c2 j n m) -> mirror N c.
Proof. intros A B E. apply (mirror_lin N c c1 c2 (fun _ => 1) (fun _ => - (1)) A B). intros j n m Hr. rewrite E by exact Hr. ring. Qed.
Lemma mirror_step s k : sphere k -> balanced N radius r xg Ff Tt Ee s ->
  mirror N (cA (s (opp k) 1%nat)) -> mirror N (cB (s (opp k) 1%nat)) -> mirror N (cC (s (opp k) 1%nat)) -> mirror6 (total N s k).
Proof.
  intros Hk Bl MA MB MC. destruct (mirror_translate N (r (opp k) k) _ MA MB MC) as (TD & TE & TF).
  assert (D : mirror N (cD (total N s k))).
  { apply (mirror_add _ _ _ (mirror_d0 N xg (Ee k)) TD). intros j n m Hr. destruct (total_get N s k j n m Hr) as (_ & _ & _ & -> & _).
    destruct (Bl k j n m Hk Hr) as (_ & _ & _ & (d & _) & _). exact d. }
  assert (E : mirror N (cE (total N s k))).
  { apply (mirror_ext _ _ _ TE). intros j n m Hr. destruct (total_get N s k j n m Hr) as (_ & _ & _ & _ & -> & _).
    destruct (Bl k j n m Hk Hr) as (_ & _ & _ & (_ & e & _) & _). exact e. }
  assert (F : mirror N (cF (total N s k))).
  { apply (mirror_ext _ _ _ TF). intros j n m Hr. destruct (total_get N s k j n m Hr) as (_ & _ & _ & _ & _ & ->).
    destruct (Bl k j n m Hk Hr) as (_ & _ & _ & (_ & _ & f) & _). exact f. }
  destruct (mirror_out N (radius k) _ _ _ D E F) as (OA & OB & OC).
  split; [|split; [|split; [|auto]]].
  - apply (mirror_sub _ _ _ (mirror_A N (radius k) (Ff k)) OA). intros j n m Hr. destruct (total_get N s k j n m Hr) as (-> & _ & _ & -> & -> & ->).
    destruct (Bl k j n m Hk Hr) as (q & _). exact q.
  - apply (mirror_sub _ _ _ (mirror_at1 N _ _ _ : mirror N (initial_B (Tt k))) OB). intros j n m Hr. destruct (total_get N s k j n m Hr) as (_ & -> & _ & -> & -> & ->).
    destruct (Bl k j n m Hk Hr) as (_ & q & _). exact q.
  - apply (mirror_sub _ _ _ (mirror_at1 N _ _ _ : mirror N (initial_C (Ff k))) OC). intros j n m Hr. destruct (total_get N s k j n m Hr) as (_ & _ & -> & -> & -> & ->).
    destruct (Bl k j n m Hk Hr) as (_ & _ & q & _). exact q.
Qed.
Lemma level1_after J k j n m : sphere k -> rng N n m ->
  cA (after (S J) k 1%nat) j n m = cA (total N (after J) k) j n m /\ cB (after (S J) k 1%nat) j n m = cB (total N (after J) k) j n m /\ cC (after (S J) k 1%nat) j n m = cC (total N (after J) k) j n m.
Proof.
  intros Hk Hr. destruct (level1_pass N radius r xg Ff Tt Ee (after J) (balanced_after N radius r xg Ff Tt Ee s0 start J) k Hk j n m Hr) as (a & b & c).
  destruct (total_get N (after J) k j n m Hr) as (a' & b' & c' & _). rewrite a', b', c'. repeat split; assumption.
Qed.
Theorem mirror_after J k : sphere k -> mirror6 (total N (after J) k).
Proof.
  revert k. induction J as [|J IH]; intros k Hk; destruct (opp_sphere k Hk) as (Hk' & _); apply mirror_step; try exact Hk; try exact (balanced_after N radius r xg Ff Tt Ee s0 start _).
  1-3: intros n m Hr; destruct (init_get N radius xg Ff Tt Ee s0 start (opp k) 1%nat n m Hk' Hr) as (Z & _);
    change (after 0 (opp k) 1%nat) with (s0 (opp k) 1%nat); rewrite Z; cbn; unfold zero_coef; split; ring.
  all: destruct (IH (opp k) Hk') as (A & B & C & _).
  - apply (mirror_ext _ _ _ A). intros j n m Hr. apply level1_after; assumption.
  - apply (mirror_ext _ _ _ B). intros j n m Hr. apply level1_after; assumption.
  - apply (mirror_ext _ _ _ C). intros j n m Hr. apply level1_after; assumption.
Qed.

Lemma zero_small : Rleb (Rabs 0) (/ 10 ^ 4) = true.
Proof. unfold Rleb. destruct (Rle_dec (Rabs 0) (/ 10 ^ 4)) as [|Q]; [reflexivity|]. exfalso. apply Q. rewrite Rabs_R0. apply Rlt_le, Rinv_0_lt_compat. lra. Qed.
Theorem real_after J k : sphere k -> is_real (radius k) (total N (after J) k) = true.
Proof.
  intros Hk. destruct (mirror_after J k Hk) as (A & B & C & D & E & F). set (f := total N (after J) k) in *. clearbody f.
  assert (R0 : forall n, (1 <= n <= N)%nat -> rng N n 0) by (intros n Hn; split; [exact Hn|lia]).
  assert (R1 : forall n, (1 <= n <= N)%nat -> rng N n 1) by (intros n Hn; split; [exact Hn|lia]).
  assert (R2 : rng N 2 2) by (split; [lia|lia]).
  assert (z : forall c, mirror N c -> forall n, (1 <= n <= N)%nat -> c 2%nat n 0%Z = 0).
  { intros c Mc n Hn. destruct (Mc n 0%Z (R0 n Hn)) as [_ q]. cbn [Z.opp] in q. rewrite (proj1 par_values) in q. lra. }
  assert (p : forall c, mirror N c -> forall n, (1 <= n <= N)%nat -> c 1%nat n (-1)%Z = - c 1%nat n 1%Z /\ c 2%nat n (-1)%Z = c 2%nat n 1%Z).
  { intros c Mc n Hn. destruct (Mc n 1%Z (R1 n Hn)) as [q q']. cbn [Z.opp] in q, q'. rewrite (proj1 (proj2 par_values)) in q, q'. lra. }
  assert (p2 : forall c, mirror N c -> c 1%nat 2%nat (-2)%Z = c 1%nat 2%nat 2%Z /\ c 2%nat 2%nat (-2)%Z = - c 2%nat 2%nat 2%Z).
  { intros c Mc. destruct (Mc 2%nat 2%Z R2) as [q q']. cbn [Z.opp] in q, q'. destruct par_values as (_ & _ & _ & p2 & _). rewrite p2 in q, q'. lra. }
  assert (H1 : H 1 (-1) = H 1 1) by reflexivity. assert (H2 : H 2 (-1) = H 2 1) by reflexivity. assert (H3 : H 2 (-2) = H 2 2) by reflexivity.
  assert (V : forall a q, (q < 3)%nat -> vec_im (velocity_V a f) q = 0 /\ vec_im (rotation_V a f) q = 0).
  { intros a q Hq. destruct (p _ A 1%nat ltac:(lia)) as [a1 a2]. destruct (p _ B 1%nat ltac:(lia)) as [b1 b2]. destruct (p _ C 1%nat ltac:(lia)) as [c1 c2].
    destruct (p _ D 1%nat ltac:(lia)) as [d1 d2]. destruct (p _ E 1%nat ltac:(lia)) as [e1 e2].
    destruct q as [|[|[|q]]]; [| | |lia]; unfold vec_im, velocity_V, rotation_V, v3; rewrite ?H1, ?a1, ?a2, ?b1, ?b2, ?c1, ?c2, ?d1, ?d2, ?e1, ?e2, ?(z _ A), ?(z _ B), ?(z _ C), ?(z _ D), ?(z _ E) by lia; unfold Rdiv; split; ring. }
  assert (W : forall a q, (q < 5)%nat -> S_im (stress_V a f) q = 0).
  { intros a q Hq. destruct (p _ C 2%nat ltac:(lia)) as [c1 c2]. destruct (p _ D 2%nat ltac:(lia)) as [d1 d2]. destruct (p _ F 2%nat ltac:(lia)) as [f1 f2].
    destruct (p2 _ C) as [c3 c4]. destruct (p2 _ D) as [d3 d4]. destruct (p2 _ F) as [f3 f4].
    do 5 (destruct q as [|q]; [unfold S_im, stress_V; cbn [nth]; rewrite ?H2, ?H3, ?c1, ?c2, ?c3, ?c4, ?d1, ?d2, ?d3, ?d4, ?f1, ?f2, ?f3, ?f4, ?(z _ C), ?(z _ D), ?(z _ F) by lia; unfold Rdiv; ring|]). lia. }
  unfold is_real. cbn [forallb].
  destruct (V (radius k) 0%nat ltac:(lia)) as [v0 w0]. destruct (V (radius k) 1%nat ltac:(lia)) as [v1 w1]. destruct (V (radius k) 2%nat ltac:(lia)) as [v2 w2].
  rewrite v0, w0, v1, w1, v2, w2, !W by lia. rewrite zero_small. reflexivity.
Qed.

(** ** When the iteration stops *)
Lemma iterate_stop fuel : forall J eps t, iterate fuel J eps N radius r (after J) = Some t ->
  exists J', (J <= J')%nat /\ (6 <= J')%nat /\ t = after J' /\
    ((J' = J /\ eps <= globalerror) \/
     exists q, J' = S q /\ Find_force (radius 1%nat) (reflect N radius r (after q) 1%nat 3%nat) + Find_force (radius 2%nat) (reflect N radius r (after q) 2%nat 3%nat) <= globalerror).
Proof.
  assert (stop : forall J eps, (Nat.ltb J 6 || Rltb globalerror eps)%bool = false -> (6 <= J)%nat /\ eps <= globalerror).
  { intros J eps E. apply orb_false_elim in E. destruct E as [E1 E2]. apply Nat.ltb_ge in E1. split; [exact E1|].
    unfold Rltb in E2. destruct (Rlt_dec globalerror eps); [discriminate|lra]. }
  induction fuel as [|fuel IH]; intros J eps t; cbn [iterate]; destruct (Nat.ltb J 6 || Rltb globalerror eps)%bool eqn:C; try discriminate.
  - intros [= <-]. exists J. destruct (stop _ _ C). repeat split; try lia; try assumption. left. split; [reflexivity|assumption].
  - change (update N (reflect N radius r (after J))) with (after (S J)).
    intros Ht. destruct (IH _ _ _ Ht) as (J' & A & B & -> & Q). exists J'. split; [lia|]. split; [exact B|]. split; [reflexivity|]. right.
    destruct Q as [[-> Q]|Q]; [|exact Q]. exists J. split; [reflexivity|].
    assert (U : Update_Fields N 1 (reflect N radius r (after J)) 2%nat 3%nat = reflect N radius r (after J) 2%nat 3%nat) by reflexivity.
    rewrite U in Q. lra.
  - intros [= <-]. exists J. destruct (stop _ _ C). repeat split; try lia; try assumption. left. split; [reflexivity|assumption].
Qed.
Lemma change_last J k j m : sphere k -> (Z.abs m <= 1)%Z ->
  velocity_V (radius k) (reflect N radius r (after J) k 3%nat) j m = velocity_V (radius k) (total N (after (S J)) k) j m - velocity_V (radius k) (total N (after J) k) j m /\
  rotation_V (radius k) (reflect N radius r (after J) k 3%nat) j m = rotation_V (radius k) (total N (after (S J)) k) j m - rotation_V (radius k) (total N (after J) k) j m.
Proof.
  intros Hk Hm. assert (Hr : rng N 1 m) by (split; [lia|exact Hm]).
  destruct (balanced_after N radius r xg Ff Tt Ee s0 start J k j 1%nat m Hk Hr) as (_ & _ & _ & _ & a & b & c).
  destruct (reflect_get N radius r (after J) k j 1%nat m Hk Hr) as (_ & _ & (A & B & C & D & E & F)).
  destruct (pass_get N radius r (after J) k j 1%nat m Hk Hr a b c) as ((A1 & B1 & C1 & D1 & E1 & F1) & (A2 & B2 & C2 & D2 & E2 & F2) & _).
  destruct (total_get N (after J) k j 1%nat m Hr) as (TA & TB & TC & TD & TE & TF).
  destruct (total_get N (after (S J)) k j 1%nat m Hr) as (SA & SB & SC & SD & SE & SF).
  unfold tot in *. change (after (S J)) with (pass N radius r (after J)) in *.
  unfold velocity_V, rotation_V. rewrite A, B, C, D, E, a, b, c, SA, SB, SC, SD, SE, TA, TB, TC, TD, TE, A1, B1, C1, D1, E1, A2, B2, C2, D2, E2.
  unfold Rdiv. split; ring.
Qed.
Lemma sq_nonneg v : 0 <= squares v.
Proof. unfold squares. pose proof (pow2_ge_0 (v 0%nat)). pose proof (pow2_ge_0 (v 1%nat)). pose proof (pow2_ge_0 (v 2%nat)). lra. Qed.
Lemma last_change J k : sphere k -> 0 < radius k ->
  let dU i := out_U (radius k) (total N (after (S J)) k) i - out_U (radius k) (total N (after J) k) i in
  let dO i := out_O (radius k) (total N (after (S J)) k) i - out_O (radius k) (total N (after J) k) i in
  6 * PI * radius k * (norm dU + norm dO) <= Find_force (radius k) (reflect N radius r (after J) k 3%nat).
Proof.
  intros Hk Ha. cbv zeta. unfold Find_force. apply Rmult_le_compat_l; [pose proof PI_RGT_0; apply Rmult_le_pos; lra|].
  assert (QU : forall i, (i < 3)%nat -> vec_re (velocity_V (radius k) (reflect N radius r (after J) k 3%nat)) i = out_U (radius k) (total N (after (S J)) k) i - out_U (radius k) (total N (after J) k) i).
  { intros i Hi. unfold out_U. destruct i as [|[|[|i]]]; [| | |lia]; unfold vec_re, v3; rewrite ?(proj1 (change_last J k _ 0%Z Hk ltac:(lia))), ?(proj1 (change_last J k _ 1%Z Hk ltac:(lia))), ?(proj1 (change_last J k _ (-1)%Z Hk ltac:(lia))); ring. }
  assert (QO : forall i, (i < 3)%nat -> vec_re (rotation_V (radius k) (reflect N radius r (after J) k 3%nat)) i = out_O (radius k) (total N (after (S J)) k) i - out_O (radius k) (total N (after J) k) i).
  { intros i Hi. unfold out_O. destruct i as [|[|[|i]]]; [| | |lia]; unfold vec_re, v3; rewrite ?(proj2 (change_last J k _ 0%Z Hk ltac:(lia))), ?(proj2 (change_last J k _ 1%Z Hk ltac:(lia))), ?(proj2 (change_last J k _ (-1)%Z Hk ltac:(lia))); ring. }
  unfold norm. rewrite <- !QU, <- !QO by lia.
  apply Rplus_le_compat; apply sqrt_le_1_alt; unfold squares at 1;
    [pose proof (sq_nonneg (vec_im (velocity_V (radius k) (reflect N radius r (after J) k 3%nat))))|pose proof (sq_nonneg (vec_im (rotation_V (radius k) (reflect N radius r (after J) k 3%nat))))]; lra.
Qed.
End Run.

(** ** The truncation *)
Lemma Set_N_range radius s : 0 < radius 1%nat -> 0 < radius 2%nat -> radius 1%nat + radius 2%nat < s ->
  (1 <= Set_N radius s <= 120)%Z /\ (2 * s <= 10 ^ 8 * (radius 1%nat + radius 2%nat) -> (2 <= Set_N radius s)%Z).
Proof.
  intros r1 r2 Hs. unfold Set_N. set (w := radius 1%nat + radius 2%nat) in *. assert (Hw : 0 < w) by (unfold w; lra).
  rewrite (Rabs_right s) by lra. set (zeta := 2 * s / w). cbv zeta.
  assert (Hz : 2 < zeta). { unfold zeta. apply (Rmult_lt_reg_r w); [exact Hw|]. unfold Rdiv. rewrite Rmult_assoc, Rinv_l by lra. lra. }
  set (t := sqrt (zeta ^ 2 - 4)). assert (Hz4 : 0 < zeta ^ 2 - 4) by nra.
  assert (Tp : 0 < t) by (apply sqrt_lt_R0; exact Hz4). assert (T2 : t * t = zeta ^ 2 - 4) by (apply sqrt_sqrt; lra).
  set (q := 5 / 10 * (zeta - t)). assert (Hq0 : 0 < q) by (unfold q; nra). assert (Hq1 : q < 1) by (unfold q; nra).
  assert (Lq : ln q < 0) by (rewrite <- ln_1; apply ln_increasing; assumption).
  assert (Hg : 0 < globalerror < 1). { unfold globalerror. split; [apply Rinv_0_lt_compat; lra|]. rewrite <- Rinv_1. apply Rinv_lt_contravar; lra. }
  assert (Lg : ln globalerror < 0) by (rewrite <- ln_1; apply ln_increasing; lra).
  assert (P : 0 < ln globalerror / ln q). { unfold Rdiv. replace (ln globalerror * / ln q) with (- ln globalerror * / (- ln q)) by (field; lra). apply Rmult_lt_0_compat; [lra|]. apply Rinv_0_lt_compat. lra. }
  unfold int, Rleb. destruct (Rle_dec 0 (ln globalerror / ln q)) as [_|X]; [|lra].
  set (I := Int_part (ln globalerror / ln q)). destruct (base_Int_part (ln globalerror / ln q)) as [I1 I2]. fold I in I1, I2.
  assert (I0 : (0 <= I)%Z). { apply le_IZR. assert (-1 < IZR I) by lra. apply lt_IZR in H. apply IZR_le. lia. }
  change (Z.of_nat Nmax) with 120%Z. split.
  - destruct (Z.ltb_spec 120 (I + 1)); lia.
  - intros Hs8. assert (Z8 : zeta <= 10 ^ 8). { unfold zeta. apply (Rmult_le_reg_r w); [exact Hw|]. unfold Rdiv. rewrite Rmult_assoc, Rinv_l by lra. lra. }
    assert (Q : / zeta <= q). { apply (Rmult_le_reg_r zeta); [lra|]. rewrite Rinv_l by lra. unfold q. nra. }
    assert (Q' : globalerror <= q). { apply Rle_trans with (/ zeta); [|exact Q]. unfold globalerror. apply Rinv_le_contravar; lra. }
    assert (L : ln globalerror <= ln q) by (destruct Q' as [Q'| ->]; [left; apply ln_increasing; lra|right; reflexivity]).
    assert (P1 : 1 <= ln globalerror / ln q). { replace (ln globalerror / ln q) with (- ln globalerror / - ln q) by (field; lra). apply (Rmult_le_reg_r (- ln q)); [lra|]. unfold Rdiv. rewrite Rmult_assoc, Rinv_l by lra. lra. }
    assert (1 <= I)%Z. { assert (0 < IZR I) by lra. apply lt_IZR in H. lia. }
    destruct (Z.ltb_spec 120 (I + 1)); lia.
Qed.
