From Coq Require Import Reals List ZArith Arith Bool Lra Lia.
From Verif Require Import Base Model_Mob Model_Close Model_Reflect Spec_Reflect Proof_Reflect.
Import ListNotations.
Local Open Scope R_scope.

Definition d0 (xg : R) (E : mat) : coef := fun j n m => 5 / 10 * initial_D xg E j n m.
Lemma d0_out xg E j n m : n <> 2%nat -> d0 xg E j n m = 0.
Proof. intros Hn. unfold d0, initial_D. rewrite (proj2 (Nat.eqb_neq n 2) Hn). ring. Qed.
Lemma at1_out c0 c1 s1 j n m : n <> 1%nat -> at1 c0 c1 s1 j n m = 0.
Proof. intros Hn. unfold at1. rewrite (proj2 (Nat.eqb_neq n 1) Hn). reflexivity. Qed.
Lemma initial_A_eq a F j n m : initial_A a F j n m = (if within 1 1 n m then initial_C F j n m * a ^ 2 / 6 else 0).
Proof. reflexivity. Qed.

Lemma store_hit k l v s : store k l v s k l = v.
Proof. unfold store. rewrite !Nat.eqb_refl. reflexivity. Qed.
Lemma store_level k l l' v s : l' <> l -> store k l v s k l' = s k l'.
Proof. intros E. unfold store. rewrite (proj2 (Nat.eqb_neq l' l) E), andb_false_r. reflexivity. Qed.

Section Initial.
Variables (N : nat) (a xg : R) (E : mat) (k : nat) (s : arrays).
Hypothesis z3 : s k 3%nat = zero_six.
Hypothesis z2 : cD (s k 2%nat) = zero_coef /\ cE (s k 2%nat) = zero_coef /\ cF (s k 2%nat) = zero_coef.
Definition placed : arrays := store k 3 (mkSix zero_coef zero_coef zero_coef (on_range (fun n m => within 2 2 n m) (d0 xg E) zero_coef) zero_coef zero_coef) s.
Lemma placed_D j n m : rng N n m -> cD (placed k 3%nat) j n m = d0 xg E j n m.
Proof.
  intros [A B]. unfold placed, store. rewrite !Nat.eqb_refl. cbn [andb cD]. unfold on_range.
  destruct (Nat.eq_dec n 2) as [->|Hn]; [rewrite within_true by lia; reflexivity|].
  rewrite d0_out by exact Hn. destruct (within 2 2 n m) eqn:W; [|reflexivity].
  destruct (le_lt_dec n 1); [rewrite within_lo in W by lia|rewrite within_hi in W by lia]; discriminate.
Qed.
Lemma strain_eq : initial_strain N a xg E k s =
  let b n m := within 2 2 n m in
  let t := Invert_field N a k placed in
  let t2 := t k 2%nat in let t3 := t k 3%nat in
  store k 2 (mkSix (on_range b (cA t3) (cA t2)) (on_range b (cB t3) (cB t2)) (on_range b (cC t3) (cC t2)) (cD t2) (cE t2) (cF t2))
 (store k 3 (mkSix (on_range b zero_coef (cA t3)) (on_range b zero_coef (cB t3)) (on_range b zero_coef (cC t3)) (cD t3) (cE t3) (cF t3)) t).
Proof. unfold initial_strain, placed. rewrite z3. reflexivity. Qed.
Lemma strain_other k' l : k' <> k -> initial_strain N a xg E k s k' l = s k' l.
Proof.
  intros Hk. rewrite strain_eq. cbv zeta. unfold store at 1 2. rewrite (proj2 (Nat.eqb_neq k' k) Hk). cbn [andb]. rewrite invert_other by exact Hk.
  unfold placed, store. rewrite (proj2 (Nat.eqb_neq k' k) Hk). reflexivity.
Qed.
Lemma strain_1 : initial_strain N a xg E k s k 1%nat = s k 1%nat.
Proof.
  rewrite strain_eq. cbv zeta. unfold store at 1 2. cbn [Nat.eqb]. rewrite !andb_false_r. rewrite invert_level by lia.
  unfold placed, store. cbn [Nat.eqb]. rewrite andb_false_r. reflexivity.
Qed.
Lemma strain_2 j n m : rng N n m ->
  (n = 2%nat -> cA (s k 2%nat) j n m = 0 /\ cB (s k 2%nat) j n m = 0 /\ cC (s k 2%nat) j n m = 0) ->
  let t := initial_strain N a xg E k s in
  (cA (t k 2%nat) j n m = cA (s k 2%nat) j n m - oA a n (d0 xg E j n m) 0 0 /\
   cB (t k 2%nat) j n m = cB (s k 2%nat) j n m - oB a n (d0 xg E j n m) 0 0 /\
   cC (t k 2%nat) j n m = cC (s k 2%nat) j n m - oC a n (d0 xg E j n m) 0 0 /\
   cD (t k 2%nat) j n m = d0 xg E j n m /\ cE (t k 2%nat) j n m = 0 /\ cF (t k 2%nat) j n m = 0) /\
  (cA (t k 3%nat) j n m = 0 /\ cB (t k 3%nat) j n m = 0 /\ cC (t k 3%nat) j n m = 0).
Proof.
  intros Hr Z2. cbv zeta. rewrite strain_eq. cbv zeta. rewrite !(store_level k 2 3) by discriminate. rewrite !store_hit. cbn [cA cB cC cD cE cF].
  destruct (invert_3 N a k placed j n m Hr) as (A & B & C & _).
  destruct (invert_2 N a k placed j n m Hr) as (A' & B' & C' & D' & E' & F').
  rewrite (placed_D j n m Hr) in *.
  assert (P2 : placed k 2%nat = s k 2%nat) by (unfold placed, store; cbn [Nat.eqb]; rewrite andb_false_r; reflexivity).
  assert (P3 : cA (placed k 3%nat) = zero_coef /\ cB (placed k 3%nat) = zero_coef /\ cC (placed k 3%nat) = zero_coef /\ cE (placed k 3%nat) = zero_coef /\ cF (placed k 3%nat) = zero_coef).
  { unfold placed, store. rewrite !Nat.eqb_refl. cbn [andb cA cB cC cE cF]. repeat split. }
  destruct P3 as (p1 & p2 & p3 & p5 & p6). destruct z2 as (q4 & q5 & q6).
  rewrite p1, p5, p6 in A. rewrite p2, p5, p6 in B. rewrite p3, p5, p6 in C.
  rewrite P2, ?p5, ?p6, ?q4, ?q5, ?q6 in *. unfold zero_coef in A, B, C, D', E', F'. rewrite D', E', F'.
  unfold on_range. destruct Hr as [Hr1 Hr2].
  destruct (Nat.eq_dec n 2) as [->|Hn].
  - rewrite (within_true 2 2 2 m) by lia. destruct (Z2 eq_refl) as (z & z' & z''). rewrite z, z', z'', A, B, C. unfold zero_coef. repeat split; ring.
  - assert (W : within 2 2 n m = false) by (destruct (le_lt_dec n 1); [apply within_lo|apply within_hi]; lia).
    rewrite W, A', B', C', A, B, C. rewrite d0_out by exact Hn.
    unfold oA, oB, oC, outgoing, invert_A, invert_C. destruct (Nat.eqb n 1); cbn [fst snd]; unfold Rdiv; repeat split; ring.
Qed.
End Initial.

Section Run.
Variables (N : nat) (radius : nat -> R) (r : nat -> nat -> R) (xg : R) (Ff Tt : nat -> vec) (Ee : nat -> mat) (s0 : arrays).
Hypothesis start : Set_Initial_Conditions N radius xg Ff Tt Ee = Some s0.

Definition first_A k j n m := initial_A (radius k) (Ff k) j n m.
Definition first_B k j n m := initial_B (Tt k) j n m.
Definition first_C k j n m := initial_C (Ff k) j n m.
Lemma init_get k j n m : sphere k -> rng N n m ->
  let d := d0 xg (Ee k) j n m in
  s0 k 1%nat = zero_six /\
  (cA (s0 k 2%nat) j n m = first_A k j n m - oA (radius k) n d 0 0 /\
   cB (s0 k 2%nat) j n m = first_B k j n m - oB (radius k) n d 0 0 /\
   cC (s0 k 2%nat) j n m = first_C k j n m - oC (radius k) n d 0 0 /\
   cD (s0 k 2%nat) j n m = d /\ cE (s0 k 2%nat) j n m = 0 /\ cF (s0 k 2%nat) j n m = 0) /\
  (cA (s0 k 3%nat) j n m = 0 /\ cB (s0 k 3%nat) j n m = 0 /\ cC (s0 k 3%nat) j n m = 0).
Proof.
  intros Hk Hr. unfold Set_Initial_Conditions in start. destruct (strain_ok (Ee 1%nat) && strain_ok (Ee 2%nat))%bool; [|discriminate].
  injection start as <-.
  set (i1 := initial_force (radius 1%nat) (Ff 1%nat) (Tt 1%nat) 1 (fun _ _ => zero_six)).
  set (i2 := initial_force (radius 2%nat) (Ff 2%nat) (Tt 2%nat) 2 i1).
  assert (Z : forall k, sphere k -> i2 k 1%nat = zero_six /\ i2 k 3%nat = zero_six /\
     i2 k 2%nat = mkSix (initial_A (radius k) (Ff k)) (initial_B (Tt k)) (initial_C (Ff k)) zero_coef zero_coef zero_coef).
  { intros k' [->| ->]; repeat split; reflexivity. }
  assert (Z2 : n = 2%nat -> forall k, sphere k -> cA (i2 k 2%nat) j n m = 0 /\ cB (i2 k 2%nat) j n m = 0 /\ cC (i2 k 2%nat) j n m = 0).
  { intros -> k' Hk'. destruct (Z k' Hk') as (_ & _ & ->). cbn [cA cB cC]. split; [rewrite initial_A_eq, within_hi by lia; reflexivity|].
    split; apply at1_out; discriminate. }
  set (t1 := initial_strain N (radius 1%nat) xg (Ee 1%nat) 1 i2).
  assert (S1 : sphere 1) by (left; reflexivity). assert (S2 : sphere 2) by (right; reflexivity).
  destruct (Z 1%nat S1) as (Za & Zb & Zc). destruct (Z 2%nat S2) as (Ya & Yb & Yc).
  assert (O2 : forall l, t1 2%nat l = i2 2%nat l) by (intros l; apply strain_other; [exact Zb|discriminate]).
  assert (Yb' : t1 2%nat 3%nat = zero_six) by (rewrite O2; exact Yb).
  destruct Hk as [->| ->].
  - rewrite !(strain_other N (radius 2%nat) xg (Ee 2%nat) 2 t1 Yb' 1%nat) by discriminate.
    split; [exact (eq_trans (strain_1 N (radius 1%nat) xg (Ee 1%nat) 1 i2 Zb) Za)|].
    pose proof (strain_2 N (radius 1%nat) xg (Ee 1%nat) 1 i2 Zb ltac:(rewrite Zc; repeat split) j n m Hr (fun e => Z2 e 1%nat S1)) as Q. cbv zeta in Q. fold t1 in Q. rewrite Zc in Q. exact Q.
  - split; [rewrite (strain_1 N (radius 2%nat) xg (Ee 2%nat) 2 t1 Yb'), O2; exact Ya|].
    pose proof (strain_2 N (radius 2%nat) xg (Ee 2%nat) 2 t1 Yb' ltac:(rewrite O2, Yc; repeat split) j n m Hr ltac:(intros e; rewrite O2; exact (Z2 e 2%nat S2))) as Q. cbv zeta in Q.
    rewrite O2, Yc in Q. exact Q.
Qed.

Definition after (J : nat) : arrays := Nat.iter J (pass N radius r) s0.
Definition tot (c : six -> coef) (s : arrays) (k j n : nat) (m : Z) : R := c (s k 1%nat) j n m + c (s k 2%nat) j n m.
Definition balanced (s : arrays) : Prop := forall k j n m, sphere k -> rng N n m ->
  tot cA s k j n m = first_A k j n m - oA (radius k) n (tot cD s k j n m) (tot cE s k j n m) (tot cF s k j n m) /\
  tot cB s k j n m = first_B k j n m - oB (radius k) n (tot cD s k j n m) (tot cE s k j n m) (tot cF s k j n m) /\
  tot cC s k j n m = first_C k j n m - oC (radius k) n (tot cD s k j n m) (tot cE s k j n m) (tot cF s k j n m) /\
  (let f := s (opp k) 1%nat in
   tot cD s k j n m = d0 xg (Ee k) j n m + translate_D N (r (opp k) k) f j n m /\
   tot cE s k j n m = translate_E N (r (opp k) k) f j n m /\
   tot cF s k j n m = translate_F N (r (opp k) k) f j n m) /\
  cA (s k 3%nat) j n m = 0 /\ cB (s k 3%nat) j n m = 0 /\ cC (s k 3%nat) j n m = 0.
Lemma translate_zero rr f : (forall j n m, rng N n m -> cA f j n m = 0 /\ cB f j n m = 0 /\ cC f j n m = 0) -> forall j nu m,
  translate_D N rr f j nu m = 0 /\ translate_E N rr f j nu m = 0 /\ translate_F N rr f j nu m = 0.
Proof.
  intros Z j nu m.
  assert (S : sum_out N f f f). { intros j' n' m' Hr. destruct (Z j' n' m' Hr) as (a & b & c). rewrite a, b, c. repeat split; ring. }
  destruct (translate_sum N rr f f f S j nu m) as (A & B & C). repeat split; lra.
Qed.
Lemma balanced_init : balanced s0.
Proof.
  intros k j n m Hk Hr. destruct (init_get k j n m Hk Hr) as (Z & (A & B & C & D & E & F) & W). unfold tot. rewrite Z, A, B, C, D, E, F. unfold zero_six. cbn [cA cB cC cD cE cF]. unfold zero_coef at 1 2 3 4 5 6 7 8 9 10 11 12 13 14 15.
  destruct (opp_sphere k Hk) as (Hk' & _).
  destruct (init_get (opp k) j n m Hk' Hr) as (Z' & _). rewrite Z'.
  destruct (translate_zero (r (opp k) k) zero_six ltac:(intros; repeat split) j n m) as (P & Q & R). rewrite P, Q, R.
  rewrite !Rplus_0_l, Rplus_0_r. repeat split; try tauto.
Qed.
Lemma level1_pass s : balanced s -> forall k, sphere k -> sum_out N (pass N radius r s k 1%nat) (s k 1%nat) (s k 2%nat).
Proof.
  intros Bl k Hk j n m Hr. destruct (Bl k j n m Hk Hr) as (_ & _ & _ & _ & a & b & c).
  destruct (pass_get N radius r s k j n m Hk Hr a b c) as ((A & B & C & _) & _). repeat split; assumption.
Qed.
Lemma balanced_pass s : balanced s -> balanced (pass N radius r s).
Proof.
  intros Bl k j n m Hk Hr. destruct (Bl k j n m Hk Hr) as (A & B & C & (D & E & F) & a & b & c).
  destruct (pass_get N radius r s k j n m Hk Hr a b c) as ((A1 & B1 & C1 & D1 & E1 & F1) & (A2 & B2 & C2 & D2 & E2 & F2) & W).
  destruct (opp_sphere k Hk) as (Hk' & _).
  destruct (translate_sum N (r (opp k) k) _ _ _ (level1_pass s Bl (opp k) Hk') j n m) as (TD & TE & TF).
  unfold tot in *. cbv zeta in D, E, F. rewrite A1, B1, C1, D1, E1, F1, A2, B2, C2, D2, E2, F2. rewrite !Rplus_0_r. rewrite TD, TE, TF.
  unfold arr. cbn [cD cE cF]. rewrite oA_add, oB_add, oC_add. split; [rewrite A; ring|]. split; [rewrite B; ring|]. split; [rewrite C; ring|].
  split; [rewrite D, E, F; repeat split; ring|exact W].
Qed.
Theorem balanced_after J : balanced (after J).
Proof. induction J as [|J IH]; [exact balanced_init|]. unfold after. cbn [Nat.iter]. exact (balanced_pass _ IH). Qed.

Lemma total_get s k j n m : rng N n m ->
  cA (total N s k) j n m = tot cA s k j n m /\ cB (total N s k) j n m = tot cB s k j n m /\ cC (total N s k) j n m = tot cC s k j n m /\
  cD (total N s k) j n m = tot cD s k j n m /\ cE (total N s k) j n m = tot cE s k j n m /\ cF (total N s k) j n m = tot cF s k j n m.
Proof.
  intros [A B]. unfold total. cbn [cA cB cC cD cE cF]. unfold on_range, c_add. rewrite within_true by lia. repeat split.
Qed.
(** What has arrived after S J passes is the translation of everything that was
    outgoing after J. *)
Lemma arrived J k j n m : sphere k -> rng N n m ->
  let f := total N (after J) (opp k) in
  tot cD (after (S J)) k j n m = d0 xg (Ee k) j n m + translate_D N (r (opp k) k) f j n m /\
  tot cE (after (S J)) k j n m = translate_E N (r (opp k) k) f j n m /\
  tot cF (after (S J)) k j n m = translate_F N (r (opp k) k) f j n m.
Proof.
  intros Hk Hr. destruct (balanced_after (S J) k j n m Hk Hr) as (_ & _ & _ & D & _).
  destruct (opp_sphere k Hk) as (Hk' & _).
  assert (S : same_out N (after (S J) (opp k) 1%nat) (total N (after J) (opp k))).
  { intros j' n' m' Hr'. destruct (level1_pass (after J) (balanced_after J) (opp k) Hk' j' n' m' Hr') as (a & b & c).
    destruct (total_get (after J) (opp k) j' n' m' Hr') as (a' & b' & c' & _). rewrite a', b', c'. repeat split; assumption. }
  destruct (translate_same N (r (opp k) k) _ _ S j n m) as (P & Q & R). cbv zeta in D |- *. rewrite P, Q, R in D. exact D.
Qed.
End Run.
