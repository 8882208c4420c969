From Coq Require Import Reals List ZArith Arith Bool Lra Lia.
From Verif Require Import Base Model_Mob Model_Close Model_Reflect Spec_Reflect.
Import ListNotations.
Local Open Scope R_scope.

Definition rng (N n : nat) (m : Z) : Prop := (1 <= n <= N)%nat /\ (Z.abs m <= Z.of_nat n)%Z.
Lemma within_true lo hi n m : (lo <= n <= hi)%nat -> (Z.abs m <= Z.of_nat n)%Z -> within lo hi n m = true.
Proof.
  intros [A B] C. unfold within, order_ok. rewrite (proj2 (Nat.leb_le _ _) A), (proj2 (Nat.leb_le _ _) B), (proj2 (Z.leb_le _ _) C). reflexivity.
Qed.
Lemma within_lo lo hi n m : (n < lo)%nat -> within lo hi n m = false.
Proof. intros A. unfold within. rewrite (proj2 (Nat.leb_gt _ _) A). reflexivity. Qed.
Lemma within_hi lo hi n m : (hi < n)%nat -> within lo hi n m = false.
Proof. intros A. unfold within. rewrite (proj2 (Nat.leb_gt _ _) A). rewrite andb_false_r. reflexivity. Qed.

Lemma on_range_in b x y j n m : b n m = true -> on_range b x y j n m = x j n m.
Proof. intros E. unfold on_range. rewrite E. reflexivity. Qed.

Lemma tsum_ext lo hi f f' : (forall n, (lo <= n <= hi)%nat -> f n = f' n) -> tsum lo hi f = tsum lo hi f'.
Proof. intros E. unfold tsum. apply rsum_ext. intros q Hq. apply E. lia. Qed.
Lemma tsum_plus lo hi f f' : tsum lo hi (fun n => f n + f' n) = tsum lo hi f + tsum lo hi f'.
Proof. unfold tsum. rewrite <- rsum_plus. reflexivity. Qed.

(** The outgoing coefficients two fields share in the range. *)
Definition same_out (N : nat) (f f' : six) : Prop := forall j n m, rng N n m ->
  cA f j n m = cA f' j n m /\ cB f j n m = cB f' j n m /\ cC f j n m = cC f' j n m.
Lemma ninit_pos m : (1 <= ninit m)%nat.
Proof. unfold ninit. destruct (Z.eqb_spec m 0); lia. Qed.
Lemma ninit_abs m n : (ninit m <= n)%nat -> (Z.abs m <= Z.of_nat n)%Z.
Proof. unfold ninit. destruct (Z.eqb_spec m 0); lia. Qed.
Lemma in_sum N m n : (ninit m <= n <= N)%nat -> rng N n m.
Proof. intros [A B]. pose proof (ninit_pos m). split; [lia|]. apply ninit_abs. exact A. Qed.

Lemma translate_same N r f f' : same_out N f f' -> forall j nu m,
  translate_D N r f j nu m = translate_D N r f' j nu m /\
  translate_E N r f j nu m = translate_E N r f' j nu m /\
  translate_F N r f j nu m = translate_F N r f' j nu m.
Proof.
  intros E j nu m. unfold translate_D, translate_E, translate_F.
  split; [|split]; apply tsum_ext; intros n Hn; destruct (E j n m (in_sum _ _ _ Hn)) as (a & b & c); destruct (E (other j) n m (in_sum _ _ _ Hn)) as (a' & b' & c').
  - rewrite a, c, b'. reflexivity.
  - rewrite b, c'. reflexivity.
  - rewrite c. reflexivity.
Qed.

(** Sum of two fields in the range. *)
Definition sum_out (N : nat) (f f1 f2 : six) : Prop := forall j n m, rng N n m ->
  cA f j n m = cA f1 j n m + cA f2 j n m /\ cB f j n m = cB f1 j n m + cB f2 j n m /\ cC f j n m = cC f1 j n m + cC f2 j n m.
Lemma translate_sum N r f f1 f2 : sum_out N f f1 f2 -> forall j nu m,
  translate_D N r f j nu m = translate_D N r f1 j nu m + translate_D N r f2 j nu m /\
  translate_E N r f j nu m = translate_E N r f1 j nu m + translate_E N r f2 j nu m /\
  translate_F N r f j nu m = translate_F N r f1 j nu m + translate_F N r f2 j nu m.
Proof.
  intros E j nu m. unfold translate_D, translate_E, translate_F.
  split; [|split]; rewrite <- tsum_plus; apply tsum_ext; intros n Hn; destruct (E j n m (in_sum _ _ _ Hn)) as (a & b & c); destruct (E (other j) n m (in_sum _ _ _ Hn)) as (a' & b' & c').
  - rewrite a, c, b'. unfold translate_C, Rdiv. ring.
  - rewrite b, c'. unfold Rdiv. ring.
  - rewrite c. ring.
Qed.

Definition opp (k : nat) : nat := (3 - k)%nat.
Definition sphere (k : nat) : Prop := k = 1%nat \/ k = 2%nat.

(** What reaches sphere k *)
Definition arr (N : nat) (r : nat -> nat -> R) (s : arrays) (k : nat) : six :=
  let f := s (opp k) 2%nat in
  mkSix zero_coef zero_coef zero_coef (translate_D N (r (opp k) k) f) (translate_E N (r (opp k) k) f) (translate_F N (r (opp k) k) f).

Definition outgoing (a : R) (n : nat) (d e f : R) : R * R * R :=
  if Nat.eqb n 1 then (a ^ 5 * f / 30, 0, 0)
  else (invert_A a n d f, a ^ (2 * n + 1) * e, invert_C a n d f).
Definition oA a n d e f := fst (fst (outgoing a n d e f)).
Definition oB a n d e f := snd (fst (outgoing a n d e f)).
Definition oC a n d e f := snd (outgoing a n d e f).
Lemma oA_add a n d e f d' e' f' : oA a n (d + d') (e + e') (f + f') = oA a n d e f + oA a n d' e' f'.
Proof. unfold oA, outgoing. destruct (Nat.eqb n 1); cbn [fst snd]; [|unfold invert_A]; unfold Rdiv; ring. Qed.
Lemma oB_add a n d e f d' e' f' : oB a n (d + d') (e + e') (f + f') = oB a n d e f + oB a n d' e' f'.
Proof. unfold oB, outgoing. destruct (Nat.eqb n 1); cbn [fst snd]; ring. Qed.
Lemma oC_add a n d e f d' e' f' : oC a n (d + d') (e + e') (f + f') = oC a n d e f + oC a n d' e' f'.
Proof. unfold oC, outgoing. destruct (Nat.eqb n 1); cbn [fst snd]; [|unfold invert_C]; unfold Rdiv; ring. Qed.

Section Invert.
Variables (N : nat) (a : R) (k : nat) (s : arrays).
Lemma invert_other k' l : k' <> k -> Invert_field N a k s k' l = s k' l.
Proof.
  intros Hk. unfold Invert_field, store. rewrite (proj2 (Nat.eqb_neq k' k) Hk). cbn [andb]. reflexivity.
Qed.
Lemma invert_level l : l <> 2%nat -> l <> 3%nat -> Invert_field N a k s k l = s k l.
Proof.
  intros A B. unfold Invert_field, store. rewrite (proj2 (Nat.eqb_neq l 3) B), (proj2 (Nat.eqb_neq l 2) A), !andb_false_r. reflexivity.
Qed.
Lemma invert_3 j n m : rng N n m ->
  let t := Invert_field N a k s k 3%nat in let o := s k 3%nat in
  cA t j n m = cA o j n m - oA a n (cD o j n m) (cE o j n m) (cF o j n m) /\
  cB t j n m = cB o j n m - oB a n (cD o j n m) (cE o j n m) (cF o j n m) /\
  cC t j n m = cC o j n m - oC a n (cD o j n m) (cE o j n m) (cF o j n m) /\
  cD t = cD o /\ cE t = cE o /\ cF t = cF o.
Proof.
  intros [A B]. unfold Invert_field, store, oA, oB, oC, outgoing. rewrite Nat.eqb_refl. cbn [Nat.eqb andb cA cB cC cD cE cF]. unfold on_range.
  destruct (Nat.eqb_spec n 1) as [->|Hn]; cbn [fst snd].
  - rewrite (within_lo 2 N 1) by lia. rewrite (within_true 1 1 1 m) by lia. repeat split; ring.
  - rewrite (within_true 2 N n m) by lia. rewrite (within_hi 1 1 n m) by lia. repeat split; ring.
Qed.
Lemma invert_2 j n m : rng N n m ->
  let t := Invert_field N a k s k 2%nat in let o := s k 2%nat in let o3 := s k 3%nat in
  cA t = cA o /\ cB t = cB o /\ cC t = cC o /\
  cD t j n m = cD o j n m + cD o3 j n m /\ cE t j n m = cE o j n m + cE o3 j n m /\ cF t j n m = cF o j n m + cF o3 j n m.
Proof.
  intros [A B]. unfold Invert_field, store. rewrite Nat.eqb_refl. cbn [Nat.eqb andb cA cB cC cD cE cF]. unfold on_range, c_add.
  destruct (Nat.eqb_spec n 1) as [->|Hn].
  - rewrite (within_true 1 1 1 m) by lia. cbn [orb]. repeat split.
  - rewrite (within_true 2 N n m) by lia. rewrite orb_true_r. repeat split.
Qed.
End Invert.

Section Reflect.
Variables (N : nat) (radius : nat -> R) (r : nat -> nat -> R).

(** Before the inversion *)
Definition arrive (i k : nat) (s : arrays) : arrays := Rotate_arrival N k i (Translate_field N r i k (Rotate_field N i k s)).
Ltac idx := unfold arrive, Rotate_arrival, Translate_field, Rotate_field, store; cbn [Nat.eqb andb Nat.add opp Nat.sub cA cB cC cD cE cF].
Lemma arrive_level s k k' l : sphere k -> sphere k' -> (l = 1 \/ l = 2)%nat -> arrive (opp k) k s k' l = s k' l.
Proof. intros [->| ->] [->| ->] [->| ->]; idx; reflexivity. Qed.
Lemma arrive_other s k : sphere k -> arrive (opp k) k s (opp k) 3%nat = s (opp k) 3%nat.
Proof. intros [->| ->]; idx; reflexivity. Qed.
Lemma arrive_3 s k j n m : sphere k -> rng N n m ->
  let t := arrive (opp k) k s k 3%nat in
  cA t = cA (s k 3%nat) /\ cB t = cB (s k 3%nat) /\ cC t = cC (s k 3%nat) /\
  cD t j n m = cD (arr N r s k) j n m /\ cE t j n m = cE (arr N r s k) j n m /\ cF t j n m = cF (arr N r s k) j n m.
Proof.
  intros Hk [A B].
  assert (W0 : within 0 N n m = true) by (apply within_true; lia).
  assert (W1 : within 1 N n m = true) by (apply within_true; lia).
  unfold arr. cbn [cD cE cF].
  assert (Q : forall o, same_out N (mkSix (on_range (fun n m => within 0 N n m) (cA (s (opp k) 2%nat)) (cA o))
      (on_range (fun n m => within 0 N n m) (cB (s (opp k) 2%nat)) (cB o)) (on_range (fun n m => within 0 N n m) (cC (s (opp k) 2%nat)) (cC o)) (cD o) (cE o) (cF o)) (s (opp k) 2%nat)).
  { intros o j' n' m' [C D]. cbn [cA cB cC]. unfold on_range. rewrite (within_true 0 N n' m') by lia. repeat split. }
  destruct Hk as [->| ->]; idx; split; try reflexivity; split; try reflexivity; split; try reflexivity;
    rewrite !(on_range_in (fun n m => within 0 N n m) _ _ j n m W0), !(on_range_in (fun n m => within 1 N n m) _ _ j n m W1); exact (translate_same N _ _ _ (Q _) j n m).
Qed.

Definition one (k : nat) (s : arrays) : arrays := reflect_to N radius r (opp k) k s.
Lemma one_eq k s : one k s = Invert_field N (radius k) k (arrive (opp k) k s).
Proof. reflexivity. Qed.
Lemma opp_sphere k : sphere k -> sphere (opp k) /\ opp k <> k /\ opp (opp k) = k.
Proof. intros [->| ->]; unfold opp, sphere; cbn; repeat split; auto; discriminate. Qed.
Lemma one_other s k l : sphere k -> (l = 1 \/ l = 2 \/ l = 3)%nat -> one k s (opp k) l = s (opp k) l.
Proof.
  intros Hk Hl. destruct (opp_sphere k Hk) as (A & B & _). rewrite one_eq, invert_other by exact B.
  destruct Hl as [->|[->| ->]]; [apply arrive_level; auto|apply arrive_level; auto|apply arrive_other; exact Hk].
Qed.
Lemma one_1 s k : sphere k -> one k s k 1%nat = s k 1%nat.
Proof. intros Hk. rewrite one_eq, invert_level by lia. apply arrive_level; auto. Qed.
Lemma one_2 s k j n m : sphere k -> rng N n m ->
  let t := one k s k 2%nat in let o := s k 2%nat in let q := arr N r s k in
  cA t = cA o /\ cB t = cB o /\ cC t = cC o /\
  cD t j n m = cD o j n m + cD q j n m /\ cE t j n m = cE o j n m + cE q j n m /\ cF t j n m = cF o j n m + cF q j n m.
Proof.
  intros Hk Hr. rewrite one_eq. destruct (invert_2 N (radius k) k (arrive (opp k) k s) j n m Hr) as (A & B & C & D & E & F).
  destruct (arrive_3 s k j n m Hk Hr) as (_ & _ & _ & D' & E' & F').
  rewrite D', E', F' in *. rewrite (arrive_level s k k 2%nat) in * by auto. repeat split; assumption.
Qed.
Lemma one_3 s k j n m : sphere k -> rng N n m ->
  let t := one k s k 3%nat in let o := s k 3%nat in let q := arr N r s k in
  cA t j n m = cA o j n m - oA (radius k) n (cD q j n m) (cE q j n m) (cF q j n m) /\
  cB t j n m = cB o j n m - oB (radius k) n (cD q j n m) (cE q j n m) (cF q j n m) /\
  cC t j n m = cC o j n m - oC (radius k) n (cD q j n m) (cE q j n m) (cF q j n m) /\
  cD t j n m = cD q j n m /\ cE t j n m = cE q j n m /\ cF t j n m = cF q j n m.
Proof.
  intros Hk Hr. rewrite one_eq. destruct (invert_3 N (radius k) k (arrive (opp k) k s) j n m Hr) as (A & B & C & D & E & F).
  destruct (arrive_3 s k j n m Hk Hr) as (A' & B' & C' & D' & E' & F').
  rewrite A', D', E', F' in A. rewrite B', D', E', F' in B. rewrite C', D', E', F' in C. rewrite <- D in D'. rewrite <- E in E'. rewrite <- F in F'.
  repeat split; assumption.
Qed.
Lemma arr_one s k k' : sphere k -> sphere k' -> k' = opp k -> forall j n m, cD (arr N r (one k s) k') j n m = cD (arr N r s k') j n m /\ cE (arr N r (one k s) k') j n m = cE (arr N r s k') j n m /\ cF (arr N r (one k s) k') j n m = cF (arr N r s k') j n m.
Proof.
  intros Hk Hk' -> j n m. unfold arr. cbn [cD cE cF]. destruct (opp_sphere k Hk) as (_ & _ & ->).
  apply translate_same. intros j' n' m' Hr. destruct (one_2 s k j' n' m' Hk Hr) as (A & B & C & _). rewrite A, B, C. repeat split.
Qed.

(** After both transfers *)
Lemma reflect_get s k j n m : sphere k -> rng N n m ->
  let t := reflect N radius r s in let q := arr N r s k in
  t k 1%nat = s k 1%nat /\
  (cA (t k 2%nat) = cA (s k 2%nat) /\ cB (t k 2%nat) = cB (s k 2%nat) /\ cC (t k 2%nat) = cC (s k 2%nat) /\
   cD (t k 2%nat) j n m = cD (s k 2%nat) j n m + cD q j n m /\ cE (t k 2%nat) j n m = cE (s k 2%nat) j n m + cE q j n m /\ cF (t k 2%nat) j n m = cF (s k 2%nat) j n m + cF q j n m) /\
  (cA (t k 3%nat) j n m = cA (s k 3%nat) j n m - oA (radius k) n (cD q j n m) (cE q j n m) (cF q j n m) /\
   cB (t k 3%nat) j n m = cB (s k 3%nat) j n m - oB (radius k) n (cD q j n m) (cE q j n m) (cF q j n m) /\
   cC (t k 3%nat) j n m = cC (s k 3%nat) j n m - oC (radius k) n (cD q j n m) (cE q j n m) (cF q j n m) /\
   cD (t k 3%nat) j n m = cD q j n m /\ cE (t k 3%nat) j n m = cE q j n m /\ cF (t k 3%nat) j n m = cF q j n m).
Proof.
  intros Hk Hr. cbv zeta. change (reflect N radius r s) with (one 1 (one 2 s)). destruct Hk as [->| ->].
  - pose proof (one_1 (one 2 s) 1 ltac:(left; reflexivity)) as P1. pose proof (one_2 (one 2 s) 1 j n m ltac:(left; reflexivity) Hr) as P2.
    pose proof (one_3 (one 2 s) 1 j n m ltac:(left; reflexivity) Hr) as P3. cbv zeta in *.
    destruct (arr_one s 2 1 ltac:(right; reflexivity) ltac:(left; reflexivity) eq_refl j n m) as (a & b & c). rewrite a, b, c in P2, P3.
    pose proof (one_other s 2 1 ltac:(right; reflexivity) ltac:(auto)) as O1. pose proof (one_other s 2 2 ltac:(right; reflexivity) ltac:(auto)) as O2. pose proof (one_other s 2 3 ltac:(right; reflexivity) ltac:(auto)) as O3.
    change (opp 2) with 1%nat in *. rewrite O1 in P1. rewrite O2 in P2. rewrite O3 in P3. split; [exact P1|split; [exact P2|exact P3]].
  - pose proof (one_1 s 2 ltac:(right; reflexivity)) as P1. pose proof (one_2 s 2 j n m ltac:(right; reflexivity) Hr) as P2.
    pose proof (one_3 s 2 j n m ltac:(right; reflexivity) Hr) as P3. cbv zeta in *.
    pose proof (one_other (one 2 s) 1 1 ltac:(left; reflexivity) ltac:(auto)) as O1. pose proof (one_other (one 2 s) 1 2 ltac:(left; reflexivity) ltac:(auto)) as O2. pose proof (one_other (one 2 s) 1 3 ltac:(left; reflexivity) ltac:(auto)) as O3.
    change (opp 1) with 2%nat in *. rewrite O1, O2, O3. split; [exact P1|split; [exact P2|exact P3]].
Qed.

Lemma update_get s k j n m : sphere k -> rng N n m ->
  let t := update N s in
  let s1 := s k 1%nat in let s2 := s k 2%nat in let s3 := s k 3%nat in
  (cA (t k 1%nat) j n m = cA s1 j n m + cA s2 j n m /\ cB (t k 1%nat) j n m = cB s1 j n m + cB s2 j n m /\ cC (t k 1%nat) j n m = cC s1 j n m + cC s2 j n m /\
   cD (t k 1%nat) j n m = cD s1 j n m + cD s2 j n m /\ cE (t k 1%nat) j n m = cE s1 j n m + cE s2 j n m /\ cF (t k 1%nat) j n m = cF s1 j n m + cF s2 j n m) /\
  (cA (t k 2%nat) j n m = cA s3 j n m /\ cB (t k 2%nat) j n m = cB s3 j n m /\ cC (t k 2%nat) j n m = cC s3 j n m /\
   cD (t k 2%nat) j n m = 0 /\ cE (t k 2%nat) j n m = 0 /\ cF (t k 2%nat) j n m = 0) /\
  (cA (t k 3%nat) j n m = 0 /\ cB (t k 3%nat) j n m = 0 /\ cC (t k 3%nat) j n m = 0).
Proof.
  intros Hk [A B]. assert (W0 : within 0 N n m = true) by (apply within_true; lia).
  destruct Hk as [->| ->]; unfold update, Update_Fields, store; cbn [Nat.eqb andb cA cB cC cD cE cF]; unfold on_range, c_add, zero_coef; rewrite W0; repeat split; reflexivity.
Qed.

Lemma pass_get s k j n m : sphere k -> rng N n m -> cA (s k 3%nat) j n m = 0 -> cB (s k 3%nat) j n m = 0 -> cC (s k 3%nat) j n m = 0 ->
  let t := pass N radius r s in let q := arr N r s k in
  let s1 := s k 1%nat in let s2 := s k 2%nat in
  (cA (t k 1%nat) j n m = cA s1 j n m + cA s2 j n m /\ cB (t k 1%nat) j n m = cB s1 j n m + cB s2 j n m /\ cC (t k 1%nat) j n m = cC s1 j n m + cC s2 j n m /\
   cD (t k 1%nat) j n m = cD s1 j n m + cD s2 j n m + cD q j n m /\ cE (t k 1%nat) j n m = cE s1 j n m + cE s2 j n m + cE q j n m /\ cF (t k 1%nat) j n m = cF s1 j n m + cF s2 j n m + cF q j n m) /\
  (cA (t k 2%nat) j n m = - oA (radius k) n (cD q j n m) (cE q j n m) (cF q j n m) /\
   cB (t k 2%nat) j n m = - oB (radius k) n (cD q j n m) (cE q j n m) (cF q j n m) /\
   cC (t k 2%nat) j n m = - oC (radius k) n (cD q j n m) (cE q j n m) (cF q j n m) /\
   cD (t k 2%nat) j n m = 0 /\ cE (t k 2%nat) j n m = 0 /\ cF (t k 2%nat) j n m = 0) /\
  (cA (t k 3%nat) j n m = 0 /\ cB (t k 3%nat) j n m = 0 /\ cC (t k 3%nat) j n m = 0).
Proof.
  intros Hk Hr a3 b3 c3. cbv zeta. unfold pass.
  destruct (update_get (reflect N radius r s) k j n m Hk Hr) as ((U1 & U2 & U3 & U4 & U5 & U6) & (V1 & V2 & V3 & V4 & V5 & V6) & W).
  destruct (reflect_get s k j n m Hk Hr) as (R1 & (S1 & S2 & S3 & S4 & S5 & S6) & (T1 & T2 & T3 & T4 & T5 & T6)).
  rewrite R1 in *. rewrite S1 in U1. rewrite S2 in U2. rewrite S3 in U3. rewrite S4 in U4. rewrite S5 in U5. rewrite S6 in U6.
  rewrite T1, a3 in V1. rewrite T2, b3 in V2. rewrite T3, c3 in V3.
  split; [|split; [|exact W]].
  - repeat split; try assumption; [rewrite U4|rewrite U5|rewrite U6]; ring.
  - repeat split; try assumption; [rewrite V1|rewrite V2|rewrite V3]; ring.
Qed.
End Reflect.
