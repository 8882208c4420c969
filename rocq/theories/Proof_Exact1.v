(** From the blocks of the resistance matrix of two spheres to the resistance
    problem, and back. *)
From Coq Require Import Reals Arith List Lra Lia.
From Verif Require Import Base Model_Mob Model_Pack Spec_Layout Spec_Minf Spec_Convert Spec_Posdef Spec_Scalars Spec_Rotate Spec_Subtract Spec_Exact
  Proof_Minf Proof_Minf3 Proof_Rotate3 Proof_Axi1 Proof_Table2 Proof_Layout Proof_Turn2.
Local Open Scope R_scope.

Lemma cond_dot A B : st A -> st B ->
  rsum 5 (fun m => condense_idx A m * condense_idx B m) = rsum 3 (fun i => rsum 3 (fun j => A i j * B i j)).
Proof.
  intros [SA TA] [SB TB]. cbn [rsum]. conds. unfold hs3p1, hs3m1, s2, s3.
  rewrite (SA 1%nat 0%nat), (SA 2%nat 0%nat), (SA 2%nat 1%nat), (SB 1%nat 0%nat), (SB 2%nat 0%nat), (SB 2%nat 1%nat) by lia.
  replace (A 2%nat 2%nat) with (- A 0%nat 0%nat - A 1%nat 1%nat) by lra. replace (B 2%nat 2%nat) with (- B 0%nat 0%nat - B 1%nat 1%nat) by lra.
  pose proof s3_sq as H3. pose proof s2_sq as H2. set (w := sqrt 3) in *. set (v := sqrt 2) in *. clearbody w v.
  generalize (A 0%nat 0%nat) (A 1%nat 1%nat) (A 0%nat 1%nat) (A 0%nat 2%nat) (A 1%nat 2%nat)
    (B 0%nat 0%nat) (B 1%nat 1%nat) (B 0%nat 1%nat) (B 0%nat 2%nat) (B 1%nat 2%nat).
  intros a d b c e a' d' b' c' e'.
  transitivity ((w * w / 2 + 1 / 2) * (a * a' + d * d') + (w * w / 2 - 1 / 2) * (a * d' + a' * d) + v * v * (b * b' + c * c' + e * e')); [field|].
  rewrite H3, H2. field.
Qed.

Section Tensors.
Variables (X : nat -> R) (d : vec).
Hypothesis Hd : unit_vector d.
Lemma tG_st p q k : (k < 3)%nat -> st (fun i j => tG X d p q i j k).
Proof.
  intros Hk. unfold unit_vector in Hd. split.
  - intros i j _ _. unfold tG. rewrite (Rmult_comm (d i) (d j)). unfold delta. rewrite (Nat.eqb_sym i j). ring.
  - unfold tG. set (a := scalar X 5 p q). set (b := scalar X 6 p q). clearbody a b.
    transitivity (a * d k * (d 0%nat * d 0%nat + d 1%nat * d 1%nat + d 2%nat * d 2%nat - 1)
      + 2 * b * (d 0%nat * delta 0 k + d 1%nat * delta 1 k + d 2%nat * delta 2 k - d k * (d 0%nat * d 0%nat + d 1%nat * d 1%nat + d 2%nat * d 2%nat))).
    + unfold delta. cbn [Nat.eqb]. field.
    + rewrite Hd. unfold delta. idx3 Hk; cbn [Nat.eqb]; ring.
Qed.
Lemma tH_st p q k : (k < 3)%nat -> st (fun i j => tH X d p q i j k).
Proof.
  intros Hk. split.
  - intros i j _ _. unfold tH. ring.
  - unfold tH. cbn [rsum]. idx3 Hk; unfold levi; cbn; ring.
Qed.
Lemma tM_sym p q i j k l : tM X d p q i j k l = tM X d p q j i k l.
Proof. unfold tM, delta. rewrite (Nat.eqb_sym i j). ring. Qed.
Lemma tM_flip p q i j k l : tM X d p q i j k l = tM X d p q k l i j.
Proof.
  unfold tM, delta. rewrite (Nat.eqb_sym k i), (Nat.eqb_sym k j), (Nat.eqb_sym l i), (Nat.eqb_sym l j). ring.
Qed.
Lemma t_along k : (k < 3)%nat -> d 0%nat * (delta 0 k - d 0%nat * d k) + d 1%nat * (delta 1 k - d 1%nat * d k) + d 2%nat * (delta 2 k - d 2%nat * d k) = 0.
Proof.
  intros Hk. transitivity (d k * (1 - (d 0%nat * d 0%nat + d 1%nat * d 1%nat + d 2%nat * d 2%nat))); [|rewrite Hd; ring].
  unfold delta. idx3 Hk; cbn [Nat.eqb]; ring.
Qed.
Lemma t_twice k l : (k < 3)%nat -> (l < 3)%nat ->
  (delta 0 k - d 0%nat * d k) * (delta 0 l - d 0%nat * d l) + (delta 1 k - d 1%nat * d k) * (delta 1 l - d 1%nat * d l)
  + (delta 2 k - d 2%nat * d k) * (delta 2 l - d 2%nat * d l) = delta k l - d k * d l.
Proof.
  intros Hk Hl. transitivity (delta k l - 2 * (d k * d l) + (d 0%nat * d 0%nat + d 1%nat * d 1%nat + d 2%nat * d 2%nat) * (d k * d l)); [|rewrite Hd; ring].
  unfold delta. idx3 Hk; idx3 Hl; cbn [Nat.eqb]; ring.
Qed.
Lemma tM_trace p q k l : (k < 3)%nat -> (l < 3)%nat -> tM X d p q 0 0 k l + tM X d p q 1 1 k l + tM X d p q 2 2 k l = 0.
Proof.
  intros Hk Hl. pose proof (t_along k Hk) as Hq. pose proof (t_along l Hl) as Hq'. pose proof (t_twice k l Hk Hl) as Hr.
  unfold tM. set (a := scalar X 8 p q). set (b := scalar X 9 p q). set (c := scalar X 10 p q). clearbody a b c.
  transitivity (a * (3 / 2 * (d 0%nat * d 0%nat + d 1%nat * d 1%nat + d 2%nat * d 2%nat - 1) * (d k * d l - delta k l / 3))
    + b * (d k * (d 0%nat * (delta 0 l - d 0%nat * d l) + d 1%nat * (delta 1 l - d 1%nat * d l) + d 2%nat * (delta 2 l - d 2%nat * d l))
           + d l * (d 0%nat * (delta 0 k - d 0%nat * d k) + d 1%nat * (delta 1 k - d 1%nat * d k) + d 2%nat * (delta 2 k - d 2%nat * d k)))
    + c * (((delta 0 k - d 0%nat * d k) * (delta 0 l - d 0%nat * d l) + (delta 1 k - d 1%nat * d k) * (delta 1 l - d 1%nat * d l)
            + (delta 2 k - d 2%nat * d k) * (delta 2 l - d 2%nat * d l))
           - 1 / 2 * (3 - (d 0%nat * d 0%nat + d 1%nat * d 1%nat + d 2%nat * d 2%nat)) * (delta k l - d k * d l))).
  - change (delta 0 0) with 1. change (delta 1 1) with 1. change (delta 2 2) with 1. field.
  - rewrite Hq, Hq', Hr, Hd. field.
Qed.
Lemma tM_st p q k l : (k < 3)%nat -> (l < 3)%nat -> st (fun i j => tM X d p q i j k l).
Proof. intros Hk Hl. split; [intros i j _ _; apply tM_sym|apply tM_trace; assumption]. Qed.
Lemma tM_st' p q i j : (i < 3)%nat -> (j < 3)%nat -> st (fun k l => tM X d p q i j k l).
Proof.
  intros Hi Hj. destruct (tM_st p q i j Hi Hj) as [A B]. split.
  - intros k l Hk Hl. rewrite (tM_flip p q i j k l), (tM_flip p q i j l k). apply A; assumption.
  - rewrite (tM_flip p q i j 0 0), (tM_flip p q i j 1 1), (tM_flip p q i j 2 2). exact B.
Qed.
End Tensors.

Lemma split22 g : rsum 22 g = rsum 2 (fun q => rsum 3 (fun j => g (kstart 2 KU q + j)%nat) + rsum 3 (fun j => g (kstart 2 KO q + j)%nat)
                                    + rsum 5 (fun m => g (kstart 2 KS q + m)%nat)).
Proof. cbn [rsum kstart Nat.mul Nat.add]. ring. Qed.

(** Motion and moments of the two spheres in a vector of 22 numbers. *)
Definition vecs (k : kind) (u : vec) (p : nat) : vec := fun i => u (kstart 2 k p + i)%nat.
Definition tens (u : vec) (p : nat) : mat := tensor_of (vecs KS u p).

Lemma tens_st u p : st (tens u p).
Proof. apply tensor_st. Qed.

Section Blocks.
Variables (X : nat -> R) (d : vec) (G : mat).
Hypothesis Hd : unit_vector d.
Notation blk := (pair_block G).
(** The blocks of [G] are the tensors of the pair. *)
Definition pair_tensors : Prop :=
  forall p q, (p < 2)%nat -> (q < 2)%nat ->
  (forall i j, (i < 3)%nat -> (j < 3)%nat -> blk KU p KU q i j = tA X d p q i j) /\
  (forall i j, (i < 3)%nat -> (j < 3)%nat -> blk KO p KU q i j = tB X d p q i j) /\
  (forall i j, (i < 3)%nat -> (j < 3)%nat -> blk KO p KO q i j = tC X d p q i j) /\
  (forall m j, (m < 5)%nat -> (j < 3)%nat -> blk KS p KU q m j = condense_idx (fun k l => tG X d p q k l j) m) /\
  (forall m j, (m < 5)%nat -> (j < 3)%nat -> blk KS p KO q m j = condense_idx (fun k l => tH X d p q k l j) m) /\
  (forall m n, (m < 5)%nat -> (n < 5)%nat -> blk KS p KS q m n = condense_idx (fun k l => condense_idx (fun k' l' => tM X d p q k l k' l') n) m).
Hypothesis HT : pair_tensors.
Hypothesis HS : msym 22 G.

Lemma row_split k p i u : rsum 22 (fun r => G (kstart 2 k p + i)%nat r * u r) =
  rsum 2 (fun q => rsum 3 (fun j => blk k p KU q i j * vecs KU u q j) + rsum 3 (fun j => blk k p KO q i j * vecs KO u q j)
                   + rsum 5 (fun m => blk k p KS q i m * vecs KS u q m)).
Proof. exact (split22 (fun r => G (kstart 2 k p + i)%nat r * u r)). Qed.
Lemma blk_sym k p q k' i j : k <> KB -> k' <> KB -> (p < 2)%nat -> (q < 2)%nat -> (i < ksize k)%nat -> (j < ksize k')%nat ->
  blk k p k' q i j = blk k' q k p j i.
Proof.
  intros N N' Hp Hq Hi Hj. unfold pair_block. apply HS; [apply (block_range 2 0 k p i)|apply (block_range 2 0 k' q j)]; try assumption.
  - destruct k; cbn; lia || congruence.
  - destruct k'; cbn; lia || congruence.
Qed.
Lemma condense_row (f : nat -> nat -> R) (u : vec) p : st f ->
  rsum 5 (fun m => condense_idx f m * vecs KS u p m) = rsum 3 (fun i => rsum 3 (fun j => f i j * tens u p i j)).
Proof.
  intros Hf. rewrite <- cond_dot by (assumption || apply tens_st). apply rsum_ext. intros m Hm.
  unfold tens. rewrite condense_tensor by assumption. reflexivity.
Qed.
Lemma condense_sum n (f : nat -> nat -> nat -> R) m : condense_idx (fun i j => rsum n (fun k => f k i j)) m = rsum n (fun k => condense_idx (f k) m).
Proof.
  induction n as [|n IH]; cbn [rsum].
  - transitivity (condense_idx (fun i j => 0 * 0) m); [apply condense_ext2; intros; ring|]. rewrite condense_scal. ring.
  - rewrite <- IH. unfold condense_idx. cbn [rsum]. ring.
Qed.
Lemma condense_add (f g : nat -> nat -> R) m : condense_idx (fun i j => f i j + g i j) m = condense_idx f m + condense_idx g m.
Proof. unfold condense_idx. cbn [rsum]. ring. Qed.
Lemma st_sum n (f : nat -> nat -> nat -> R) : (forall k, (k < n)%nat -> st (f k)) -> st (fun i j => rsum n (fun k => f k i j)).
Proof.
  intros H. split.
  - intros i j Hi Hj. apply rsum_ext. intros k Hk. apply (proj1 (H k Hk)); assumption.
  - rewrite <- !rsum_plus. apply rsum_zero. intros k Hk. apply (H k Hk).
Qed.
Lemma st_add f g : st f -> st g -> st (fun i j => f i j + g i j).
Proof. intros [A B] [A' B']. split; [intros i j Hi Hj; rewrite (A i j), (A' i j) by assumption; reflexivity|lra]. Qed.
Lemma st_scal c f : st f -> st (fun i j => f i j * c).
Proof. intros [A B]. split; [intros i j Hi Hj; rewrite (A i j) by assumption; reflexivity|]. rewrite <- !Rmult_plus_distr_r, B. ring. Qed.

Theorem blocks_law u f : linrel 22 G u f ->
  resistance_law X d (vecs KU u) (vecs KO u) (vecs KU f) (vecs KO f) (tens u) (tens f).
Proof.
  intros L.
  assert (R : forall k p i, k <> KB -> (p < 2)%nat -> (i < ksize k)%nat -> f (kstart 2 k p + i)%nat = rsum 22 (fun r => G (kstart 2 k p + i)%nat r * u r)).
  { intros k p i N Hp Hi. apply L. apply (block_range 2 0 k p i); [destruct k; cbn; lia || congruence|exact Hi]. }
  split; [|split].
  - intros p i Hp Hi. unfold vecs at 1. rewrite R by (assumption || discriminate). rewrite row_split. apply rsum_ext. intros q Hq.
    destruct (HT p q Hp Hq) as (A & _). destruct (HT q p Hq Hp) as (_ & B & _ & G5 & _).
    rewrite <- (condense_row (fun j k => tG X d q p j k i)) by (apply tG_st; assumption).
    f_equal; [f_equal|]; apply rsum_ext; intros j Hj.
    + rewrite A by assumption. reflexivity.
    + rewrite (blk_sym KU p q KO) by (assumption || discriminate). rewrite B by assumption. reflexivity.
    + rewrite (blk_sym KU p q KS) by (assumption || discriminate). rewrite G5 by assumption. reflexivity.
  - intros p i Hp Hi. unfold vecs at 1. rewrite R by (assumption || discriminate). rewrite row_split. apply rsum_ext. intros q Hq.
    destruct (HT p q Hp Hq) as (_ & B & C & _). destruct (HT q p Hq Hp) as (_ & _ & _ & _ & H5 & _).
    rewrite <- (condense_row (fun j k => tH X d q p j k i)) by (apply tH_st; assumption).
    f_equal; [f_equal|]; apply rsum_ext; intros j Hj.
    + rewrite B by assumption. reflexivity.
    + rewrite C by assumption. reflexivity.
    + rewrite (blk_sym KO p q KS) by (assumption || discriminate). rewrite H5 by assumption. reflexivity.
  - intros p i j Hp Hi Hj.
    set (Z := fun i j => rsum 2 (fun q => rsum 3 (fun k => tG X d p q i j k * vecs KU u q k) + rsum 3 (fun k => tH X d p q i j k * vecs KO u q k)
                                + rsum 3 (fun k => rsum 3 (fun l => tM X d p q i j k l * tens u q k l)))).
    change (tens f p i j = Z i j).
    assert (SZ : st Z).
    { apply (st_sum 2 (fun q i j => _)). intros q Hq. apply st_add; [apply st_add|].
      - apply (st_sum 3 (fun k i j => _)). intros k Hk. apply (st_scal _ (fun i j => tG X d p q i j k)). apply tG_st; assumption.
      - apply (st_sum 3 (fun k i j => _)). intros k Hk. apply (st_scal _ (fun i j => tH X d p q i j k)). apply tH_st; assumption.
      - apply (st_sum 3 (fun k i j => _)). intros k Hk. apply (st_sum 3 (fun l i j => _)). intros l Hl.
        apply (st_scal _ (fun i j => tM X d p q i j k l)). apply tM_st; assumption. }
    rewrite <- (tensor_condense Z i j SZ Hi Hj). unfold tens. apply tensor_ext. intros m Hm. unfold vecs at 1.
    rewrite R by (assumption || discriminate). rewrite row_split. unfold Z.
    rewrite (condense_sum 2 (fun q i j => _)). apply rsum_ext. intros q Hq. rewrite !condense_add.
    destruct (HT p q Hp Hq) as (_ & _ & _ & G5 & H5 & M5).
    f_equal; [f_equal|].
    + rewrite (condense_sum 3 (fun k i j => _)). apply rsum_ext. intros k Hk. rewrite G5 by assumption.
      rewrite Rmult_comm, <- condense_scal. apply condense_ext2. intros; ring.
    + rewrite (condense_sum 3 (fun k i j => _)). apply rsum_ext. intros k Hk. rewrite H5 by assumption.
      rewrite Rmult_comm, <- condense_scal. apply condense_ext2. intros; ring.
    + transitivity (rsum 5 (fun n => condense_idx (fun k l => condense_idx (fun k' l' => tM X d p q k l k' l') n * vecs KS u q n) m)).
      * apply rsum_ext. intros n Hn. rewrite M5 by assumption. rewrite Rmult_comm, <- condense_scal. apply condense_ext2. intros; ring.
      * rewrite <- (condense_sum 5 (fun n k l => condense_idx (fun k' l' => tM X d p q k l k' l') n * vecs KS u q n)).
        apply (condense_ext). intros k l Hk Hl. apply (condense_row (fun k' l' => tM X d p q k l k' l')). apply tM_st'; assumption.
Qed.

Theorem blocks_power u f : rsum 22 (fun r => u r * f r) = power (vecs KU u) (vecs KO u) (tens u) (vecs KU f) (vecs KO f) (tens f).
Proof.
  rewrite split22. unfold power. apply rsum_ext. intros p Hp.
  transitivity (rsum 3 (fun i => vecs KU f p i * vecs KU u p i) + rsum 3 (fun i => vecs KO f p i * vecs KO u p i)
                + rsum 3 (fun i => rsum 3 (fun j => tens f p i j * tens u p i j))).
  - f_equal; [f_equal|]; try (apply rsum_ext; intros; unfold vecs; ring).
    rewrite <- (condense_row (tens f p) u p) by apply tens_st. apply rsum_ext. intros m Hm. unfold tens. rewrite condense_tensor by assumption.
    unfold vecs. ring.
  - rewrite <- !rsum_plus. reflexivity.
Qed.
Lemma blocks_moving u : (exists r, (r < 22)%nat /\ u r <> 0) -> moving (vecs KU u) (vecs KO u) (tens u).
Proof.
  intros (r & Hr & N). destruct (block_cover 2 0 r Hr) as (k & p & c & V & Hc & ->).
  destruct k; cbn in V; try lia.
  - exists p, c. split; [lia|]. split; [exact Hc|]. left. exact N.
  - exists p, c. split; [lia|]. split; [exact Hc|]. right. left. exact N.
  - assert (Q : ~ (forall i j, (i < 3)%nat -> (j < 3)%nat -> tens u p i j = 0)).
    { intros Q. apply N. change (vecs KS u p c = 0). rewrite <- (condense_tensor (vecs KS u p) c Hc).
      transitivity (condense_idx (fun i j => 0 * 0) c); [apply condense_ext; intros i j Hi Hj; rewrite (Q i j Hi Hj : tensor_of (vecs KS u p) i j = 0); ring|].
      rewrite condense_scal. ring. }
    assert (Dec : forall i j, tens u p i j = 0 \/ tens u p i j <> 0) by (intros i j; destruct (Req_dec (tens u p i j) 0); auto).
    destruct (Dec 0 0)%nat as [a0|B]; [|exists p, 0%nat; repeat split; try lia; right; right; exists 0%nat; split; [lia|exact B]].
    destruct (Dec 0 1)%nat as [a1|B]; [|exists p, 0%nat; repeat split; try lia; right; right; exists 1%nat; split; [lia|exact B]].
    destruct (Dec 0 2)%nat as [a2|B]; [|exists p, 0%nat; repeat split; try lia; right; right; exists 2%nat; split; [lia|exact B]].
    destruct (Dec 1 0)%nat as [a3|B]; [|exists p, 1%nat; repeat split; try lia; right; right; exists 0%nat; split; [lia|exact B]].
    destruct (Dec 1 1)%nat as [a4|B]; [|exists p, 1%nat; repeat split; try lia; right; right; exists 1%nat; split; [lia|exact B]].
    destruct (Dec 1 2)%nat as [a5|B]; [|exists p, 1%nat; repeat split; try lia; right; right; exists 2%nat; split; [lia|exact B]].
    destruct (Dec 2 0)%nat as [a6|B]; [|exists p, 2%nat; repeat split; try lia; right; right; exists 0%nat; split; [lia|exact B]].
    destruct (Dec 2 1)%nat as [a7|B]; [|exists p, 2%nat; repeat split; try lia; right; right; exists 1%nat; split; [lia|exact B]].
    destruct (Dec 2 2)%nat as [a8|B]; [|exists p, 2%nat; repeat split; try lia; right; right; exists 2%nat; split; [lia|exact B]].
    exfalso. apply Q. intros i j Hi Hj. idx3 Hi; idx3 Hj; assumption.
Qed.
Theorem blocks_pos_def : (forall U O F T E S, strains E -> moving U O E -> resistance_law X d U O F T E S -> 0 < power U O E F T S) -> pos_def 22 G.
Proof.
  intros H u f L N. rewrite blocks_power. apply H; [|apply blocks_moving; exact N|apply blocks_law; exact L].
  intros q Hq. apply tens_st.
Qed.
End Blocks.
