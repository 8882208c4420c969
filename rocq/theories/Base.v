(** Finite real sums, vectors and matrices as index functions, numpy-style
    block assignment.  General mathematics only: nothing here is a model of
    repository code except where a citation says so. *)
From Coq Require Import Reals Lra Lia Arith List Bool.
Import ListNotations.
Local Open Scope R_scope.

Definition vec := nat -> R.
Definition mat := nat -> nat -> R.

(** Sum of [f 0 .. f (n-1)]. *)
Fixpoint rsum (n : nat) (f : nat -> R) : R :=
  match n with
  | O => 0
  | S k => rsum k f + f k
  end.

Definition delta (i j : nat) : R := if Nat.eqb i j then 1 else 0.

(** np.dot of two matrices with inner dimension [k]; of a matrix and a vector;
    of two vectors. *)
Definition mmul (k : nat) (A B : mat) : mat :=
  fun i j => rsum k (fun l => A i l * B l j).
Definition mvec (k : nat) (A : mat) (x : vec) : vec :=
  fun i => rsum k (fun l => A i l * x l).
Definition dot (k : nat) (x y : vec) : R := rsum k (fun l => x l * y l).
Definition mtr (A : mat) : mat := fun i j => A j i.
Definition madd (A B : mat) : mat := fun i j => A i j + B i j.
Definition msub (A B : mat) : mat := fun i j => A i j - B i j.
Definition mopp (A : mat) : mat := fun i j => - A i j.
Definition mscal (c : R) (A : mat) : mat := fun i j => c * A i j.
Definition mzero : mat := fun _ _ => 0.

(** [slice M r c] is [M[r:, c:]]; the upper limits are given by use. *)
Definition slice (M : mat) (r c : nat) : mat := fun i j => M (r + i)%nat (c + j)%nat.

(** [put M r0 r1 c0 c1 B] is [M] after the numpy assignment
    [M[r0:r1, c0:c1] = B]. *)
Definition inb (lo hi i : nat) : bool := (Nat.leb lo i && Nat.ltb i hi)%bool.
Definition put (M : mat) (r0 r1 c0 c1 : nat) (B : mat) : mat :=
  fun i j => if (inb r0 r1 i && inb c0 c1 j)%bool
             then B (i - r0)%nat (j - c0)%nat else M i j.

(** [B] is the two-sided inverse of the [n] by [n] matrix [A]. *)
Definition is_inv (n : nat) (A B : mat) : Prop :=
  forall i j, (i < n)%nat -> (j < n)%nat ->
    mmul n A B i j = delta i j /\ mmul n B A i j = delta i j.

(** Symmetric [n] by [n] matrix. *)
Definition msym (n : nat) (A : mat) : Prop :=
  forall i j, (i < n)%nat -> (j < n)%nat -> A i j = A j i.

(** ** Sums *)

Lemma rsum_ext n f g :
  (forall i, (i < n)%nat -> f i = g i) -> rsum n f = rsum n g.
Proof.
  induction n as [|n IH]; intros H; simpl; [reflexivity|].
  rewrite IH by (intros; apply H; lia). rewrite H by lia. reflexivity.
Qed.

Lemma rsum_zero n f : (forall i, (i < n)%nat -> f i = 0) -> rsum n f = 0.
Proof.
  induction n as [|n IH]; intros H; simpl; [reflexivity|].
  rewrite IH by (intros; apply H; lia). rewrite H by lia. ring.
Qed.

Lemma rsum_const0 n : rsum n (fun _ => 0) = 0.
Proof. apply rsum_zero; reflexivity. Qed.

Lemma rsum_plus n f g : rsum n (fun i => f i + g i) = rsum n f + rsum n g.
Proof. induction n as [|n IH]; simpl; [ring|rewrite IH; ring]. Qed.

Lemma rsum_minus n f g : rsum n (fun i => f i - g i) = rsum n f - rsum n g.
Proof. induction n as [|n IH]; simpl; [ring|rewrite IH; ring]. Qed.

Lemma rsum_opp n f : rsum n (fun i => - f i) = - rsum n f.
Proof. induction n as [|n IH]; simpl; [ring|rewrite IH; ring]. Qed.

Lemma rsum_scal_l n c f : rsum n (fun i => c * f i) = c * rsum n f.
Proof. induction n as [|n IH]; simpl; [ring|rewrite IH; ring]. Qed.

Lemma rsum_scal_r n c f : rsum n (fun i => f i * c) = rsum n f * c.
Proof. induction n as [|n IH]; simpl; [ring|rewrite IH; ring]. Qed.

Lemma rsum_swap n m (f : nat -> nat -> R) :
  rsum n (fun i => rsum m (fun j => f i j)) = rsum m (fun j => rsum n (fun i => f i j)).
Proof.
  induction n as [|n IH]; simpl.
  - symmetry; apply rsum_const0.
  - rewrite IH, <- rsum_plus. reflexivity.
Qed.

Lemma rsum_app n m f : rsum (n + m) f = rsum n f + rsum m (fun i => f (n + i)%nat).
Proof.
  induction m as [|m IH].
  - rewrite Nat.add_0_r; simpl; ring.
  - rewrite Nat.add_succ_r; simpl; rewrite IH; ring.
Qed.

Lemma rsum_single n k f :
  (k < n)%nat -> (forall i, (i < n)%nat -> i <> k -> f i = 0) -> rsum n f = f k.
Proof.
  induction n as [|n IH]; intros Hk H; [lia|]. simpl.
  destruct (Nat.eq_dec k n) as [->|Hne].
  - rewrite rsum_zero; [ring|]. intros; apply H; lia.
  - rewrite IH by (try lia; intros; apply H; lia).
    rewrite (H n) by lia. ring.
Qed.

Lemma delta_same i : delta i i = 1.
Proof. unfold delta; rewrite Nat.eqb_refl; reflexivity. Qed.
Lemma delta_diff i j : i <> j -> delta i j = 0.
Proof. unfold delta; intros H; apply Nat.eqb_neq in H; rewrite H; reflexivity. Qed.
Lemma delta_sym i j : delta i j = delta j i.
Proof. unfold delta; rewrite Nat.eqb_sym; reflexivity. Qed.

Lemma rsum_delta_l n k f : (k < n)%nat -> rsum n (fun i => delta k i * f i) = f k.
Proof.
  intros Hk. rewrite (rsum_single n k) by
    (try exact Hk; intros i _ Hne; rewrite delta_diff by congruence; ring).
  rewrite delta_same; ring.
Qed.
Lemma rsum_delta_r n k f : (k < n)%nat -> rsum n (fun i => f i * delta i k) = f k.
Proof.
  intros Hk. rewrite (rsum_single n k) by
    (try exact Hk; intros i _ Hne; rewrite delta_diff by congruence; ring).
  rewrite delta_same; ring.
Qed.

Lemma rsum_nonneg n f : (forall i, (i < n)%nat -> 0 <= f i) -> 0 <= rsum n f.
Proof.
  induction n as [|n IH]; intros H; simpl; [lra|].
  pose proof (IH (fun i Hi => H i (Nat.lt_lt_succ_r _ _ Hi))).
  pose proof (H n (Nat.lt_succ_diag_r n)). lra.
Qed.

(** ** Matrix algebra *)

Lemma mmul_assoc_pt n k A B C i j :
  mmul n (mmul k A B) C i j = mmul k A (mmul n B C) i j.
Proof.
  unfold mmul.
  rewrite (rsum_ext n _ (fun l => rsum k (fun l0 => A i l0 * B l0 l * C l j)))
    by (intros; rewrite <- rsum_scal_r; reflexivity).
  rewrite rsum_swap. apply rsum_ext; intros l Hl.
  rewrite <- rsum_scal_l. apply rsum_ext; intros; ring.
Qed.

Lemma mvec_mmul n k A B x i : mvec n (mmul k A B) x i = mvec k A (mvec n B x) i.
Proof.
  unfold mvec, mmul.
  rewrite (rsum_ext n _ (fun l => rsum k (fun l0 => A i l0 * B l0 l * x l)))
    by (intros; rewrite <- rsum_scal_r; reflexivity).
  rewrite rsum_swap. apply rsum_ext; intros l Hl.
  rewrite <- rsum_scal_l. apply rsum_ext; intros; ring.
Qed.

Lemma mvec_ext n A B x y i :
  (forall l, (l < n)%nat -> A i l = B i l) -> (forall l, (l < n)%nat -> x l = y l) ->
  mvec n A x i = mvec n B y i.
Proof. intros HA Hx; apply rsum_ext; intros l Hl; rewrite HA, Hx by lia; reflexivity. Qed.

Lemma mmul_ext n A B C D i j :
  (forall l, (l < n)%nat -> A i l = B i l) -> (forall l, (l < n)%nat -> C l j = D l j) ->
  mmul n A C i j = mmul n B D i j.
Proof. intros HA Hx; apply rsum_ext; intros l Hl; rewrite HA, Hx by lia; reflexivity. Qed.

Lemma mvec_delta n x i : (i < n)%nat -> mvec n delta x i = x i.
Proof. intros Hi. unfold mvec. apply (rsum_delta_l n i (fun l => x l) Hi). Qed.

Lemma is_inv_mvec n A B x y :
  is_inv n A B ->
  (forall i, (i < n)%nat -> y i = mvec n A x i) <->
  (forall i, (i < n)%nat -> x i = mvec n B y i).
Proof.
  intros Hinv; split; intros H i Hi.
  - rewrite (mvec_ext n B B y (mvec n A x) i) by (auto).
    rewrite <- mvec_mmul.
    rewrite (mvec_ext n (mmul n B A) delta x x i) by
      (intros; try reflexivity; apply Hinv; lia).
    rewrite mvec_delta; auto.
  - rewrite (mvec_ext n A A x (mvec n B y) i) by (auto).
    rewrite <- mvec_mmul.
    rewrite (mvec_ext n (mmul n A B) delta y y i) by
      (intros; try reflexivity; apply Hinv; lia).
    rewrite mvec_delta; auto.
Qed.

(** The inverse of a symmetric matrix is symmetric. *)
Lemma is_inv_sym n A B : msym n A -> is_inv n A B -> msym n B.
Proof.
  intros HA HB i j Hi Hj.
  assert (E : forall i j, (i < n)%nat -> (j < n)%nat ->
             mmul n A (mtr B) i j = delta i j).
  { intros a b Ha Hb. unfold mmul, mtr.
    rewrite (rsum_ext n _ (fun l => B b l * A l a)) by
      (intros l Hl; rewrite (HA a l) by lia; ring).
    destruct (HB b a Hb Ha) as [_ E]. unfold mmul in E. rewrite E. apply delta_sym. }
  assert (T : mmul n B (mmul n A (mtr B)) i j = B i j).
  { unfold mmul at 1.
    rewrite (rsum_ext n _ (fun l => B i l * delta l j)) by
      (intros l Hl; rewrite E by lia; reflexivity).
    apply (rsum_delta_r n j (fun l => B i l) Hj). }
  rewrite <- T. rewrite <- mmul_assoc_pt.
  unfold mmul at 1.
  rewrite (rsum_ext n _ (fun l => delta i l * mtr B l j)).
  2:{ intros l Hl. destruct (HB i l Hi Hl) as [_ E2]. rewrite E2. reflexivity. }
  rewrite (rsum_delta_l n i (fun l => mtr B l j) Hi). reflexivity.
Qed.

Lemma is_inv_swap n A B : is_inv n A B -> is_inv n B A.
Proof. intros H i j Hi Hj; destruct (H i j Hi Hj); split; assumption. Qed.

Lemma is_inv_unique n A B C :
  is_inv n A B -> is_inv n A C ->
  forall i j, (i < n)%nat -> (j < n)%nat -> B i j = C i j.
Proof.
  intros HB HC i j Hi Hj.
  transitivity (mmul n B (mmul n A C) i j).
  - unfold mmul at 1. rewrite (rsum_ext n _ (fun l => B i l * delta l j)).
    + symmetry; apply (rsum_delta_r n j (fun l => B i l) Hj).
    + intros l Hl; destruct (HC l j Hl Hj) as [E _]; rewrite E; reflexivity.
  - rewrite <- mmul_assoc_pt. unfold mmul at 1.
    rewrite (rsum_ext n _ (fun l => delta i l * C l j)).
    + apply (rsum_delta_l n i (fun l => C l j) Hi).
    + intros l Hl; destruct (HB i l Hi Hl) as [_ E]; rewrite E; reflexivity.
Qed.

(** ** Block assignment *)

Lemma inb_true lo hi i : inb lo hi i = true <-> (lo <= i < hi)%nat.
Proof.
  unfold inb. rewrite andb_true_iff, Nat.leb_le, Nat.ltb_lt. tauto.
Qed.
Lemma inb_false lo hi i : inb lo hi i = false <-> ~ (lo <= i < hi)%nat.
Proof. rewrite <- inb_true. destruct (inb lo hi i); split; congruence. Qed.

Lemma put_in M r0 r1 c0 c1 B i j :
  (r0 <= i < r1)%nat -> (c0 <= j < c1)%nat ->
  put M r0 r1 c0 c1 B i j = B (i - r0)%nat (j - c0)%nat.
Proof.
  intros Hi Hj. unfold put.
  apply inb_true in Hi. apply inb_true in Hj. rewrite Hi, Hj. reflexivity.
Qed.
Lemma put_out M r0 r1 c0 c1 B i j :
  ~ ((r0 <= i < r1)%nat /\ (c0 <= j < c1)%nat) ->
  put M r0 r1 c0 c1 B i j = M i j.
Proof.
  intros H. unfold put.
  destruct (inb r0 r1 i) eqn:Ei; [|reflexivity].
  destruct (inb c0 c1 j) eqn:Ej; [|reflexivity].
  exfalso; apply H. rewrite <- inb_true, <- inb_true. auto.
Qed.

(** ** Three-vectors *)

Definition v3 (a b c : R) : vec :=
  fun i => match i with O => a | S O => b | S (S O) => c | _ => 0 end.
Definition vadd (x y : vec) : vec := fun i => x i + y i.
Definition vsub (x y : vec) : vec := fun i => x i - y i.
Definition vscal (c : R) (x : vec) : vec := fun i => c * x i.
Definition vopp (x : vec) : vec := fun i => - x i.
Definition dot3 (x y : vec) : R := x 0%nat * y 0%nat + x 1%nat * y 1%nat + x 2%nat * y 2%nat.
(** np.cross *)
Definition cross (x y : vec) : vec :=
  v3 (x 1%nat * y 2%nat - x 2%nat * y 1%nat)
     (x 2%nat * y 0%nat - x 0%nat * y 2%nat)
     (x 0%nat * y 1%nat - x 1%nat * y 0%nat).

(** Equality of 3-vectors. *)
Definition veq3 (x y : vec) : Prop := forall i, (i < 3)%nat -> x i = y i.

(** Case analysis on an index below 3 (below 5). *)
Lemma lt3_cases i : (i < 3)%nat -> i = 0%nat \/ i = 1%nat \/ i = 2%nat.
Proof. lia. Qed.
Lemma lt5_cases i : (i < 5)%nat ->
  i = 0%nat \/ i = 1%nat \/ i = 2%nat \/ i = 3%nat \/ i = 4%nat.
Proof. lia. Qed.

Ltac idx3 H := destruct (lt3_cases _ H) as [-> | [-> | ->]]; clear H.
Ltac idx5 H := destruct (lt5_cases _ H) as [-> | [-> | [-> | [-> | ->]]]]; clear H.
