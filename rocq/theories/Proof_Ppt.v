(** Principal pivot transform: mathematics behind the form conversions. *)
From Coq Require Import Reals Lra Lia List Arith Bool.
From Verif Require Import Base Spec_Convert.
Import ListNotations.
Local Open Scope R_scope.

(** Partial inversion on the index interval [lo, hi) with [B] the inverse of
    the pivot block. *)
Definition ppt (lo hi : nat) (B M : mat) : mat := fun r c =>
  let n := (hi - lo)%nat in
  if inb lo hi r then
    if inb lo hi c then B (r - lo)%nat (c - lo)%nat
    else - rsum n (fun l => B (r - lo)%nat l * M (lo + l)%nat c)
  else
    if inb lo hi c then rsum n (fun k => M r (lo + k)%nat * B k (c - lo)%nat)
    else M r c - rsum n (fun l => rsum n (fun k => M r (lo + k)%nat * B k l) * M (lo + l)%nat c).

(** Sum over all indices below [N], split into pivot and non-pivot indices. *)
Lemma rsum_split_pivot N lo hi g :
  (lo <= hi)%nat -> (hi <= N)%nat ->
  rsum N g = rsum N (fun j => if inb lo hi j then 0 else g j)
             + rsum (hi - lo) (fun k => g (lo + k)%nat).
Proof.
  intros Hlh HhN.
  replace N with (lo + ((hi - lo) + (N - hi)))%nat by lia.
  rewrite !rsum_app.
  replace (rsum lo (fun j => if inb lo hi j then 0 else g j)) with (rsum lo g).
  2:{ apply rsum_ext. intros i Hi. assert (E : inb lo hi i = false) by (apply inb_false; lia).
      rewrite E; reflexivity. }
  replace (rsum (hi - lo) (fun i => if inb lo hi (lo + i) then 0 else g (lo + i)%nat)) with 0.
  2:{ symmetry. apply rsum_zero. intros i Hi.
      assert (E : inb lo hi (lo + i) = true) by (apply inb_true; lia). rewrite E; reflexivity. }
  replace (rsum (N - hi) (fun i => if inb lo hi (lo + ((hi - lo) + i)) then 0 else g (lo + ((hi - lo) + i))%nat))
    with (rsum (N - hi) (fun i => g (lo + ((hi - lo) + i))%nat)).
  2:{ apply rsum_ext. intros i Hi.
      assert (E : inb lo hi (lo + ((hi - lo) + i)) = false) by (apply inb_false; lia).
      rewrite E; reflexivity. }
  ring.
Qed.

Section Ppt.
Variables (N lo hi : nat) (M B : mat).
Hypothesis Hlh : (lo <= hi)%nat.
Hypothesis HhN : (hi <= N)%nat.
Let n := (hi - lo)%nat.
Hypothesis Hinv : is_inv n (slice M lo lo) B.

Let rest (u : vec) (r : nat) : R := rsum N (fun j => if inb lo hi j then 0 else M r j * u j).
Let upart (u : vec) : vec := fun k => u (lo + k)%nat.
Let w (u f : vec) : vec := fun k => f (lo + k)%nat - rest u (lo + k).

Lemma exch_in x y i : (lo <= i < hi)%nat -> exch (rangeb lo hi) x y i = y i.
Proof. intros H. unfold exch. apply inb_true in H. change (rangeb lo hi i) with (inb lo hi i). rewrite H. reflexivity. Qed.
Lemma exch_out x y i : ~ (lo <= i < hi)%nat -> exch (rangeb lo hi) x y i = x i.
Proof. intros H. unfold exch. apply inb_false in H. change (rangeb lo hi i) with (inb lo hi i). rewrite H. reflexivity. Qed.

Lemma row_split u r :
  rsum N (fun j => M r j * u j) = rest u r + rsum n (fun k => M r (lo + k)%nat * u (lo + k)%nat).
Proof. apply (rsum_split_pivot N lo hi (fun j => M r j * u j) Hlh HhN). Qed.

Lemma rest_sum u (c : nat -> R) :
  rsum N (fun j => if inb lo hi j then 0 else rsum n (fun l => c l * M (lo + l)%nat j) * u j)
  = rsum n (fun l => c l * rest u (lo + l)).
Proof.
  unfold rest.
  transitivity (rsum N (fun j => rsum n (fun l =>
     c l * (if inb lo hi j then 0 else M (lo + l)%nat j * u j)))).
  { apply rsum_ext. intros j Hj. destruct (inb lo hi j).
    - symmetry. apply rsum_zero. intros; ring.
    - rewrite <- rsum_scal_r. apply rsum_ext. intros; ring. }
  rewrite rsum_swap. apply rsum_ext. intros l Hl. apply rsum_scal_l.
Qed.

Lemma ppt_row_in u f k : (k < n)%nat ->
  rsum N (fun j => ppt lo hi B M (lo + k)%nat j * exch (rangeb lo hi) u f j) = mvec n B (w u f) k.
Proof.
  intros Hk.
  rewrite (rsum_split_pivot N lo hi _ Hlh HhN).
  assert (Ek : inb lo hi (lo + k) = true) by (apply inb_true; unfold n in Hk; lia).
  rewrite (rsum_ext N _ (fun j => if inb lo hi j then 0 else
       rsum n (fun l => (- B k l) * M (lo + l)%nat j) * u j)).
  2:{ intros j Hj. destruct (inb lo hi j) eqn:Ej; [reflexivity|].
      unfold ppt. rewrite Ek, Ej. rewrite exch_out by (apply inb_false; exact Ej).
      replace (lo + k - lo)%nat with k by lia. fold n.
      rewrite <- rsum_opp. f_equal. apply rsum_ext. intros; ring. }
  rewrite (rest_sum u (fun l => - B k l)).
  match goal with |- _ + rsum _ ?g = _ =>
    rewrite (rsum_ext (hi - lo) g (fun l => B k l * f (lo + l)%nat)) end.
  2:{ intros l Hl. assert (El : inb lo hi (lo + l) = true) by (apply inb_true; lia).
      unfold ppt. rewrite Ek, El. rewrite exch_in by lia.
      replace (lo + k - lo)%nat with k by lia. replace (lo + l - lo)%nat with l by lia. reflexivity. }
  fold n. unfold mvec, w. rewrite <- rsum_plus. apply rsum_ext. intros; ring.
Qed.

Lemma ppt_row_out u f r : inb lo hi r = false ->
  rsum N (fun j => ppt lo hi B M r j * exch (rangeb lo hi) u f j)
  = rest u r + rsum n (fun k => M r (lo + k)%nat * mvec n B (w u f) k).
Proof.
  intros Er.
  rewrite (rsum_split_pivot N lo hi _ Hlh HhN).
  set (q := fun l => rsum n (fun k => M r (lo + k)%nat * B k l)).
  rewrite (rsum_ext N _ (fun j => (if inb lo hi j then 0 else M r j * u j)
       - (if inb lo hi j then 0 else rsum n (fun l => q l * M (lo + l)%nat j) * u j))).
  2:{ intros j Hj. destruct (inb lo hi j) eqn:Ej; [ring|].
      unfold ppt. rewrite Er, Ej. rewrite exch_out by (apply inb_false; exact Ej).
      fold n. unfold q. ring. }
  rewrite rsum_minus. rewrite (rest_sum u q).
  match goal with |- _ + rsum _ ?g = _ =>
    rewrite (rsum_ext (hi - lo) g (fun l => q l * f (lo + l)%nat)) end.
  2:{ intros l Hl. assert (El : inb lo hi (lo + l) = true) by (apply inb_true; lia).
      unfold ppt. rewrite Er, El. rewrite exch_in by lia.
      replace (lo + l - lo)%nat with l by lia. reflexivity. }
  fold n. fold (rest u r).
  replace (rsum n (fun k => M r (lo + k)%nat * mvec n B (w u f) k))
    with (rsum n (fun l => q l * w u f l)).
  2:{ unfold q, mvec.
      rewrite (rsum_ext n _ (fun l => rsum n (fun k => M r (lo + k)%nat * B k l * w u f l)))
        by (intros; rewrite <- rsum_scal_r; reflexivity).
      rewrite rsum_swap. apply rsum_ext. intros k Hk.
      rewrite <- rsum_scal_l. apply rsum_ext. intros; ring. }
  unfold w.
  rewrite (rsum_ext n (fun l => q l * (f (lo + l)%nat - rest u (lo + l)))
             (fun l => q l * f (lo + l)%nat - q l * rest u (lo + l))) by (intros; ring).
  rewrite rsum_minus. ring.
Qed.

Lemma pivot_rows u f :
  (forall k, (k < n)%nat -> f (lo + k)%nat = rsum N (fun j => M (lo + k)%nat j * u j)) <->
  (forall k, (k < n)%nat -> u (lo + k)%nat = mvec n B (w u f) k).
Proof.
  pose proof (is_inv_mvec n (slice M lo lo) B (upart u) (w u f) Hinv) as [X1 X2].
  split; intros H.
  - apply X1. intros k Hk. specialize (H k Hk).
    unfold w, mvec, slice, upart. rewrite H, row_split. ring.
  - specialize (X2 H). intros k Hk. specialize (X2 k Hk).
    rewrite row_split. unfold w, mvec, slice, upart in X2. rewrite <- X2. ring.
Qed.

Lemma ppt_same_problem : same_problem N (rangeb lo hi) M (ppt lo hi B M).
Proof.
  intros u f. unfold linrel. split; intros H.
  - assert (HP : forall k, (k < n)%nat -> u (lo + k)%nat = mvec n B (w u f) k).
    { apply pivot_rows. intros k Hk. apply H. unfold n in Hk; lia. }
    intros i Hi. destruct (inb lo hi i) eqn:Ei.
    + apply inb_true in Ei. rewrite exch_in by lia.
      replace i with (lo + (i - lo))%nat by lia.
      rewrite ppt_row_in by (unfold n; lia). apply HP. unfold n; lia.
    + rewrite ppt_row_out by exact Ei. apply inb_false in Ei. rewrite exch_out by exact Ei.
      rewrite (H i Hi), row_split. f_equal. apply rsum_ext. intros k Hk. rewrite HP by exact Hk. reflexivity.
  - assert (HP : forall k, (k < n)%nat -> u (lo + k)%nat = mvec n B (w u f) k).
    { intros k Hk. specialize (H (lo + k)%nat ltac:(unfold n in Hk; lia)).
      rewrite exch_in in H by (unfold n in Hk; lia).
      rewrite ppt_row_in in H by exact Hk. exact H. }
    intros i Hi. destruct (inb lo hi i) eqn:Ei.
    + apply inb_true in Ei. replace i with (lo + (i - lo))%nat by lia.
      apply (proj2 (pivot_rows u f) HP). unfold n; lia.
    + specialize (H i Hi). rewrite ppt_row_out in H by exact Ei.
      apply inb_false in Ei. rewrite exch_out in H by exact Ei.
      rewrite H, row_split. f_equal. apply rsum_ext. intros k Hk. rewrite HP by exact Hk. reflexivity.
Qed.

(** The exchanged index set after one more partial inversion. *)
Definition xset (s : nat -> bool) : nat -> bool :=
  fun i => xorb (s i) (inb lo hi i).

Variable s : nat -> bool.
Hypothesis Hs : sign_symmetric N s M.
Hypothesis Hconst : forall i j, (lo <= i < hi)%nat -> (lo <= j < hi)%nat -> s i = s j.

Lemma pivot_block_sym : msym n (slice M lo lo).
Proof.
  intros i j Hi Hj. unfold slice, n in *.
  rewrite (Hs (lo + i)%nat (lo + j)%nat) by lia.
  rewrite (Hconst (lo + i)%nat (lo + j)%nat) by lia. rewrite eqb_reflx. reflexivity.
Qed.

Lemma pivot_inv_sym : msym n B.
Proof. exact (is_inv_sym n _ _ pivot_block_sym Hinv). Qed.

Lemma ppt_sign_symmetric : sign_symmetric N (xset s) (ppt lo hi B M).
Proof.
  intros r c Hr Hc. unfold ppt, xset.
  pose proof pivot_inv_sym as HB. fold n.
  destruct (inb lo hi r) eqn:Er; destruct (inb lo hi c) eqn:Ec.
  - apply inb_true in Er. apply inb_true in Ec.
    rewrite (Hconst r c) by lia. destruct (s c); simpl; apply HB; unfold n; lia.
  - apply inb_true in Er. apply inb_false in Ec.
    assert (E : rsum n (fun k => M c (lo + k)%nat * B k (r - lo)%nat)
              = if Bool.eqb (s r) (s c) then rsum n (fun l => B (r - lo)%nat l * M (lo + l)%nat c)
                else - rsum n (fun l => B (r - lo)%nat l * M (lo + l)%nat c)).
    { destruct (Bool.eqb (s r) (s c)) eqn:Esc.
      - apply rsum_ext. intros k Hk. rewrite (HB k (r - lo)%nat) by (unfold n in *; lia).
        rewrite (Hs c%nat (lo + k)%nat) by (unfold n in *; lia).
        rewrite (Hconst (lo + k)%nat r) by (unfold n in *; lia).
        apply eqb_prop in Esc. rewrite Esc, eqb_reflx. ring.
      - rewrite <- rsum_opp. apply rsum_ext. intros k Hk. rewrite (HB k (r - lo)%nat) by (unfold n in *; lia).
        rewrite (Hs c%nat (lo + k)%nat) by (unfold n in *; lia).
        rewrite (Hconst (lo + k)%nat r) by (unfold n in *; lia).
        assert (X : Bool.eqb (s c) (s r) = false) by (destruct (s c), (s r); simpl in *; congruence).
        rewrite X. ring. }
    rewrite E. destruct (s r), (s c); simpl; ring.
  - apply inb_false in Er. apply inb_true in Ec.
    assert (E : rsum n (fun k => M r (lo + k)%nat * B k (c - lo)%nat)
              = if Bool.eqb (s r) (s c) then rsum n (fun l => B (c - lo)%nat l * M (lo + l)%nat r)
                else - rsum n (fun l => B (c - lo)%nat l * M (lo + l)%nat r)).
    { destruct (Bool.eqb (s r) (s c)) eqn:Esc.
      - apply rsum_ext. intros k Hk. rewrite (HB k (c - lo)%nat) by (unfold n in *; lia).
        rewrite (Hs r%nat (lo + k)%nat) by (unfold n in *; lia).
        rewrite (Hconst (lo + k)%nat c) by (unfold n in *; lia).
        rewrite Esc. ring.
      - rewrite <- rsum_opp. apply rsum_ext. intros k Hk. rewrite (HB k (c - lo)%nat) by (unfold n in *; lia).
        rewrite (Hs r%nat (lo + k)%nat) by (unfold n in *; lia).
        rewrite (Hconst (lo + k)%nat c) by (unfold n in *; lia).
        rewrite Esc. ring. }
    rewrite E. destruct (s r), (s c); simpl; ring.
  - (* both outside *)
    assert (Q : forall a b, (a < N)%nat -> (b < N)%nat ->
       rsum n (fun l => rsum n (fun k => M a (lo + k)%nat * B k l) * M (lo + l)%nat b)
       = rsum n (fun l => rsum n (fun k => M a (lo + k)%nat * B k l * M (lo + l)%nat b))).
    { intros. apply rsum_ext. intros. rewrite <- rsum_scal_r. reflexivity. }
    rewrite !Q by lia.
    assert (X : rsum n (fun l => rsum n (fun k => M r (lo + k)%nat * B k l * M (lo + l)%nat c))
      = if Bool.eqb (s r) (s c) then
          rsum n (fun l => rsum n (fun k => M c (lo + k)%nat * B k l * M (lo + l)%nat r))
        else - rsum n (fun l => rsum n (fun k => M c (lo + k)%nat * B k l * M (lo + l)%nat r))).
    { rewrite rsum_swap.
      assert (T : forall l k, (l < n)%nat -> (k < n)%nat ->
         M r (lo + l)%nat * B l k * M (lo + k)%nat c =
         if Bool.eqb (s r) (s c) then M c (lo + k)%nat * B k l * M (lo + l)%nat r
         else - (M c (lo + k)%nat * B k l * M (lo + l)%nat r)).
      { intros l k Hl Hk.
        rewrite (HB l k) by assumption.
        rewrite (Hs r%nat (lo + l)%nat) by (unfold n in *; lia).
        rewrite (Hs (lo + k)%nat c%nat) by (unfold n in *; lia).
        rewrite (Hconst (lo + k)%nat (lo + l)%nat) by (unfold n in *; lia).
        destruct (s r), (s c), (s (lo + l)%nat); simpl; ring. }
      destruct (Bool.eqb (s r) (s c)).
      - apply rsum_ext. intros l Hl. apply rsum_ext. intros k Hk. apply T; assumption.
      - rewrite <- rsum_opp. apply rsum_ext. intros l Hl. rewrite <- rsum_opp.
        apply rsum_ext. intros k Hk. apply T; assumption. }
    rewrite X. rewrite (Hs r c Hr Hc).
    rewrite !xorb_false_r. destruct (Bool.eqb (s r) (s c)); ring.
Qed.
End Ppt.


Lemma exch_exch s1 s2 x y i :
  exch s2 (exch s1 x y) (exch s1 y x) i = exch (fun i => xorb (s1 i) (s2 i)) x y i.
Proof. unfold exch. destruct (s1 i), (s2 i); reflexivity. Qed.

Lemma linrel_ext n A x y x' y' :
  (forall i, (i < n)%nat -> x i = x' i) -> (forall i, (i < n)%nat -> y i = y' i) ->
  linrel n A x y -> linrel n A x' y'.
Proof.
  intros Hx Hy H i Hi. rewrite <- Hy by exact Hi. rewrite (H i Hi).
  apply rsum_ext. intros j Hj. rewrite Hx by exact Hj. reflexivity.
Qed.

Lemma same_problem_trans n s1 s2 A B C :
  same_problem n s1 A B -> same_problem n s2 B C ->
  same_problem n (fun i => xorb (s1 i) (s2 i)) A C.
Proof.
  intros H1 H2 u f. rewrite (H1 u f). rewrite (H2 _ _).
  split; apply linrel_ext; intros i Hi; first [apply exch_exch | symmetry; apply exch_exch].
Qed.

Lemma same_problem_set n s s' A B :
  (forall i, (i < n)%nat -> s i = s' i) -> same_problem n s A B -> same_problem n s' A B.
Proof.
  intros Hs H u f. rewrite (H u f).
  split; apply linrel_ext; intros i Hi; unfold exch; rewrite Hs by exact Hi; reflexivity.
Qed.
