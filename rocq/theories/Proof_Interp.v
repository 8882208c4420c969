(** The scalar lookup. *)
From Coq Require Import Reals Arith Bool List Lia Lra.
From Verif Require Import Base Model_R2B Spec_R2B.
Import ListNotations.
Local Open Scope R_scope.

Lemma increasing_tl x l : increasing (x :: l) -> increasing l.
Proof. intros H i j Hij Hj. apply (H (S i) (S j)); simpl; lia. Qed.

Definition line (p q : R * R) (x : R) : R := snd p + (snd q - snd p) / (fst q - fst p) * (x - fst p).

Lemma interp_segment : forall l p x t, increasing (map fst (p :: l)) -> (t < length l)%nat ->
  fst (nth t (p :: l) (0, 0)) < x -> x <= fst (nth (S t) (p :: l) (0, 0)) ->
  interp_from (fst p) (snd p) x l = line (nth t (p :: l) (0, 0)) (nth (S t) (p :: l) (0, 0)) x.
Proof.
  induction l as [|[x1 y1] l IH]; intros p x t Hinc Ht Hlo Hhi; [simpl in Ht; lia|].
  cbn [interp_from]. destruct t as [|t].
  - cbn [nth fst] in Hhi. destruct (Rle_dec x x1); [reflexivity|contradiction].
  - destruct (Rle_dec x x1) as [Hle|_].
    + exfalso. cbn [nth] in Hlo. destruct t as [|t]; [cbn [nth fst] in Hlo; lra|].
      cbn [map] in Hinc. pose proof (increasing_tl _ _ Hinc 0%nat (S t) ltac:(lia)) as Q. cbn [map nth fst length] in Q.
      rewrite map_length in Q. simpl in Ht. specialize (Q ltac:(lia)).
      cbn [nth] in Hlo.
      rewrite (nth_indep _ 0 (fst (0,0))) in Q by (rewrite map_length; lia). rewrite map_nth in Q. lra.
    + apply (IH (x1, y1) x t); try assumption.
      * exact (increasing_tl _ _ Hinc).
      * simpl in Ht. lia.
Qed.

Lemma interp_above : forall l p x, (forall t, (t < length l)%nat -> fst (nth t l (0, 0)) < x) ->
  interp_from (fst p) (snd p) x l = snd (nth (length l) (p :: l) (0, 0)).
Proof.
  induction l as [|[x1 y1] l IH]; intros p x H; [reflexivity|].
  cbn [interp_from]. destruct (Rle_dec x x1) as [Hle|_].
  - exfalso. specialize (H 0%nat ltac:(simpl; lia)). cbn [nth fst] in H. lra.
  - change (nth (length ((x1, y1) :: l)) (p :: (x1, y1) :: l) (0,0)) with (nth (length l) ((x1, y1) :: l) (0,0)).
    apply (IH (x1, y1)). intros t Ht. apply (H (S t)). simpl. lia.
Qed.

(** At the level of the table. *)
Section Tab.
Variable tab : list (R * R).
Hypothesis Hinc : increasing (map fst tab).
Let X t := fst (nth t tab (0, 0)).
Let Y t := snd (nth t tab (0, 0)).

Lemma X_lt i j : (i < j)%nat -> (j < length tab)%nat -> X i < X j.
Proof.
  intros H1 H2. specialize (Hinc i j H1). rewrite map_length in Hinc. specialize (Hinc H2).
  change 0 with (fst (0, 0)) in Hinc. rewrite !map_nth in Hinc. exact Hinc.
Qed.

Lemma np_below x : (0 < length tab)%nat -> x <= X 0 -> np_interp x tab = Y 0.
Proof.
  intros Hl Hx. unfold np_interp, X, Y in *. destruct tab as [|[x0 y0] l]; [simpl in Hl; lia|].
  cbn [nth fst snd] in *. destruct (Rle_dec x x0); [reflexivity|contradiction].
Qed.
Lemma np_segment x t : (S t < length tab)%nat -> X t < x -> x <= X (S t) ->
  np_interp x tab = Y t + (Y (S t) - Y t) / (X (S t) - X t) * (x - X t).
Proof.
  intros Hl Hlo Hhi. unfold np_interp. pose proof X_lt as XL. unfold X, Y in *. clear X Y.
  destruct tab as [|[x0 y0] l]; [simpl in Hl; lia|].
  destruct (Rle_dec x x0) as [Hle|_].
  - exfalso. destruct t as [|t]; [cbn [nth fst] in Hlo; lra|].
    pose proof (XL 0%nat (S t) ltac:(lia)) as Q. simpl length in *. specialize (Q ltac:(lia)).
    cbn [nth fst] in Q, Hlo. lra.
  - apply (interp_segment l (x0, y0) x t); try assumption.
    simpl in Hl. lia.
Qed.
Lemma np_above x : (0 < length tab)%nat -> X (length tab - 1) <= x -> np_interp x tab = Y (length tab - 1).
Proof.
  intros Hl Hx. destruct (Req_dec x (X (length tab - 1))) as [->|Hne].
  - destruct (Nat.eq_dec (length tab) 1) as [E|E].
    + rewrite E. apply np_below; [lia|]. simpl. lra.
    + replace (length tab - 1)%nat with (S (length tab - 2)) by lia.
      pose proof (X_lt (length tab - 2) (S (length tab - 2)) ltac:(lia) ltac:(lia)).
      rewrite (np_segment _ (length tab - 2)) by (lia || lra). field. lra.
  - unfold np_interp. pose proof X_lt as XL. unfold X, Y in *. clear X Y.
    destruct tab as [|[x0 y0] l]; [simpl in Hl; lia|].
    destruct (Rle_dec x x0) as [Hle|_].
    + exfalso. destruct l as [|p l]; [simpl in *; lra|].
      pose proof (XL 0%nat (length ((x0, y0) :: p :: l) - 1)%nat) as Q.
      specialize (Q ltac:(simpl; lia) ltac:(simpl; lia)). cbn [nth fst] in Q. cbn [nth fst] in Hx.
      change (fst (nth 0 ((x0, y0) :: p :: l) (0, 0))) with x0 in Q. lra.
    + replace (length ((x0, y0) :: l) - 1)%nat with (length l) in * by (simpl; lia).
      apply (interp_above l (x0, y0)). intros t Ht.
      destruct (Nat.eq_dec (S t) (length l)) as [Et|Et].
      * change (nth t l (0, 0)) with (nth (S t) ((x0, y0) :: l) (0, 0)). rewrite Et. lra.
      * change (nth t l (0, 0)) with (nth (S t) ((x0, y0) :: l) (0, 0)).
        pose proof (XL (S t) (length l) ltac:(lia) ltac:(simpl; lia)) as Q. lra.
Qed.
Lemma np_node t : (t < length tab)%nat -> np_interp (X t) tab = Y t.
Proof.
  intros Ht. destruct t as [|t]; [apply np_below; [lia|lra]|].
  pose proof (X_lt t (S t) ltac:(lia) Ht). rewrite (np_segment _ t) by (lia || lra). field. lra.
Qed.
End Tab.

(** The lookup itself. *)
Section Lookup.
Variables (raw : nat -> nat -> nat -> nat -> R) (srange : list R) (scalar gamma ix : nat).
Hypothesis Hinc : increasing srange.
Let tab := combine srange (map (fun t => raw scalar gamma t ix) (seq 0 (length srange))).
Lemma tab_length : length tab = length srange.
Proof. unfold tab. rewrite combine_length, map_length, seq_length. lia. Qed.
Lemma tab_nth t : (t < length srange)%nat -> nth t tab (0, 0) = (nth t srange 0, raw scalar gamma t ix).
Proof.
  intros Ht. unfold tab. rewrite combine_nth by (rewrite map_length, seq_length; reflexivity). f_equal.
  rewrite (nth_indep _ 0 (raw scalar gamma 0%nat ix)) by (rewrite map_length, seq_length; exact Ht).
  rewrite (map_nth (fun t => raw scalar gamma t ix)). rewrite seq_nth by exact Ht. reflexivity.
Qed.
Lemma tab_inc : increasing (map fst tab).
Proof.
  intros i j H1 H2. rewrite map_length, tab_length in H2. change 0 with (fst (0, 0)). rewrite !map_nth.
  rewrite !tab_nth by lia. apply Hinc; assumption.
Qed.
Lemma XYZ_node t : (t < length srange)%nat ->
  XYZ raw srange scalar gamma (nth t srange 0) ix = raw scalar gamma t ix.
Proof.
  intros Ht. pose proof (np_node tab tab_inc t) as Q. rewrite tab_length, tab_nth in Q by exact Ht. exact (Q Ht).
Qed.
Lemma XYZ_segment s t : (S t < length srange)%nat -> nth t srange 0 <= s <= nth (S t) srange 0 ->
  XYZ raw srange scalar gamma s ix =
  (raw scalar gamma t ix * (nth (S t) srange 0 - s) + raw scalar gamma (S t) ix * (s - nth t srange 0))
  / (nth (S t) srange 0 - nth t srange 0).
Proof.
  intros Ht [Hlo Hhi]. pose proof (Hinc t (S t) ltac:(lia) Ht) as Hlt.
  destruct (Req_dec s (nth t srange 0)) as [->|Hne].
  - rewrite XYZ_node by lia. field. lra.
  - pose proof (np_segment tab tab_inc s t) as Q. rewrite tab_length, !tab_nth in Q by lia. cbn [fst snd] in Q.
    unfold XYZ. fold tab. rewrite Q by (assumption || lra). field. lra.
Qed.
Lemma XYZ_below s : (0 < length srange)%nat -> s <= nth 0 srange 0 ->
  XYZ raw srange scalar gamma s ix = raw scalar gamma 0 ix.
Proof.
  intros Hl Hs. pose proof (np_below tab tab_inc s) as Q. rewrite tab_length, tab_nth in Q by exact Hl. exact (Q Hl Hs).
Qed.
Lemma XYZ_above s : (0 < length srange)%nat -> nth (length srange - 1) srange 0 <= s ->
  XYZ raw srange scalar gamma s ix = raw scalar gamma (length srange - 1) ix.
Proof.
  intros Hl Hs. pose proof (np_above tab tab_inc s) as Q. rewrite tab_length, tab_nth in Q by lia. exact (Q Hl Hs).
Qed.
Lemma XYZ_between s t : (S t < length srange)%nat -> nth t srange 0 <= s <= nth (S t) srange 0 ->
  Rmin (raw scalar gamma t ix) (raw scalar gamma (S t) ix) <= XYZ raw srange scalar gamma s ix
  <= Rmax (raw scalar gamma t ix) (raw scalar gamma (S t) ix).
Proof.
  intros Ht Hs. pose proof (Hinc t (S t) ltac:(lia) Ht) as Hlt. rewrite (XYZ_segment s t Ht Hs).
  set (A := raw scalar gamma t ix). set (B := raw scalar gamma (S t) ix).
  set (w := (s - nth t srange 0) / (nth (S t) srange 0 - nth t srange 0)).
  replace (_ / _) with (A + (B - A) * w) by (unfold w; field; lra).
  assert (0 <= w <= 1).
  { unfold w. split; [apply Rmult_le_pos; [lra|apply Rlt_le, Rinv_0_lt_compat; lra]|].
    apply (Rmult_le_reg_r (nth (S t) srange 0 - nth t srange 0)); [lra|]. unfold Rdiv. rewrite Rmult_assoc, Rinv_l by lra. lra. }
  unfold Rmin, Rmax. destruct (Rle_dec A B); nra.
Qed.
End Lookup.
