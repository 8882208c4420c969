(** The test of two-sphere problems against a file. *)
From Coq Require Import Reals List Arith ZArith Bool Lia Lra FunctionalExtensionality.
From Verif Require Import Base Py Model_Pack Model_Mob Model_Minf Model_Grand Model_GrandP Model_R2B Model_Subtract Model_Output Model_Inputs Model_Frame
  Model_Setups Model_Sim Model_Lamb Model_Test
  Spec_Pack Spec_Minf Spec_Output Spec_Posdef Spec_Run Spec_Turn Spec_Scalars Spec_R2B Spec_Subtract Spec_Exact
  Proof_Pack Proof_Output Proof_Turn2 Prop_Lamb Proof_Exact3.
Import ListNotations.
Local Open Scope R_scope.

Lemma isclose3_within x y : isclose3 x y = true <-> within x y.
Proof. unfold isclose3, within. destruct (Rle_dec _ _); split; auto; discriminate || contradiction. Qed.
Lemma within_refl x : within x x.
Proof.
  unfold within. rewrite Rminus_diag_eq, Rabs_R0 by reflexivity. pose proof (Rabs_pos x).
  assert (0 < / 10 ^ 8) by (apply Rinv_0_lt_compat, pow_lt; lra). assert (0 < / 10 ^ 3) by (apply Rinv_0_lt_compat, pow_lt; lra).
  assert (0 <= / 10 ^ 3 * Rabs x) by (apply Rmult_le_pos; lra). lra.
Qed.
Lemma all_close_eq l m : length l = length m ->
  exists b, all_close l m = Ok b /\ (b = true <-> forall k, (k < length m)%nat -> within (nth k l 0) (nth k m 0)).
Proof.
  intros L. unfold all_close. rewrite L, Nat.eqb_refl. eexists. split; [reflexivity|].
  revert m L. induction l as [|x l IH]; intros [|y m] L; cbn [length combine forallb] in *; try discriminate.
  - split; [intros _ k Hk; lia|reflexivity].
  - injection L as L. rewrite andb_true_iff, (IH m L), isclose3_within. cbn [fst snd]. split.
    + intros [A B] k Hk. destruct k as [|k]; [exact A|]. apply B. lia.
    + intros H. split; [exact (H 0%nat ltac:(lia))|]. intros k Hk. exact (H (S k) ltac:(lia)).
Qed.
Lemma slice_length (l : list R) lo hi : (lo <= hi <= length l)%nat -> length (lslice l lo hi) = (hi - lo)%nat.
Proof. intros H. unfold lslice. rewrite firstn_length, skipn_length. lia. Qed.
Lemma firstn_nth (l : list R) n k : (k < n)%nat -> nth k (firstn n l) 0 = nth k l 0.
Proof.
  revert n k. induction l as [|y l IH]; intros n k H.
  - rewrite firstn_nil. reflexivity.
  - destruct n as [|n]; [lia|]. destruct k as [|k]; [reflexivity|]. cbn [firstn nth]. apply IH. lia.
Qed.
Lemma skipn_nth (l : list R) n k : nth k (skipn n l) 0 = nth (n + k) l 0.
Proof. revert n. induction l as [|y l IH]; intros n; destruct n as [|n]; try reflexivity; cbn [skipn Nat.add nth]; [destruct k; reflexivity|apply IH]. Qed.
Lemma slice_nth (l : list R) lo hi k : (k < hi - lo)%nat -> nth k (lslice l lo hi) 0 = nth (lo + k) l 0.
Proof. intros H. unfold lslice. rewrite firstn_nth by exact H. apply skipn_nth. Qed.

Lemma rows2 l : shaped 2 3 l -> length (concat l) = 6%nat.
Proof.
  intros [L H]. destruct l as [|r [|t [|]]]; try discriminate. cbn [concat]. rewrite !app_length. rewrite (H r), (H t) by (cbn; auto). reflexivity.
Qed.
Lemma condense_two s : length s = 2%nat -> (forall t, In t s -> is33 t) -> exists c, condense s 2 = Ok c /\ concat c = flat_map five s /\ length (concat c) = 10%nat.
Proof.
  intros L H. destruct s as [|t [|t' [|]]]; try discriminate.
  pose proof (H t ltac:(cbn; auto)) as A. pose proof (H t' ltac:(cbn; auto)) as B.
  unfold condense. cbn [length Nat.leb firstn forallb andb].
  rewrite (is33_shape33 t A), (is33_shape33 t' B). cbn [andb seq map nth]. eexists. split; [reflexivity|]. cbn [concat flat_map]. rewrite !condense1_five by assumption. split; reflexivity.
Qed.

Lemma compare_counts line U O S : two_answers U O S -> (22 <= length line)%nat ->
  exists w, uos_compare line U O S = Ok w /\ (w <= 3)%nat /\
    (w = 0%nat <-> forall k, (k < 22)%nat -> within (nth k line 0) (nth k (numbers U O S) 0)).
Proof.
  intros (HU & HO & LS & HS) HL. pose proof (rows2 U HU) as LU. pose proof (rows2 O HO) as LO.
  destruct (condense_two S LS HS) as (c & Ec & Fc & Lc).
  destruct (all_close_eq (lslice line 0 6) (concat U)) as (u & Eu & Hu); [rewrite slice_length by lia; lia|].
  destruct (all_close_eq (lslice line 6 12) (concat O)) as (o & Eo & Ho); [rewrite slice_length by lia; lia|].
  destruct (all_close_eq (lslice line 12 22) (concat c)) as (s & Es & Hs); [rewrite slice_length by lia; lia|].
  unfold uos_compare. rewrite Eu, Eo, Ec. cbn [bind]. rewrite Es. cbn [bind]. rewrite slice_length by lia. cbn [Nat.sub Nat.eqb].
  assert (K : (u = true /\ o = true /\ s = true) <-> forall k, (k < 22)%nat -> within (nth k line 0) (nth k (numbers U O S) 0)).
  { rewrite Hu, Ho, Hs, LU, LO, Lc. unfold numbers. rewrite <- Fc. split.
    - intros (A & B & C) k Hk. destruct (Nat.lt_ge_cases k 6) as [K|K].
      + specialize (A k K). rewrite slice_nth in A by lia. rewrite app_nth1 by lia. exact A.
      + rewrite app_nth2, LU by lia. destruct (Nat.lt_ge_cases k 12) as [K2|K2].
        * specialize (B (k - 6)%nat ltac:(lia)). rewrite slice_nth in B by lia. replace (6 + (k - 6))%nat with k in B by lia. rewrite app_nth1 by lia. exact B.
        * rewrite app_nth2, LO by lia. specialize (C (k - 12)%nat ltac:(lia)). rewrite slice_nth in C by lia. replace (12 + (k - 12))%nat with k in C by lia.
          replace (k - 6 - 6)%nat with (k - 12)%nat by lia. exact C.
    - intros H. split; [|split]; intros k Hk.
      + specialize (H k ltac:(lia)). rewrite app_nth1 in H by lia. rewrite slice_nth by lia. exact H.
      + specialize (H (6 + k)%nat ltac:(lia)). rewrite app_nth2, LU in H by lia. rewrite app_nth1 in H by lia. replace (6 + k - 6)%nat with k in H by lia. rewrite slice_nth by lia. exact H.
      + specialize (H (12 + k)%nat ltac:(lia)). rewrite app_nth2, LU in H by lia. rewrite app_nth2, LO in H by lia. replace (12 + k - 6 - 6)%nat with k in H by lia. rewrite slice_nth by lia. exact H. }
  clear Hu Ho Hs. destruct u, o, s; eexists; (split; [reflexivity|]); (split; [cbn; lia|]); (eapply iff_trans; [|exact K]); cbn; split; intros Q; try lia; try (destruct Q as (? & ? & ?); discriminate); auto.
Qed.

Section Verdict.
Variables (inv : nat -> mat -> mat) (solve : nat -> mat -> list R -> list R) (sc : nat -> nat -> R -> nat -> R) (table : list R) (bb : bool) (cf ts : R) (verbose : bool).
Notation answer k := (fte_mobility_solve_nonperiodic inv solve sc table bb cf ts verbose (setup_of_row k) (input_of_row k)).
Variable sd : nat -> list R.
Hypothesis Hsd : forall k, (k < 88)%nat -> exists U O S, answer k = Ok (U, O, S) /\ two_answers U O S /\ sd k = numbers U O S.

Lemma div8 k : (k / 11 <? 8)%nat = true <-> (k < 88)%nat.
Proof.
  rewrite Nat.ltb_lt. split; intros H.
  - pose proof (Nat.div_mod k 11 ltac:(lia)). pose proof (Nat.mod_upper_bound k 11 ltac:(lia)). lia.
  - apply Nat.div_lt_upper_bound; lia.
Qed.
Lemma count_verdict rows i : (i + length rows <= 88)%nat -> (forall line, In line rows -> (22 <= length line)%nat) ->
  exists n, count_wrong inv solve sc table bb cf ts verbose i (map Some rows) = Ok n /\
    (n = 0%nat <-> forall k m, (k < length rows)%nat -> (m < 22)%nat -> within (nth m (nth k rows []) 0) (nth m (sd (i + k)) 0)).
Proof.
  revert i. induction rows as [|line rows IH]; intros i HL HR.
  - exists 0%nat. split; [reflexivity|]. split; [intros _ k m Hk; cbn in Hk; lia|reflexivity].
  - cbn [length] in HL. cbn [map count_wrong]. replace (i / 11 <? 8)%nat with true by (symmetry; apply div8; lia).
    destruct (Hsd i ltac:(lia)) as (U & O & S & EA & H2 & ES). rewrite EA. cbn [bind fst snd].
    destruct (compare_counts line U O S H2 (HR line ltac:(cbn; auto))) as (w & Ew & _ & Hw). rewrite Ew. cbn [bind].
    destruct (IH (Datatypes.S i) ltac:(lia) ltac:(intros l Hl; apply HR; cbn; auto)) as (n & En & Hn). rewrite En. cbn [bind].
    exists (w + n)%nat. split; [reflexivity|]. rewrite <- ES in Hw. split.
    + intros E0 k m Hk Hm. destruct k as [|k].
      * rewrite Nat.add_0_r. apply Hw; [lia|exact Hm].
      * replace (i + Datatypes.S k)%nat with (Datatypes.S i + k)%nat by lia. apply Hn; [lia| |exact Hm]. cbn [length] in Hk. lia.
    + intros H. assert (w = 0%nat). { apply Hw. intros m Hm. specialize (H 0%nat m ltac:(cbn; lia) Hm). rewrite Nat.add_0_r in H. exact H. }
      assert (n = 0%nat). { apply Hn. intros k m Hk Hm. specialize (H (Datatypes.S k) m ltac:(cbn; lia) Hm). replace (i + Datatypes.S k)%nat with (Datatypes.S i + k)%nat in H by lia. exact H. }
      lia.
Qed.
Lemma count_long rows i : (88 < i + length rows)%nat -> (i <= 88)%nat -> (forall line, In line rows -> (22 <= length line)%nat) ->
  count_wrong inv solve sc table bb cf ts verbose i (map Some rows) = Raise IndexError.
Proof.
  revert i. induction rows as [|line rows IH]; intros i HL Hi HR; [cbn in HL; lia|]. cbn [map count_wrong length] in *.
  destruct (i / 11 <? 8)%nat eqn:E; [|reflexivity]. apply div8 in E.
  destruct (Hsd i E) as (U & O & S & EA & H2 & ES). rewrite EA. cbn [bind fst snd].
  destruct (compare_counts line U O S H2 (HR line ltac:(cbn; auto))) as (w & Ew & _ & Hw). rewrite Ew. cbn [bind].
  rewrite IH; [reflexivity|lia|lia|intros l Hl; apply HR; cbn; auto].
Qed.
End Verdict.
