(** Error branches of [generate_output], and diagonal matrices for the
    concrete examples. *)
From Coq Require Import Reals List Arith Bool Lia Lra.
From Verif Require Import Base Py Model_Pack Spec_Pack Proof_Pack Model_Convert Spec_Convert Proof_Ppt Proof_Diag Proof_Convert Model_Output Spec_Output Proof_Output.
Import ListNotations.
Local Open Scope R_scope.

Lemma bind_ok {A B} (x : res A) (f : A -> res B) b : bind x f = Ok b -> exists a, x = Ok a /\ f a = Ok b.
Proof. destruct x; simpl; intros H; [eexists; split; [reflexivity|exact H]|discriminate H]. Qed.

Lemma given_ok {A} e (l : list (option A)) l' : given e l = Ok l' -> l = map Some l'.
Proof.
  revert l'. induction l as [|[x|] l IH]; intros l' H; simpl in H.
  - injection H as <-. reflexivity.
  - apply bind_ok in H. destruct H as (t & Ht & E). injection E as <-. simpl. rewrite (IH t Ht). reflexivity.
  - discriminate H.
Qed.

Lemma force_vector_given e Ns Nd f t s fb dfb b : force_vector e Ns Nd f t s fb dfb = Ok b ->
  (exists f', f = map Some f') /\ (exists t', t = map Some t') /\ (exists s', s = map Some s') /\
  (exists fb', fb = map Some fb') /\ (exists dfb', dfb = map Some dfb').
Proof.
  unfold force_vector. intros H. apply bind_ok in H. destruct H as (s' & Hs & H). apply given_ok in Hs.
  destruct (condense_and_flatten s' Ns); [|discriminate H].
  apply bind_ok in H. destruct H as (f' & Hf & H). apply given_ok in Hf.
  apply bind_ok in H. destruct H as (t' & Ht & H). apply given_ok in Ht.
  apply bind_ok in H. destruct H as (fb' & Hfb & H). apply given_ok in Hfb.
  apply bind_ok in H. destruct H as (dfb' & Hdfb & H). apply given_ok in Hdfb.
  eauto 20.
Qed.

Lemma map_some_app {A} (a b : list (option A)) c : a ++ b = map Some c ->
  exists c1 c2, a = map Some c1 /\ b = map Some c2.
Proof.
  revert c. induction a as [|x a IH]; intros c H.
  - exists [], c. auto.
  - destruct c as [|y c]; [discriminate H|]. injection H as -> H. destruct (IH c H) as (c1 & c2 & -> & ->).
    exists (y :: c1), c2. auto.
Qed.

Lemma count_none_le {A} (l : list (option A)) : (count_none l <= length l)%nat.
Proof.
  unfold count_none. induction l as [|x l IH]; simpl; [lia|].
  destruct x; simpl; lia.
Qed.
Lemma count_none_full {A} (l : list (option A)) : count_none l = length l -> l = repeat None (length l).
Proof.
  unfold count_none. induction l as [|x l IH]; simpl; intros H; [reflexivity|].
  destruct x; simpl in H.
  - pose proof (count_none_le l). unfold count_none in *. lia.
  - f_equal. apply IH. lia.
Qed.

(** If the part taken as prescribed velocities is numeric, then these are all
    the prescribed velocities. *)
Lemma numeric_first_all n (u : list (option (list R))) u1 : length u = n ->
  lslice u 0 (n - count_none u) = map Some u1 -> rest_missing n (n - count_none u) u.
Proof.
  intros Hl E. set (k := (n - count_none u)%nat) in *.
  pose proof (count_none_le u) as Hc.
  assert (Hk : (k <= n)%nat) by (unfold k; lia).
  pose proof (lslice_split u k n Hl Hk) as Hs.
  assert (Hn : count_none (lslice u k n) = length (lslice u k n)).
  { pose proof (f_equal count_none Hs) as H. rewrite count_none_app, E, count_none_some in H.
    rewrite lslice_length by lia. unfold k in *. lia. }
  apply count_none_full in Hn. rewrite lslice_length in Hn by lia.
  intros i Hi. replace i with (k + (i - k))%nat by lia.
  rewrite <- (nth_error_lslice u k n (i - k)) by lia. rewrite Hn.
  apply nth_error_repeat. lia.
Qed.

Lemma map_some_nth {A} (l : list (option A)) l' i : l = map Some l' -> (i < length l)%nat ->
  exists r, nth_error l i = Some (Some r).
Proof.
  intros -> Hi. rewrite map_length in Hi. rewrite nth_error_map.
  destruct (nth_error l' i) as [r|] eqn:E; [exists r; reflexivity|]. apply nth_error_None in E. lia.
Qed.

Section Errors.
Variable inv : nat -> mat -> mat.
Variable solve : nat -> mat -> list R -> list R.
Variables Ns Nd : nat.

Lemma ufte_accepts_only_first extract R0 i o :
  length (i_Ua i) = Ns -> length (i_Fa i) = Ns ->
  output_ufte inv solve Ns Nd extract R0 i = Ok o ->
  exists nfix, (nfix <= Ns)%nat /\
    (forall j, (j < nfix)%nat -> exists r, nth_error (i_Ua i) j = Some (Some r)) /\
    (forall j, (nfix <= j < Ns)%nat -> nth_error (i_Ua i) j = Some None /\ exists r, nth_error (i_Fa i) j = Some (Some r)) /\
    (forall j, (j < length (i_Ta i))%nat -> exists r, nth_error (i_Ta i) j = Some (Some r)) /\
    (forall j, (j < length (i_Ea i))%nat -> exists r, nth_error (i_Ea i) j = Some (Some r)) /\
    (forall j, (j < length (i_Fb i))%nat -> exists r, nth_error (i_Fb i) j = Some (Some r)) /\
    (forall j, (j < length (i_DFb i))%nat -> exists r, nth_error (i_DFb i) j = Some (Some r)).
Proof.
  intros HU HF H. unfold output_ufte in H. cbv zeta in H. rewrite HU in H. apply bind_ok in H. destruct H as (b & Hb & _).
  apply force_vector_given in Hb. destruct Hb as ((f' & Hf) & (t' & Ht) & (s' & Hs) & (fb' & Hfb) & (dfb' & Hdfb)).
  apply map_some_app in Hf. destruct Hf as (c1 & c2 & E1 & E2).
  pose proof (numeric_first_all Ns _ c1 HU E1) as Hr.
  exists (Ns - count_none (i_Ua i))%nat. set (k := (Ns - count_none (i_Ua i))%nat) in *.
  assert (Hk : (k <= Ns)%nat) by (unfold k; lia).
  split; [exact Hk|]. split.
  { intros j Hj. change j with (0 + j)%nat at 1. rewrite <- (nth_error_lslice (i_Ua i) 0 k j) by lia.
    apply (map_some_nth _ c1); [exact E1|]. rewrite lslice_length by lia. lia. }
  split.
  { intros j Hj. split; [apply Hr; exact Hj|].
    replace j with (k + (j - k))%nat by lia. rewrite <- (nth_error_lslice (i_Fa i) k Ns (j - k)) by lia.
    apply (map_some_nth _ c2); [exact E2|]. rewrite lslice_length by lia. lia. }
  split; [|split; [|split]]; intros j Hj; (eapply map_some_nth; [eassumption|exact Hj]).
Qed.

Lemma fts_accepts_only_given R0 i o : output_fts solve Ns Nd R0 i = Ok o ->
  forall j,
    ((j < length (i_Fa i))%nat -> exists r, nth_error (i_Fa i) j = Some (Some r)) /\
    ((j < length (i_Ta i))%nat -> exists r, nth_error (i_Ta i) j = Some (Some r)) /\
    ((j < length (i_Sa i))%nat -> exists r, nth_error (i_Sa i) j = Some (Some r)) /\
    ((j < length (i_Fb i))%nat -> exists r, nth_error (i_Fb i) j = Some (Some r)) /\
    ((j < length (i_DFb i))%nat -> exists r, nth_error (i_DFb i) j = Some (Some r)).
Proof.
  intros H. unfold output_fts in H. apply bind_ok in H. destruct H as (b & Hb & _).
  apply force_vector_given in Hb. destruct Hb as ((f' & Hf) & (t' & Ht) & (s' & Hs) & (fb' & Hfb) & (dfb' & Hdfb)).
  intros j. repeat split; intros Hj; (eapply map_some_nth; [eassumption|exact Hj]).
Qed.

Lemma ufte_extract_fails R0 i : forall o, output_ufte inv solve Ns Nd true R0 i <> Ok o.
Proof.
  intros o H. unfold output_ufte in H. apply bind_ok in H. destruct H as (b & _ & H).
  apply bind_ok in H. destruct H as (R1 & _ & H). apply bind_ok in H. destruct H as (R2 & _ & H). discriminate H.
Qed.

Lemma nothing_given_raises fm extract R0 : (0 < Ns)%nat \/ (0 < Nd)%nat ->
  forall o, generate_output inv solve Ns Nd fm extract R0 (empty_vectors Ns Nd) (fun _ => empty_vectors Ns Nd) <> Ok o.
Proof.
  intros HN o H.
  assert (Hrep : forall {A} n (l : list A), repeat None n = map Some l -> n = 0%nat).
  { intros A n l E. destruct n; [reflexivity|]. destruct l; discriminate E. }
  assert (Hsl : forall {A} n k (l : list A), lslice (repeat None n) k n = map Some l -> (n <= k)%nat).
  { intros A n k l E. destruct (le_lt_dec n k) as [|Hlt]; [assumption|exfalso].
    assert (length (lslice (repeat (@None A) n) k n) = (n - k)%nat) as L by (apply lslice_length; rewrite repeat_length; lia).
    assert (nth_error (lslice (repeat (@None A) n) k n) 0 = Some None) as Hn.
    { rewrite nth_error_lslice by lia. apply nth_error_repeat. lia. }
    rewrite E in Hn. destruct l; discriminate Hn. }
  assert (Hcn : forall A n, (n - count_none (repeat (@None A) n))%nat = 0%nat).
  { intros A n. rewrite count_none_none. lia. }
  destruct fm; cbn [generate_output] in H; try discriminate H.
  - unfold output_fts in H. apply bind_ok in H. destruct H as (b & Hb & _). apply force_vector_given in Hb.
    cbn [empty_vectors i_Fa i_Ta i_Sa i_Fb i_DFb] in Hb. destruct Hb as ((f & Ef) & _ & _ & (g & Eg) & _).
    apply Hrep in Ef. apply Hrep in Eg. lia.
  - unfold output_fte in H. apply bind_ok in H. destruct H as (R1 & _ & H). cbv zeta in H.
    apply bind_ok in H. destruct H as (b & Hb & _). apply force_vector_given in Hb.
    cbn [empty_vectors i_Fa i_Ta i_Ea i_Fb i_DFb] in Hb. destruct Hb as ((f & Ef) & _ & _ & (g & Eg) & _).
    apply Hrep in Ef. apply Hrep in Eg. lia.
  - unfold output_ufte in H. apply bind_ok in H. destruct H as (b & Hb & _). apply force_vector_given in Hb.
    cbn [empty_vectors i_Fa i_Ta i_Ea i_Fb i_DFb i_Ua] in Hb. destruct Hb as (_ & (f & Ef) & _ & (g & Eg) & _).
    apply Hrep in Ef. apply Hrep in Eg. lia.
  - unfold output_ufteu in H. apply bind_ok in H. destruct H as (b & Hb & _). apply force_vector_given in Hb.
    cbn [empty_vectors i_Fa i_Ta i_Ea i_Fb i_DFb i_Ua i_Ub i_HalfDUb] in Hb. destruct Hb as (_ & (f & Ef) & _ & (g & Eg) & _).
    apply Hrep in Ef. apply map_some_app in Eg. destruct Eg as (c1 & c2 & _ & E2). rewrite repeat_length in E2.
    apply Hsl in E2. rewrite Hcn in E2. lia.
  - unfold output_duf in H. apply bind_ok in H. destruct H as (b & Hb & _). apply force_vector_given in Hb.
    cbn [empty_vectors i_Fa i_Ta i_Ea i_Fb i_DFb i_Ua i_Ub i_HalfDUb] in Hb. destruct Hb as (_ & (f & Ef) & _ & (g & Eg) & _).
    apply Hrep in Ef. apply map_some_app in Eg. destruct Eg as (c1 & c2 & _ & E2). rewrite repeat_length in E2.
    apply Hsl in E2. rewrite Hcn in E2. lia.
Qed.
End Errors.

(** ** Diagonal matrices *)
Definition diagonal (n : nat) (A : mat) : Prop :=
  (forall i j, (i < n)%nat -> (j < n)%nat -> i <> j -> A i j = 0) /\
  (forall i, (i < n)%nat -> A i i <> 0).

Lemma diagonal_slice n A lo m : diagonal n A -> (lo + m <= n)%nat -> diagonal m (slice A lo lo).
Proof.
  intros [H1 H2] Hm. unfold slice. split; intros i.
  - intros j Hi Hj Hij. apply H1; lia.
  - intros Hi. apply H2; lia.
Qed.
Lemma diagonal_inv n A : diagonal n A -> inv_ok dinv n A.
Proof. intros [H1 H2]. apply dinv_ok; assumption. Qed.
Lemma diagonal_ext n A B : (forall i j, (i < n)%nat -> (j < n)%nat -> B i j = A i j) -> diagonal n A -> diagonal n B.
Proof.
  intros E [H1 H2]. split; intros i.
  - intros j Hi Hj Hij. rewrite E by assumption. auto.
  - intros Hi. rewrite E by assumption. auto.
Qed.
Lemma diagonal_ppt n A lo hi : diagonal n A -> (lo <= hi <= n)%nat ->
  diagonal n (ppt lo hi (dinv (hi - lo) (slice A lo lo)) A).
Proof.
  intros HD Hlh. pose proof (diagonal_inv _ _ (diagonal_slice n A lo (hi - lo) HD ltac:(lia))) as Hinv.
  destruct HD as [H1 H2]. split.
  - intros i j Hi Hj Hij. unfold ppt. cbv zeta.
    destruct (inb lo hi i) eqn:Ei; destruct (inb lo hi j) eqn:Ej.
    + apply inb_true in Ei, Ej. unfold dinv. replace (Nat.eqb (i - lo) (j - lo)) with false; [reflexivity|].
      symmetry. apply Nat.eqb_neq. lia.
    + apply inb_true in Ei. apply inb_false in Ej. rewrite rsum_zero; [ring|].
      intros l Hl. rewrite (H1 (lo + l)%nat j) by lia. ring.
    + apply inb_true in Ej. apply inb_false in Ei. apply rsum_zero.
      intros l Hl. rewrite (H1 i (lo + l)%nat) by lia. ring.
    + apply inb_false in Ei, Ej. rewrite (H1 i j) by assumption. rewrite rsum_zero; [ring|].
      intros l Hl. rewrite (H1 (lo + l)%nat j) by lia. ring.
  - intros i Hi. unfold ppt. cbv zeta. destruct (inb lo hi i) eqn:Ei.
    + apply inb_true in Ei. unfold dinv. rewrite Nat.eqb_refl. apply Rinv_neq_0_compat. unfold slice. apply H2. lia.
    + apply inb_false in Ei. rewrite rsum_zero; [rewrite Rminus_0_r; apply H2, Hi|].
      intros l Hl. rewrite (H1 (lo + l)%nat i) by lia. ring.
Qed.

(** Row-by-row division solves a diagonal system. *)
Definition dsolve (n : nat) (A : mat) (b : list R) : list R := map (fun i => nth i b 0 / A i i) (seq 0 n).

Lemma dsolve_ok n A : diagonal n A -> solve_ok dsolve n A.
Proof.
  intros [H1 H2] b Hb. unfold dsolve. split; [rewrite map_length, seq_length; reflexivity|].
  intros i Hi.
  assert (E : forall j, (j < n)%nat -> lvec (map (fun i => nth i b 0 / A i i) (seq 0 n)) j = nth j b 0 / A j j).
  { intros j Hj. unfold lvec. erewrite nth_indep by (rewrite map_length, seq_length; exact Hj).
    rewrite (map_nth (fun i => nth i b 0 / A i i) (seq 0 n) 0%nat j). rewrite seq_nth by exact Hj. reflexivity. }
  rewrite (rsum_single n i); [|exact Hi|].
  - rewrite E by exact Hi. unfold lvec. field. apply H2, Hi.
  - intros j Hj Hji. rewrite (H1 i j) by (try assumption; congruence). ring.
Qed.

(** A diagonal resistance matrix meets the hypotheses of every form. *)
Lemma diagonal_chain Ns Nd nfix nfixd R0 :
  (0 < Ns)%nat -> (nfix <= Ns)%nat -> (nfixd <= Nd)%nat -> diagonal (11 * Ns + 6 * Nd) R0 -> msym (11 * Ns + 6 * Nd) R0 ->
  inv_ok dinv (5 * Ns) (slice R0 (6 * Ns) (6 * Ns)) /\
  exists Rfte, fts_to_fte_matrix dinv Ns Nd R0 = Ok Rfte /\
    solve_ok dsolve (11 * Ns + 6 * Nd) Rfte /\
    inv_ok dinv (3 * nfix) (slice Rfte 0 0) /\
  exists Rufte, fte_to_ufte_matrix dinv nfix Ns Nd Rfte = Ok Rufte /\
    solve_ok dsolve (11 * Ns + 6 * Nd) Rufte /\
    inv_ok dinv (3 * nfixd) (slice Rufte (11 * Ns) (11 * Ns)) /\
    inv_ok dinv (3 * nfixd)
      (slice (ufte_to_ufteu_step1 dinv nfixd nfix Ns Nd Rufte) (11 * Ns + 3 * Nd) (11 * Ns + 3 * Nd)) /\
    solve_ok dsolve (11 * Ns + 6 * Nd) (ufte_to_ufteu_matrix dinv nfixd nfix Ns Nd Rufte).
Proof.
  intros HNs Hk Hkd HD Hsym. set (N := (11 * Ns + 6 * Nd)%nat) in *.
  assert (I1 : inv_ok dinv (5 * Ns) (slice R0 (6 * Ns) (6 * Ns))).
  { apply diagonal_inv, (diagonal_slice N); [exact HD|unfold N; lia]. }
  split; [exact I1|].
  destruct (fts_to_fte_is_ppt dinv Ns Nd R0 HNs Hsym I1) as (Rfte & E1 & P1).
  destruct (fts_to_fte_correct dinv Ns Nd R0 HNs Hsym I1) as (Rx & Ex & _ & Sg1). rewrite E1 in Ex. injection Ex as <-.
  assert (D1 : diagonal N Rfte).
  { eapply diagonal_ext; [exact P1|]. replace (5 * Ns)%nat with (11 * Ns - 6 * Ns)%nat by lia.
    apply diagonal_ppt; [exact HD|unfold N; lia]. }
  exists Rfte. split; [exact E1|]. split; [apply dsolve_ok, D1|].
  assert (I2 : inv_ok dinv (3 * nfix) (slice Rfte 0 0)).
  { apply diagonal_inv, (diagonal_slice N); [exact D1|unfold N; lia]. }
  split; [exact I2|].
  destruct (fte_to_ufte_is_ppt dinv nfix Ns Nd Rfte HNs Hk Sg1 I2) as (Rufte & E2 & P2).
  destruct (fte_to_ufte_correct dinv nfix Ns Nd Rfte HNs Hk Sg1 I2) as (Rx & Ex & _ & Sg2). rewrite E2 in Ex. injection Ex as <-.
  assert (D2 : diagonal N Rufte).
  { eapply diagonal_ext; [exact P2|]. replace (3 * nfix)%nat with (3 * nfix - 0)%nat at 2 by lia.
    apply diagonal_ppt; [exact D1|unfold N; lia]. }
  exists Rufte. split; [exact E2|]. split; [apply dsolve_ok, D2|].
  assert (I3 : inv_ok dinv (3 * nfixd) (slice Rufte (11 * Ns) (11 * Ns))).
  { apply diagonal_inv, (diagonal_slice N); [exact D2|unfold N; lia]. }
  split; [exact I3|].
  pose proof (ufteu_step1_is_ppt dinv nfixd nfix Ns Nd Rufte Hk Hkd Sg2 I3) as P3.
  assert (D3 : diagonal N (ufte_to_ufteu_step1 dinv nfixd nfix Ns Nd Rufte)).
  { eapply diagonal_ext; [intros; apply P3; assumption|].
    replace (3 * nfixd)%nat with (11 * Ns + 3 * nfixd - 11 * Ns)%nat at 2 by lia.
    apply diagonal_ppt; [exact D2|unfold N; lia]. }
  assert (I4 : inv_ok dinv (3 * nfixd)
      (slice (ufte_to_ufteu_step1 dinv nfixd nfix Ns Nd Rufte) (11 * Ns + 3 * Nd) (11 * Ns + 3 * Nd))).
  { apply diagonal_inv, (diagonal_slice N); [exact D3|unfold N; lia]. }
  split; [exact I4|].
  apply dsolve_ok.
  destruct (ufteu_step1_correct dinv nfixd nfix Ns Nd Rufte Hk Hkd Sg2 I3) as (_ & Sg3).
  pose proof (ufteu_step2_is_ppt dinv nfixd nfix Ns Nd _ Hk Hkd Sg3 I4) as P4.
  eapply diagonal_ext; [intros; apply P4; assumption|].
  replace (3 * nfixd)%nat with (11 * Ns + 3 * Nd + 3 * nfixd - (11 * Ns + 3 * Nd))%nat at 2 by lia.
  apply diagonal_ppt; [exact D3|unfold N; lia].
Qed.
