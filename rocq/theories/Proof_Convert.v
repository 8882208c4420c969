(** The conversions of simulation_tools.py are principal pivot transforms. *)
From Coq Require Import Reals Lra Lia List Arith Bool.
From Verif Require Import Base Py Model_Convert Spec_Convert Proof_Fold Proof_Ppt.
Import ListNotations.
Local Open Scope R_scope.

Section Starts.
Variables (starts : list nat) (items N : nat).
Hypothesis Hstart0 : nthn starts 0 = 0%nat.
Hypothesis Hmono : forall a, (a < items)%nat -> (nthn starts a <= nthn starts (a + 1))%nat.
Hypothesis Hend : nthn starts items = N.

Lemma starts_le a b : (a <= b)%nat -> (b <= items)%nat -> (nthn starts a <= nthn starts b)%nat.
Proof.
  intros Hab Hb. induction b as [|b IH]; [replace a with 0%nat by lia; lia|].
  destruct (Nat.eq_dec a (S b)) as [->|]; [lia|].
  pose proof (Hmono b ltac:(lia)) as H. replace (b + 1)%nat with (S b) in H by lia.
  specialize (IH ltac:(lia) ltac:(lia)). lia.
Qed.

Lemma cell_exists r : (r < N)%nat ->
  exists a, (a < items)%nat /\ (nthn starts a <= r < nthn starts (a + 1))%nat.
Proof.
  intros Hr.
  assert (G : forall k, (k <= items)%nat -> (r < nthn starts k)%nat ->
     exists a, (a < k)%nat /\ (nthn starts a <= r < nthn starts (a + 1))%nat).
  { induction k as [|k IH]; intros Hk Hlt; [lia|].
    destruct (Nat.lt_ge_cases r (nthn starts k)) as [Hl|Hl].
    - destruct (IH ltac:(lia) Hl) as [a [Ha Hb]]. exists a; split; [lia|exact Hb].
    - exists k. split; [lia|]. replace (k + 1)%nat with (S k) by lia. lia. }
  destruct (G items ltac:(lia) ltac:(lia)) as [a [Ha Hb]]. exists a; auto.
Qed.

Lemma cell_unique r a b : (a < items)%nat -> (b < items)%nat ->
  (nthn starts a <= r < nthn starts (a + 1))%nat ->
  (nthn starts b <= r < nthn starts (b + 1))%nat -> a = b.
Proof.
  intros Ha Hb H1 H2.
  destruct (Nat.lt_trichotomy a b) as [Hlt|[Heq|Hlt]]; [|exact Heq|].
  - pose proof (starts_le (a + 1) b ltac:(lia) ltac:(lia)). lia.
  - pose proof (starts_le (b + 1) a ltac:(lia) ltac:(lia)). lia.
Qed.

Lemma in_grid a b : (a < items)%nat -> (b < items)%nat -> In (a, b) (grid items).
Proof. intros Ha Hb. apply in_prod; apply in_seq; lia. Qed.
Lemma grid_in ab : In ab (grid items) -> (fst ab < items)%nat /\ (snd ab < items)%nat.
Proof.
  destruct ab as [a b]. intros H. apply in_prod_iff in H. destruct H as [H1 H2].
  apply in_seq in H1. apply in_seq in H2. simpl; lia.
Qed.

Variables (k : nat) (A : list mat) (B : mat) (C : list mat).

Lemma vmv_entry r c a b :
  (a < items)%nat -> (b < items)%nat ->
  (nthn starts a <= r < nthn starts (a + 1))%nat ->
  (nthn starts b <= c < nthn starts (b + 1))%nat ->
  vecmat_mat_vecmat k A B C items starts r c
  = mmul k (mmul k (nthm A a) B) (nthm C b) (r - nthn starts a)%nat (c - nthn starts b)%nat.
Proof.
  intros Ha Hb Hr Hc. unfold vecmat_mat_vecmat.
  apply (fold_last _ _ _ _ _ _ (a, b) natpair_dec).
  - apply in_grid; assumption.
  - intros M. apply put_in; assumption.
  - intros [a' b'] M Hin Hne. destruct (grid_in _ Hin) as [Ha' Hb']. simpl in *.
    apply put_out. intros [H1 H2]. apply Hne.
    f_equal; eapply cell_unique; eassumption.
Qed.

Lemma vmc_entry cp r c a b :
  (a < items)%nat -> (b < items)%nat ->
  (nthn starts a <= r < nthn starts (a + 1))%nat ->
  (nthn starts b <= c < nthn starts (b + 1))%nat ->
  vec_mat_cross k A B C items starts cp r c
  = if Nat.eqb a cp then
      if Nat.eqb b cp then - B (r - nthn starts a)%nat (c - nthn starts b)%nat
      else mmul k B (nthm C b) (r - nthn starts a)%nat (c - nthn starts b)%nat
    else
      if Nat.eqb b cp then - mmul k (nthm A a) B (r - nthn starts a)%nat (c - nthn starts b)%nat
      else 0.
Proof.
  intros Ha Hb Hr Hc. unfold vec_mat_cross.
  assert (Hother : forall (a' : nat * nat) M, In a' (grid items) -> a' <> (a, b) ->
    (let '(Ai, Ci) := a' in
      let E := mmul k (nthm A Ai) B in
      let wr X := put M (nthn starts Ai) (nthn starts (Ai + 1))
                        (nthn starts Ci) (nthn starts (Ci + 1)) X in
      if (Nat.eqb Ai cp && negb (Nat.eqb Ci cp))%bool
      then wr (mmul k B (nthm C Ci))
      else if (negb (Nat.eqb Ai cp) && Nat.eqb Ci cp)%bool
      then wr (mopp E)
      else if Nat.eqb Ai cp then wr (mopp B) else M) r c = M r c).
  { intros [a' b'] M Hin Hne. destruct (grid_in _ Hin) as [Ha' Hb']. simpl in Ha', Hb'.
    assert (Hout : ~ ((nthn starts a' <= r < nthn starts (a' + 1))%nat /\
                      (nthn starts b' <= c < nthn starts (b' + 1))%nat)).
    { intros [H1 H2]. apply Hne. f_equal; eapply cell_unique; eassumption. }
    cbv zeta.
    destruct (Nat.eqb a' cp), (Nat.eqb b' cp); simpl; try reflexivity; apply put_out; exact Hout. }
  destruct (Nat.eqb a cp) eqn:Ea; destruct (Nat.eqb b cp) eqn:Eb.
  - apply (fold_last _ _ _ _ _ _ (a, b) natpair_dec (in_grid _ _ Ha Hb)); [|exact Hother].
    intros M. rewrite Ea, Eb. simpl. rewrite put_in by assumption. reflexivity.
  - apply (fold_last _ _ _ _ _ _ (a, b) natpair_dec (in_grid _ _ Ha Hb)); [|exact Hother].
    intros M. rewrite Ea, Eb. simpl. rewrite put_in by assumption. reflexivity.
  - apply (fold_last _ _ _ _ _ _ (a, b) natpair_dec (in_grid _ _ Ha Hb)); [|exact Hother].
    intros M. rewrite Ea, Eb. simpl. rewrite put_in by assumption. reflexivity.
  - rewrite fold_none; [reflexivity|].
    intros ab M Hin. destruct (natpair_dec ab (a, b)) as [->|Hne]; [|exact (Hother ab M Hin Hne)].
    rewrite Ea, Eb. reflexivity.
Qed.

(** The generic identification of [swap_form] with [ppt]. *)
Variable M : mat.
Variable cp : nat.
Hypothesis Hcp : (cp < items)%nat.
Let lo := nthn starts cp.
Let hi := nthn starts (cp + 1).
Hypothesis Hk : k = (hi - lo)%nat.
Hypothesis HA : forall a r l, (a < items)%nat -> (nthn starts a <= r < nthn starts (a + 1))%nat ->
  (l < k)%nat -> nthm A a (r - nthn starts a)%nat l = M r (lo + l)%nat.
Hypothesis HC : forall b c l, (b < items)%nat -> (nthn starts b <= c < nthn starts (b + 1))%nat ->
  (l < k)%nat -> nthm C b l (c - nthn starts b)%nat = M (lo + l)%nat c.
Hypothesis Hinv : is_inv k (slice M lo lo) B.

Lemma swap_form_ppt r c : (r < N)%nat -> (c < N)%nat ->
  swap_form k M A B C items starts cp r c = ppt lo hi B M r c.
Proof.
  intros Hr Hc.
  destruct (cell_exists r Hr) as [a [Ha Hra]].
  destruct (cell_exists c Hc) as [b [Hb Hcb]].
  unfold swap_form, msub.
  rewrite (vmv_entry r c a b), (vmc_entry cp r c a b) by assumption.
  assert (Ra : inb lo hi r = Nat.eqb a cp).
  { destruct (Nat.eqb_spec a cp) as [->|Hne].
    - apply inb_true. exact Hra.
    - apply inb_false. intros H. apply Hne. apply (cell_unique r); assumption. }
  assert (Cb : inb lo hi c = Nat.eqb b cp).
  { destruct (Nat.eqb_spec b cp) as [->|Hne].
    - apply inb_true. exact Hcb.
    - apply inb_false. intros H. apply Hne. apply (cell_unique c); assumption. }
  assert (E1 : forall l, (l < k)%nat -> mmul k (nthm A a) B (r - nthn starts a)%nat l
               = rsum k (fun q => M r (lo + q)%nat * B q l)).
  { intros l Hl. unfold mmul. apply rsum_ext. intros q Hq. rewrite HA by assumption. reflexivity. }
  assert (E2 : mmul k (mmul k (nthm A a) B) (nthm C b) (r - nthn starts a)%nat (c - nthn starts b)%nat
               = rsum k (fun l => rsum k (fun q => M r (lo + q)%nat * B q l) * M (lo + l)%nat c)).
  { unfold mmul at 1. apply rsum_ext. intros l Hl. rewrite E1, HC by assumption. reflexivity. }
  rewrite E2. unfold ppt. rewrite Ra, Cb. fold lo hi. rewrite <- Hk.
  destruct (Nat.eqb_spec a cp) as [->|Hna]; destruct (Nat.eqb_spec b cp) as [->|Hnb].
  - (* pivot block: m - m t m + t *)
    fold lo.
    assert (X : rsum k (fun l => rsum k (fun q => M r (lo + q)%nat * B q l) * M (lo + l)%nat c) = M r c).
    { assert (Hrl : (r - lo < k)%nat) by (unfold lo, hi in *; lia).
      rewrite (rsum_ext k _ (fun l => delta (r - lo) l * M (lo + l)%nat c)).
      - rewrite (rsum_delta_l k (r - lo)%nat (fun l => M (lo + l)%nat c)) by assumption.
        replace (lo + (r - lo))%nat with r by (unfold lo; lia). reflexivity.
      - intros l Hl. destruct (Hinv (r - lo)%nat l Hrl Hl) as [E _].
        unfold mmul, slice in E. rewrite <- E.
        replace (lo + (r - lo))%nat with r by (unfold lo; lia). reflexivity. }
    rewrite X. ring.
  - (* horizontal *)
    fold lo.
    assert (X : rsum k (fun l => rsum k (fun q => M r (lo + q)%nat * B q l) * M (lo + l)%nat c) = M r c).
    { assert (Hrl : (r - lo < k)%nat) by (unfold lo, hi in *; lia).
      rewrite (rsum_ext k _ (fun l => delta (r - lo) l * M (lo + l)%nat c)).
      - rewrite (rsum_delta_l k (r - lo)%nat (fun l => M (lo + l)%nat c)) by assumption.
        replace (lo + (r - lo))%nat with r by (unfold lo; lia). reflexivity.
      - intros l Hl. destruct (Hinv (r - lo)%nat l Hrl Hl) as [E _].
        unfold mmul, slice in E. rewrite <- E.
        replace (lo + (r - lo))%nat with r by (unfold lo; lia). reflexivity. }
    rewrite X.
    rewrite (rsum_ext k (fun l => B (r - lo)%nat l * M (lo + l)%nat c)
               (fun l => B (r - lo)%nat l * nthm C b l (c - nthn starts b)%nat))
      by (intros; rewrite HC by assumption; reflexivity).
    unfold mmul. ring.
  - (* vertical *)
    fold lo.
    assert (Hcl : (c - lo < k)%nat) by (unfold lo, hi in *; lia).
    rewrite (E1 (c - lo)%nat Hcl).
    assert (X : rsum k (fun l => rsum k (fun q => M r (lo + q)%nat * B q l) * M (lo + l)%nat c) = M r c).
    { rewrite (rsum_ext k _ (fun l => rsum k (fun q => M r (lo + q)%nat * B q l * M (lo + l)%nat c)))
        by (intros; rewrite <- rsum_scal_r; reflexivity).
      rewrite rsum_swap.
      rewrite (rsum_ext k _ (fun q => M r (lo + q)%nat * delta q (c - lo))).
      - rewrite (rsum_delta_r k (c - lo)%nat (fun q => M r (lo + q)%nat)) by assumption.
        replace (lo + (c - lo))%nat with c by (unfold lo; lia). reflexivity.
      - intros q Hq. destruct (Hinv q (c - lo)%nat Hq Hcl) as [_ E].
        unfold mmul, slice in E. rewrite <- E. rewrite <- rsum_scal_l.
        apply rsum_ext. intros l Hl.
        replace (lo + (c - lo))%nat with c by (unfold lo; lia). ring. }
    rewrite X. ring.
  - (* elsewhere *) ring.
Qed.
End Starts.

(** ** Extensionality of the specification *)

Lemma same_problem_ext N s A A' A'' :
  (forall r c, (r < N)%nat -> (c < N)%nat -> A' r c = A'' r c) ->
  same_problem N s A A' -> same_problem N s A A''.
Proof.
  intros He Hp u f. rewrite (Hp u f). unfold linrel.
  split; intros H i Hi; rewrite (H i Hi); apply rsum_ext; intros j Hj; rewrite He by lia; reflexivity.
Qed.

Lemma sign_symmetric_ext N s s' A A' :
  (forall r c, (r < N)%nat -> (c < N)%nat -> A r c = A' r c) ->
  (forall i, (i < N)%nat -> s i = s' i) ->
  sign_symmetric N s A -> sign_symmetric N s' A'.
Proof.
  intros He Hs H i j Hi Hj. rewrite <- !He, <- !Hs by assumption. apply H; assumption.
Qed.

Lemma msym_sign N A : msym N A <-> sign_symmetric N none_set A.
Proof. unfold msym, sign_symmetric, none_set. simpl. tauto. Qed.

Ltac inbs :=
  repeat match goal with
  | |- context [rangeb ?a ?b ?x] => change (rangeb a b x) with (inb a b x)
  end;
  repeat match goal with
  | |- context [inb ?a ?b ?x] =>
      first [ replace (inb a b x) with true by (symmetry; apply inb_true; lia)
            | replace (inb a b x) with false by (symmetry; apply inb_false; lia) ]
  end.

(** Solve a [HA]/[HC] obligation for one block. *)
Ltac blk :=
  unfold nthm, nthn in *; cbn [nth Nat.add] in *; unfold mopp, mtr, slice; cbn [Nat.add];
  repeat match goal with
  | |- context [(?c + (?r - ?c))%nat] => replace (c + (r - c))%nat with r by lia
  | |- context [(?r - 0)%nat] => rewrite (Nat.sub_0_r r)
  end.

Section Fte.
Variables (inv : nat -> mat -> mat) (Ns Nd : nat) (M : mat).
Let N := (11 * Ns + 6 * Nd)%nat.
Hypothesis HNs : (0 < Ns)%nat.
Hypothesis Hsym : msym N M.
Hypothesis Hinv : inv_ok inv (5 * Ns) (slice M (6 * Ns) (6 * Ns)).

Lemma fts_to_fte_is_ppt :
  exists M', fts_to_fte_matrix inv Ns Nd M = Ok M' /\
  forall r c, (r < N)%nat -> (c < N)%nat ->
    M' r c = ppt (6 * Ns) (11 * Ns) (inv (5 * Ns)%nat (slice M (6 * Ns) (6 * Ns))) M r c.
Proof.
  unfold fts_to_fte_matrix.
  assert (E : Nat.ltb 0 Ns = true) by (apply Nat.ltb_lt; exact HNs). rewrite E.
  replace (11 * Ns - 6 * Ns)%nat with (5 * Ns)%nat by lia.
  eexists. split; [reflexivity|].
  intros r c Hr Hc. subst N.
  destruct (Nat.ltb 0 Nd) eqn:ENd; cbn [andb].
  - apply Nat.ltb_lt in ENd.
    refine (swap_form_ppt _ _ (11 * Ns + 6 * Nd) _ _ _ (5 * Ns) _ _ _ M 2 _ _ _ _ _ r c Hr Hc).
    + reflexivity.
    + intros a Ha. unfold nthn. do 5 (destruct a as [|a]; [cbn [nth Nat.add]; lia|]). lia.
    + reflexivity.
    + lia.
    + unfold nthn; cbn [nth Nat.add]; lia.
    + intros a q l Ha Hq Hl. unfold nthn at 2. cbn [nth].
      do 5 (destruct a as [|a]; [blk; first [reflexivity | apply Hsym; lia]|]). lia.
    + intros a q l Ha Hq Hl. unfold nthn at 2. cbn [nth].
      do 5 (destruct a as [|a]; [blk; first [reflexivity | apply Hsym; lia]|]). lia.
    + exact Hinv.
  - apply Nat.ltb_ge in ENd. assert (Nd = 0)%nat by lia. subst Nd.
    refine (swap_form_ppt _ _ (11 * Ns + 6 * 0) _ _ _ (5 * Ns) _ _ _ M 2 _ _ _ _ _ r c Hr Hc).
    + reflexivity.
    + intros a Ha. unfold nthn. do 5 (destruct a as [|a]; [cbn [nth Nat.add]; lia|]). lia.
    + unfold nthn; cbn [nth]; lia.
    + lia.
    + unfold nthn; cbn [nth Nat.add]; lia.
    + intros a q l Ha Hq Hl. unfold nthn at 2. cbn [nth].
      do 3 (destruct a as [|a]; [blk; first [reflexivity | apply Hsym; lia]|]). lia.
    + intros a q l Ha Hq Hl. unfold nthn at 2. cbn [nth].
      do 3 (destruct a as [|a]; [blk; first [reflexivity | apply Hsym; lia]|]). lia.
    + exact Hinv.
Qed.

Lemma fts_to_fte_correct :
  exists M', fts_to_fte_matrix inv Ns Nd M = Ok M' /\
    same_problem N (strain_set Ns) M M' /\
    sign_symmetric N (strain_set Ns) M'.
Proof.
  destruct fts_to_fte_is_ppt as [M' [HM' Hppt]]. exists M'. split; [exact HM'|].
  assert (Hinv' : is_inv (11 * Ns - 6 * Ns) (slice M (6 * Ns) (6 * Ns))
                    (inv (5 * Ns)%nat (slice M (6 * Ns) (6 * Ns)))).
  { replace (11 * Ns - 6 * Ns)%nat with (5 * Ns)%nat by lia. exact Hinv. }
  split.
  - eapply same_problem_ext; [intros r c Hr Hc; symmetry; apply Hppt; assumption|].
    apply (ppt_same_problem N (6 * Ns) (11 * Ns)); [lia|unfold N; lia|exact Hinv'].
  - eapply sign_symmetric_ext;
      [intros r c Hr Hc; symmetry; apply Hppt; assumption| |].
    2:{ apply (ppt_sign_symmetric N (6 * Ns) (11 * Ns) M _ ltac:(lia) ltac:(unfold N; lia) Hinv' none_set).
        - apply msym_sign; exact Hsym.
        - reflexivity. }
    intros i Hi. unfold xset, none_set. rewrite xorb_false_l. reflexivity.
Qed.
End Fte.

Section Ufte.
Variables (inv : nat -> mat -> mat) (nfix Ns Nd : nat) (M : mat).
Let N := (11 * Ns + 6 * Nd)%nat.
Hypothesis HNs : (0 < Ns)%nat.
Hypothesis Hfix : (nfix <= Ns)%nat.
Hypothesis Hsym : sign_symmetric N (strain_set Ns) M.
Hypothesis Hinv : inv_ok inv (3 * nfix) (slice M 0 0).

Ltac ss := rewrite Hsym by (unfold N; lia); unfold strain_set; inbs; simpl; ring.

Lemma fte_to_ufte_is_ppt :
  exists M', fte_to_ufte_matrix inv nfix Ns Nd M = Ok M' /\
  forall r c, (r < N)%nat -> (c < N)%nat ->
    M' r c = ppt 0 (3 * nfix) (inv (3 * nfix)%nat (slice M 0 0)) M r c.
Proof.
  unfold fte_to_ufte_matrix.
  assert (E : Nat.ltb 0 Ns = true) by (apply Nat.ltb_lt; exact HNs). rewrite E.
  replace (3 * nfix - 0)%nat with (3 * nfix)%nat by lia.
  eexists. split; [reflexivity|].
  intros r c Hr Hc.
  destruct (Nat.ltb 0 Nd) eqn:ENd; cbn [andb].
  - apply Nat.ltb_lt in ENd.
    refine (swap_form_ppt _ _ N _ _ _ (3 * nfix) _ _ _ M 0 _ _ _ _ _ r c Hr Hc).
    + reflexivity.
    + intros a Ha. unfold nthn. do 6 (destruct a as [|a]; [cbn [nth Nat.add]; lia|]). lia.
    + reflexivity.
    + lia.
    + unfold nthn; cbn [nth Nat.add]; lia.
    + intros a q l Ha Hq Hl. unfold nthn at 2. cbn [nth].
      do 6 (destruct a as [|a]; [blk; first [reflexivity | ss]|]). lia.
    + intros a q l Ha Hq Hl. unfold nthn at 2. cbn [nth].
      do 6 (destruct a as [|a]; [blk; first [reflexivity | ss]|]). lia.
    + exact Hinv.
  - apply Nat.ltb_ge in ENd. assert (E0 : Nd = 0%nat) by lia.
    refine (swap_form_ppt _ _ N _ _ _ (3 * nfix) _ _ _ M 0 _ _ _ _ _ r c Hr Hc).
    + reflexivity.
    + intros a Ha. unfold nthn. do 6 (destruct a as [|a]; [cbn [nth Nat.add]; lia|]). lia.
    + unfold nthn, N; cbn [nth Nat.add]; lia.
    + lia.
    + unfold nthn; cbn [nth Nat.add]; lia.
    + intros a q l Ha Hq Hl. unfold nthn at 2. cbn [nth].
      do 4 (destruct a as [|a]; [blk; first [reflexivity | ss]|]). lia.
    + intros a q l Ha Hq Hl. unfold nthn at 2. cbn [nth].
      do 4 (destruct a as [|a]; [blk; first [reflexivity | ss]|]). lia.
    + exact Hinv.
Qed.

Lemma fte_to_ufte_correct :
  exists M', fte_to_ufte_matrix inv nfix Ns Nd M = Ok M' /\
    same_problem N (fixed_spheres_set nfix) M M' /\
    sign_symmetric N (union_set (strain_set Ns) (fixed_spheres_set nfix)) M'.
Proof.
  destruct fte_to_ufte_is_ppt as [M' [HM' Hppt]]. exists M'. split; [exact HM'|].
  assert (Hinv' : is_inv (3 * nfix - 0) (slice M 0 0) (inv (3 * nfix)%nat (slice M 0 0))).
  { rewrite Nat.sub_0_r. exact Hinv. }
  split.
  - eapply same_problem_ext; [intros r c Hr Hc; symmetry; apply Hppt; assumption|].
    apply (ppt_same_problem N 0 (3 * nfix)); [lia|unfold N; lia|exact Hinv'].
  - eapply sign_symmetric_ext;
      [intros r c Hr Hc; symmetry; apply Hppt; assumption| |].
    2:{ apply (ppt_sign_symmetric N 0 (3 * nfix) M _ ltac:(lia) ltac:(unfold N; lia) Hinv' (strain_set Ns)).
        - exact Hsym.
        - intros i j Hi Hj. unfold strain_set. inbs. reflexivity. }
    intros i Hi. unfold xset, union_set, fixed_spheres_set, strain_set.
    change (rangeb 0 (3 * nfix) i) with (inb 0 (3 * nfix) i).
    destruct (inb 0 (3 * nfix) i) eqn:E0; [|rewrite xorb_false_r, orb_false_r; reflexivity].
    apply inb_true in E0. inbs. reflexivity.
Qed.
End Ufte.

Section Ufteu.
Variables (inv : nat -> mat -> mat) (nfixd nfix Ns Nd : nat) (M : mat).
Let N := (11 * Ns + 6 * Nd)%nat.
Hypothesis Hfix : (nfix <= Ns)%nat.
Hypothesis Hfixd : (nfixd <= Nd)%nat.

Definition s_ufte := union_set (strain_set Ns) (fixed_spheres_set nfix).
Definition s_ufteu1 := union_set s_ufte (rangeb (11 * Ns) (11 * Ns + 3 * nfixd)).
Definition s_ufteu2 := union_set s_ufteu1 (rangeb (11 * Ns + 3 * Nd) (11 * Ns + 3 * Nd + 3 * nfixd)).

Section Step1.
Hypothesis Hsym : sign_symmetric N s_ufte M.
Hypothesis Hinv : inv_ok inv (3 * nfixd) (slice M (11 * Ns) (11 * Ns)).

Ltac ss := rewrite Hsym by (unfold N; lia);
  unfold s_ufte, union_set, strain_set, fixed_spheres_set; inbs; simpl; ring.

Lemma ufteu_step1_is_ppt r c : (r < N)%nat -> (c < N)%nat ->
  ufte_to_ufteu_step1 inv nfixd nfix Ns Nd M r c
  = ppt (11 * Ns) (11 * Ns + 3 * nfixd) (inv (3 * nfixd)%nat (slice M (11 * Ns) (11 * Ns))) M r c.
Proof.
  intros Hr Hc. unfold ufte_to_ufteu_step1.
  replace (11 * Ns + 3 * nfixd - 11 * Ns)%nat with (3 * nfixd)%nat by lia.
  refine (swap_form_ppt _ _ N _ _ _ (3 * nfixd) _ _ _ M 4 _ _ _ _ _ r c Hr Hc).
  + reflexivity.
  + intros a Ha. unfold nthn. do 8 (destruct a as [|a]; [cbn [nth Nat.add]; lia|]). lia.
  + reflexivity.
  + lia.
  + unfold nthn; cbn [nth Nat.add]; lia.
  + intros a q l Ha Hq Hl. unfold nthn at 2. cbn [nth].
    do 8 (destruct a as [|a]; [blk; first [reflexivity | ss]|]). lia.
  + intros a q l Ha Hq Hl. unfold nthn at 2. cbn [nth].
    do 8 (destruct a as [|a]; [blk; first [reflexivity | ss]|]). lia.
  + exact Hinv.
Qed.

Lemma ufteu_step1_correct :
  same_problem N (rangeb (11 * Ns) (11 * Ns + 3 * nfixd)) M (ufte_to_ufteu_step1 inv nfixd nfix Ns Nd M)
  /\ sign_symmetric N s_ufteu1 (ufte_to_ufteu_step1 inv nfixd nfix Ns Nd M).
Proof.
  pose proof ufteu_step1_is_ppt as Hppt.
  assert (Hinv' : is_inv (11 * Ns + 3 * nfixd - 11 * Ns) (slice M (11 * Ns) (11 * Ns))
                     (inv (3 * nfixd)%nat (slice M (11 * Ns) (11 * Ns)))).
  { replace (11 * Ns + 3 * nfixd - 11 * Ns)%nat with (3 * nfixd)%nat by lia. exact Hinv. }
  split.
  - eapply same_problem_ext; [intros r c Hr Hc; symmetry; apply Hppt; assumption|].
    apply (ppt_same_problem N (11 * Ns) (11 * Ns + 3 * nfixd)); [lia|unfold N; lia|exact Hinv'].
  - eapply sign_symmetric_ext;
      [intros r c Hr Hc; symmetry; apply Hppt; assumption| |].
    2:{ apply (ppt_sign_symmetric N (11 * Ns) (11 * Ns + 3 * nfixd) M _ ltac:(lia) ltac:(unfold N; lia) Hinv' s_ufte).
        - exact Hsym.
        - intros i j Hi Hj. unfold s_ufte, union_set, strain_set, fixed_spheres_set. inbs. reflexivity. }
    intros i Hi. unfold xset, s_ufteu1, union_set.
    change (rangeb (11 * Ns) (11 * Ns + 3 * nfixd) i) with (inb (11 * Ns) (11 * Ns + 3 * nfixd) i).
    destruct (inb (11 * Ns) (11 * Ns + 3 * nfixd) i) eqn:E0; [|rewrite xorb_false_r, orb_false_r; reflexivity].
    apply inb_true in E0. unfold s_ufte, union_set, strain_set, fixed_spheres_set. inbs. reflexivity.
Qed.
End Step1.

Section Step2.
Hypothesis Hsym : sign_symmetric N s_ufteu1 M.
Hypothesis Hinv : inv_ok inv (3 * nfixd) (slice M (11 * Ns + 3 * Nd) (11 * Ns + 3 * Nd)).

Ltac ss := rewrite Hsym by (unfold N; lia);
  unfold s_ufteu1, s_ufte, union_set, strain_set, fixed_spheres_set; inbs; simpl; ring.

Lemma ufteu_step2_is_ppt r c : (r < N)%nat -> (c < N)%nat ->
  ufte_to_ufteu_step2 inv nfixd nfix Ns Nd M r c
  = ppt (11 * Ns + 3 * Nd) (11 * Ns + 3 * Nd + 3 * nfixd)
      (inv (3 * nfixd)%nat (slice M (11 * Ns + 3 * Nd) (11 * Ns + 3 * Nd))) M r c.
Proof.
  intros Hr Hc. unfold ufte_to_ufteu_step2.
  replace (11 * Ns + 3 * Nd + 3 * nfixd - (11 * Ns + 3 * Nd))%nat with (3 * nfixd)%nat by lia.
  refine (swap_form_ppt _ _ N _ _ _ (3 * nfixd) _ _ _ M 6 _ _ _ _ _ r c Hr Hc).
  + reflexivity.
  + intros a Ha. unfold nthn. do 8 (destruct a as [|a]; [cbn [nth Nat.add]; lia|]). lia.
  + reflexivity.
  + lia.
  + unfold nthn; cbn [nth Nat.add]; lia.
  + intros a q l Ha Hq Hl. unfold nthn at 2. cbn [nth].
    do 8 (destruct a as [|a]; [blk; first [reflexivity | ss]|]). lia.
  + intros a q l Ha Hq Hl. unfold nthn at 2. cbn [nth].
    do 8 (destruct a as [|a]; [blk; first [reflexivity | ss]|]). lia.
  + exact Hinv.
Qed.

Lemma ufteu_step2_correct :
  same_problem N (rangeb (11 * Ns + 3 * Nd) (11 * Ns + 3 * Nd + 3 * nfixd)) M (ufte_to_ufteu_step2 inv nfixd nfix Ns Nd M)
  /\ sign_symmetric N s_ufteu2 (ufte_to_ufteu_step2 inv nfixd nfix Ns Nd M).
Proof.
  pose proof ufteu_step2_is_ppt as Hppt.
  assert (Hinv' : is_inv (11 * Ns + 3 * Nd + 3 * nfixd - (11 * Ns + 3 * Nd)) (slice M (11 * Ns + 3 * Nd) (11 * Ns + 3 * Nd))
                     (inv (3 * nfixd)%nat (slice M (11 * Ns + 3 * Nd) (11 * Ns + 3 * Nd)))).
  { replace (11 * Ns + 3 * Nd + 3 * nfixd - (11 * Ns + 3 * Nd))%nat with (3 * nfixd)%nat by lia. exact Hinv. }
  split.
  - eapply same_problem_ext; [intros r c Hr Hc; symmetry; apply Hppt; assumption|].
    apply (ppt_same_problem N (11 * Ns + 3 * Nd) (11 * Ns + 3 * Nd + 3 * nfixd)); [lia|unfold N; lia|exact Hinv'].
  - eapply sign_symmetric_ext;
      [intros r c Hr Hc; symmetry; apply Hppt; assumption| |].
    2:{ apply (ppt_sign_symmetric N (11 * Ns + 3 * Nd) (11 * Ns + 3 * Nd + 3 * nfixd) M _ ltac:(lia) ltac:(unfold N; lia) Hinv' s_ufteu1).
        - exact Hsym.
        - intros i j Hi Hj. unfold s_ufteu1, s_ufte, union_set, strain_set, fixed_spheres_set. inbs. reflexivity. }
    intros i Hi. unfold xset, s_ufteu2, union_set.
    change (rangeb (11 * Ns + 3 * Nd) (11 * Ns + 3 * Nd + 3 * nfixd) i) with (inb (11 * Ns + 3 * Nd) (11 * Ns + 3 * Nd + 3 * nfixd) i).
    destruct (inb (11 * Ns + 3 * Nd) (11 * Ns + 3 * Nd + 3 * nfixd) i) eqn:E0; [|rewrite xorb_false_r, orb_false_r; reflexivity].
    apply inb_true in E0. unfold s_ufteu1, s_ufte, union_set, strain_set, fixed_spheres_set. inbs. reflexivity.
Qed.
End Step2.
End Ufteu.

Lemma xor_or_disjoint a b : (a && b = false)%bool -> xorb a b = (a || b)%bool.
Proof. destruct a, b; simpl; congruence. Qed.

Ltac rangecases i :=
  unfold union_set, strain_set, fixed_spheres_set, fixed_dumbbells_set, none_set in *;
  repeat match goal with
  | |- context [rangeb ?a ?b i] => change (rangeb a b i) with (inb a b i)
  end;
  repeat match goal with
  | |- context [inb ?a ?b i] =>
      let E := fresh "E" in destruct (inb a b i) eqn:E;
      [apply inb_true in E | apply inb_false in E]
  end; simpl; try reflexivity; exfalso; lia.

Lemma ufte_to_ufteu_correct inv nfixd nfix Ns Nd M :
  let N := (11 * Ns + 6 * Nd)%nat in
  (nfix <= Ns)%nat -> (nfixd <= Nd)%nat ->
  sign_symmetric N (union_set (strain_set Ns) (fixed_spheres_set nfix)) M ->
  inv_ok inv (3 * nfixd) (slice M (11 * Ns) (11 * Ns)) ->
  inv_ok inv (3 * nfixd)
    (slice (ufte_to_ufteu_step1 inv nfixd nfix Ns Nd M) (11 * Ns + 3 * Nd) (11 * Ns + 3 * Nd)) ->
  same_problem N (fixed_dumbbells_set nfixd Ns Nd) M (ufte_to_ufteu_matrix inv nfixd nfix Ns Nd M).
Proof.
  intros N Hfix Hfixd Hsym Hinv1 Hinv2.
  destruct (ufteu_step1_correct inv nfixd nfix Ns Nd M Hfix Hfixd Hsym Hinv1) as [P1 S1].
  destruct (ufteu_step2_correct inv nfixd nfix Ns Nd _ Hfix Hfixd S1 Hinv2) as [P2 S2].
  eapply same_problem_set; [|exact (same_problem_trans _ _ _ _ _ _ P1 P2)].
  intros i Hi. rangecases i.
Qed.

Section Duf.
Variables (inv : nat -> mat -> mat) (nfixd Nd : nat).
Let N := (6 * Nd)%nat.
Hypothesis Hfixd : (nfixd <= Nd)%nat.

Lemma duf_step1_correct M :
  msym N M -> inv_ok inv (3 * nfixd) (slice M 0 0) ->
  same_problem N (rangeb 0 (3 * nfixd)) M (fts_to_duf_step1 inv nfixd Nd M)
  /\ sign_symmetric N (rangeb 0 (3 * nfixd)) (fts_to_duf_step1 inv nfixd Nd M).
Proof.
  intros Hsym Hinv.
  assert (Hppt : forall r c, (r < N)%nat -> (c < N)%nat ->
    fts_to_duf_step1 inv nfixd Nd M r c = ppt 0 (3 * nfixd) (inv (3 * nfixd)%nat (slice M 0 0)) M r c).
  { intros r c Hr Hc. unfold fts_to_duf_step1.
    replace (3 * nfixd - 0)%nat with (3 * nfixd)%nat by lia.
    refine (swap_form_ppt _ _ N _ _ _ (3 * nfixd) _ _ _ M 0 _ _ _ _ _ r c Hr Hc).
    + reflexivity.
    + intros a Ha. unfold nthn. do 4 (destruct a as [|a]; [cbn [nth Nat.add]; lia|]). lia.
    + reflexivity.
    + lia.
    + unfold nthn; cbn [nth Nat.add]; lia.
    + intros a q l Ha Hq Hl. unfold nthn at 2. cbn [nth].
      do 4 (destruct a as [|a]; [blk; first [reflexivity | apply Hsym; unfold N; lia]|]). lia.
    + intros a q l Ha Hq Hl. unfold nthn at 2. cbn [nth].
      do 4 (destruct a as [|a]; [blk; first [reflexivity | apply Hsym; unfold N; lia]|]). lia.
    + exact Hinv. }
  assert (Hinv' : is_inv (3 * nfixd - 0) (slice M 0 0) (inv (3 * nfixd)%nat (slice M 0 0))).
  { rewrite Nat.sub_0_r. exact Hinv. }
  split.
  - eapply same_problem_ext; [intros r c Hr Hc; symmetry; apply Hppt; assumption|].
    apply (ppt_same_problem N 0 (3 * nfixd)); [lia|unfold N; lia|exact Hinv'].
  - eapply sign_symmetric_ext;
      [intros r c Hr Hc; symmetry; apply Hppt; assumption| |].
    2:{ apply (ppt_sign_symmetric N 0 (3 * nfixd) M _ ltac:(lia) ltac:(unfold N; lia) Hinv' none_set).
        - apply msym_sign; exact Hsym.
        - reflexivity. }
    intros i Hi. unfold xset, none_set. rewrite xorb_false_l. reflexivity.
Qed.

Lemma duf_step2_correct M :
  sign_symmetric N (rangeb 0 (3 * nfixd)) M ->
  inv_ok inv (3 * nfixd) (slice M (3 * Nd) (3 * Nd)) ->
  same_problem N (rangeb (3 * Nd) (3 * Nd + 3 * nfixd)) M (fts_to_duf_step2 inv nfixd Nd M).
Proof.
  intros Hsym Hinv.
  assert (Hppt : forall r c, (r < N)%nat -> (c < N)%nat ->
    fts_to_duf_step2 inv nfixd Nd M r c
    = ppt (3 * Nd) (3 * Nd + 3 * nfixd) (inv (3 * nfixd)%nat (slice M (3 * Nd) (3 * Nd))) M r c).
  { intros r c Hr Hc. unfold fts_to_duf_step2.
    replace (3 * Nd + 3 * nfixd - 3 * Nd)%nat with (3 * nfixd)%nat by lia.
    refine (swap_form_ppt _ _ N _ _ _ (3 * nfixd) _ _ _ M 2 _ _ _ _ _ r c Hr Hc).
    + reflexivity.
    + intros a Ha. unfold nthn. do 4 (destruct a as [|a]; [cbn [nth Nat.add]; lia|]). lia.
    + reflexivity.
    + lia.
    + unfold nthn; cbn [nth Nat.add]; lia.
    + intros a q l Ha Hq Hl. unfold nthn at 2. cbn [nth].
      do 4 (destruct a as [|a]; [blk; first [reflexivity
        | rewrite Hsym by (unfold N; lia); inbs; simpl; ring]|]). lia.
    + intros a q l Ha Hq Hl. unfold nthn at 2. cbn [nth].
      do 4 (destruct a as [|a]; [blk; first [reflexivity
        | rewrite Hsym by (unfold N; lia); inbs; simpl; ring]|]). lia.
    + exact Hinv. }
  assert (Hinv' : is_inv (3 * Nd + 3 * nfixd - 3 * Nd) (slice M (3 * Nd) (3 * Nd))
      (inv (3 * nfixd)%nat (slice M (3 * Nd) (3 * Nd)))).
  { replace (3 * Nd + 3 * nfixd - 3 * Nd)%nat with (3 * nfixd)%nat by lia. exact Hinv. }
  eapply same_problem_ext; [intros r c Hr Hc; symmetry; apply Hppt; assumption|].
  apply (ppt_same_problem N (3 * Nd) (3 * Nd + 3 * nfixd)); [lia|unfold N; lia|exact Hinv'].
Qed.

Lemma fts_to_duf_correct M :
  msym N M -> inv_ok inv (3 * nfixd) (slice M 0 0) ->
  inv_ok inv (3 * nfixd) (slice (fts_to_duf_step1 inv nfixd Nd M) (3 * Nd) (3 * Nd)) ->
  same_problem N (fixed_dumbbells_set nfixd 0 Nd) M (fts_to_duf_matrix inv nfixd Nd M).
Proof.
  intros Hsym H1 H2.
  destruct (duf_step1_correct M Hsym H1) as [P1 S1].
  pose proof (duf_step2_correct _ S1 H2) as P2.
  eapply same_problem_set; [|exact (same_problem_trans _ _ _ _ _ _ P1 P2)].
  intros i Hi. unfold fixed_dumbbells_set. rewrite Nat.mul_0_r. cbn [Nat.add]. rangecases i.
Qed.
End Duf.

(** ** The whole chain from the symmetric resistance matrix *)

Lemma chain_ufte inv nfix Ns Nd R0 :
  let N := (11 * Ns + 6 * Nd)%nat in
  (0 < Ns)%nat -> (nfix <= Ns)%nat -> msym N R0 ->
  inv_ok inv (5 * Ns) (slice R0 (6 * Ns) (6 * Ns)) ->
  exists Rfte, fts_to_fte_matrix inv Ns Nd R0 = Ok Rfte /\
    (inv_ok inv (3 * nfix) (slice Rfte 0 0) ->
     exists Rufte, fte_to_ufte_matrix inv nfix Ns Nd Rfte = Ok Rufte /\
    same_problem N (union_set (strain_set Ns) (fixed_spheres_set nfix)) R0 Rufte /\
    sign_symmetric N (union_set (strain_set Ns) (fixed_spheres_set nfix)) Rufte).
Proof.
  intros N HNs Hfix Hsym Hinv.
  destruct (fts_to_fte_correct inv Ns Nd R0 HNs Hsym Hinv) as [M1 [E1 [P1 S1]]].
  exists M1. split; [exact E1|]. intros Hinv1.
  destruct (fte_to_ufte_correct inv nfix Ns Nd M1 HNs Hfix S1 Hinv1) as [M2 [E2 [P2 S2]]].
  exists M2. split; [exact E2|]. split; [|exact S2].
  eapply same_problem_set; [|exact (same_problem_trans _ _ _ _ _ _ P1 P2)].
  intros i Hi. rangecases i.
Qed.

Lemma chain_ufteu inv nfixd nfix Ns Nd R0 Rfte Rufte :
  let N := (11 * Ns + 6 * Nd)%nat in
  (0 < Ns)%nat -> (nfix <= Ns)%nat -> (nfixd <= Nd)%nat -> msym N R0 ->
  inv_ok inv (5 * Ns) (slice R0 (6 * Ns) (6 * Ns)) ->
  fts_to_fte_matrix inv Ns Nd R0 = Ok Rfte ->
  inv_ok inv (3 * nfix) (slice Rfte 0 0) ->
  fte_to_ufte_matrix inv nfix Ns Nd Rfte = Ok Rufte ->
  inv_ok inv (3 * nfixd) (slice Rufte (11 * Ns) (11 * Ns)) ->
  inv_ok inv (3 * nfixd)
    (slice (ufte_to_ufteu_step1 inv nfixd nfix Ns Nd Rufte) (11 * Ns + 3 * Nd) (11 * Ns + 3 * Nd)) ->
  same_problem N
    (union_set (union_set (strain_set Ns) (fixed_spheres_set nfix)) (fixed_dumbbells_set nfixd Ns Nd))
    R0 (ufte_to_ufteu_matrix inv nfixd nfix Ns Nd Rufte).
Proof.
  intros N HNs Hfix Hfixd Hsym Hinv E1 Hinv1 E2 Hinv2 Hinv3.
  destruct (chain_ufte inv nfix Ns Nd R0 HNs Hfix Hsym Hinv) as [M1 [E1' H]].
  rewrite E1 in E1'. injection E1' as <-.
  destruct (H Hinv1) as [M2 [E2' [P2 S2]]]. rewrite E2 in E2'. injection E2' as <-.
  pose proof (ufte_to_ufteu_correct inv nfixd nfix Ns Nd Rufte Hfix Hfixd S2 Hinv2 Hinv3) as P3.
  eapply same_problem_set; [|exact (same_problem_trans _ _ _ _ _ _ P2 P3)].
  intros i Hi. rangecases i.
Qed.

Lemma fts_to_fte_no_spheres inv Nd M : fts_to_fte_matrix inv 0 Nd M = Raise UnboundLocalError.
Proof. reflexivity. Qed.
