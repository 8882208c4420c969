(** Positive definite matrices: invertibility, blocks, exchanged problems. *)
From Coq Require Import Reals List Arith Bool Lia Lra.
From Verif Require Import Base Spec_Convert Spec_Output Spec_Posdef.
Local Open Scope R_scope.

Lemma pos_def_quad n A x : pos_def n A -> (exists i, (i < n)%nat /\ x i <> 0) -> 0 < rsum n (fun i => x i * mvec n A x i).
Proof. intros H Hx. apply H; [|exact Hx]. intros i Hi. reflexivity. Qed.

Lemma pos_def_of n A : (forall x, (exists i, (i < n)%nat /\ x i <> 0) -> 0 < rsum n (fun i => x i * mvec n A x i)) -> pos_def n A.
Proof.
  intros H x y E Hx. erewrite rsum_ext; [apply (H x Hx)|]. intros i Hi. rewrite (E i Hi). reflexivity.
Qed.

Lemma pos_def_inj n A x : pos_def n A -> (forall i, (i < n)%nat -> mvec n A x i = 0) -> forall i, (i < n)%nat -> x i = 0.
Proof.
  intros H E i Hi. destruct (Req_dec (x i) 0) as [Z|Z]; [exact Z|]. exfalso.
  pose proof (pos_def_quad n A x H ltac:(eauto)) as P. rewrite rsum_zero in P; [lra|]. intros k Hk. rewrite (E k Hk). ring.
Qed.

(** the Schur complement of the last diagonal entry *)
Definition schur (n : nat) (A : mat) : mat := fun i j => A i j - A i n * A n j / A n n.

Lemma pos_diag n A : pos_def (S n) A -> 0 < A n n.
Proof.
  intros H. pose proof (pos_def_quad (S n) A (fun i => delta n i) H) as P.
  assert (E : rsum (S n) (fun i => delta n i * mvec (S n) A (fun i => delta n i) i) = A n n).
  { rewrite rsum_delta_l by lia. unfold mvec.
    rewrite (rsum_ext (S n) _ (fun l => A n l * delta l n)) by (intros; f_equal; unfold delta; rewrite Nat.eqb_sym; reflexivity).
    apply rsum_delta_r. lia. }
  cbv beta in P. rewrite E in P. apply P. exists n. split; [lia|]. unfold delta. rewrite Nat.eqb_refl. lra.
Qed.

Lemma pos_def_schur n A : pos_def (S n) A -> pos_def n (schur n A).
Proof.
  intros H. pose proof (pos_diag n A H) as Ha. apply pos_def_of. intros x (i & Hi & Hx).
  set (b := rsum n (fun j => A n j * x j)). set (a := A n n) in *.
  set (z := fun i => if Nat.eqb i n then - b / a else x i).
  pose proof (pos_def_quad (S n) A z H) as P.
  assert (Zn : z n = - b / a) by (unfold z; rewrite Nat.eqb_refl; reflexivity).
  assert (Zx : forall k, (k < n)%nat -> z k = x k) by (intros k Hk; unfold z; destruct (Nat.eqb_spec k n); [lia|reflexivity]).
  assert (Q : rsum (S n) (fun i => z i * mvec (S n) A z i) = rsum n (fun i => x i * mvec n (schur n A) x i)).
  { cbn [rsum]. rewrite Zn.
    assert (Zb : mvec (S n) A z n = 0).
    { unfold mvec. cbn [rsum]. rewrite Zn. rewrite (rsum_ext n _ (fun l => A n l * x l)) by (intros; rewrite Zx by assumption; reflexivity).
      fold b. fold a. field. lra. }
    rewrite Zb, Rmult_0_r, Rplus_0_r. apply rsum_ext. intros k Hk. rewrite (Zx k Hk). f_equal.
    unfold mvec, schur. cbn [rsum]. rewrite Zn.
    rewrite (rsum_ext n (fun l => A k l * z l) (fun l => A k l * x l)) by (intros; rewrite Zx by assumption; reflexivity).
    rewrite (rsum_ext n (fun l => (A k l - A k n * A n l / A n n) * x l) (fun l => A k l * x l - A k n / a * (A n l * x l)))
      by (intros; fold a; field; lra).
    rewrite rsum_minus, rsum_scal_l. fold b. field. lra. }
  rewrite <- Q. apply P. exists i. split; [lia|]. rewrite Zx by exact Hi. exact Hx.
Qed.

(** inversion by elimination of the last unknown *)
Fixpoint pinv (n : nat) (A : mat) : mat :=
  match n with
  | O => A
  | S n =>
      let T := pinv n (schur n A) in let a := A n n in
      let tc := fun i => rsum n (fun l => T i l * A l n) in let bt := fun j => rsum n (fun l => A n l * T l j) in
      let btc := rsum n (fun l => A n l * tc l) in
      fun i j => if Nat.eqb i n then if Nat.eqb j n then 1 / a + btc / (a * a) else - bt j / a
                 else if Nat.eqb j n then - tc i / a else T i j
  end.

Lemma right_inverse n : forall A, pos_def n A -> forall i j, (i < n)%nat -> (j < n)%nat -> mmul n A (pinv n A) i j = delta i j.
Proof.
  induction n as [|n IH]; intros A H.
  - intros i j Hi. lia.
  - pose proof (pos_diag n A H) as Ha. pose proof (IH _ (pos_def_schur n A H)) as HT. cbn [pinv]. cbv zeta. set (T := pinv n (schur n A)) in *.
    set (a := A n n) in *.
    set (tc := fun i => rsum n (fun l => T i l * A l n)). set (bt := fun j => rsum n (fun l => A n l * T l j)).
    set (btc := rsum n (fun l => A n l * tc l)).
    assert (ET : forall i j, (i < n)%nat -> (j < n)%nat -> rsum n (fun l => A i l * T l j) = delta i j + A i n * bt j / a).
    { intros i j Hi Hj. rewrite <- (HT i j Hi Hj). unfold mmul, schur, bt.
      rewrite (rsum_ext n (fun l => (A i l - A i n * A n l / A n n) * T l j) (fun l => A i l * T l j - A i n / a * (A n l * T l j)))
        by (intros; fold a; field; lra).
      rewrite rsum_minus, rsum_scal_l. field. lra. }
    assert (EC : forall i, (i < n)%nat -> rsum n (fun l => A i l * tc l) = A i n + A i n * btc / a).
    { intros i Hi. unfold tc.
      rewrite (rsum_ext n _ (fun l => rsum n (fun k => A i l * T l k * A k n))) by (intros; rewrite <- rsum_scal_l; apply rsum_ext; intros; ring).
      rewrite rsum_swap.
      rewrite (rsum_ext n _ (fun k => delta i k * A k n + A i n / a * (bt k * A k n))).
      2:{ intros k Hk. rewrite rsum_scal_r, ET by assumption. field. lra. }
      rewrite rsum_plus, rsum_delta_l, rsum_scal_l by exact Hi.
      assert (Eb : rsum n (fun k => bt k * A k n) = btc).
      { unfold bt, btc, tc. rewrite (rsum_ext n _ (fun k => rsum n (fun l => A n l * T l k * A k n))) by (intros; rewrite <- rsum_scal_r; reflexivity).
        rewrite rsum_swap. apply rsum_ext. intros l Hl. rewrite <- rsum_scal_l. apply rsum_ext. intros; ring. }
      rewrite Eb. field. lra. }
    change (forall i j, (i < S n)%nat -> (j < S n)%nat ->
      mmul (S n) A (fun i j => if Nat.eqb i n then if Nat.eqb j n then 1 / a + btc / (a * a) else - bt j / a
                               else if Nat.eqb j n then - tc i / a else T i j) i j = delta i j).
    intros i j Hi Hj. unfold mmul. cbn [rsum]. rewrite Nat.eqb_refl.
    destruct (Nat.eqb_spec j n) as [->|Nj].
    + rewrite (rsum_ext n _ (fun l => - (1) / a * (A i l * tc l))).
      2:{ intros l Hl. destruct (Nat.eqb_spec l n); [lia|]. field. lra. }
      rewrite rsum_scal_l. destruct (Nat.eq_dec i n) as [->|Ni].
      * fold btc. fold a. unfold delta. rewrite Nat.eqb_refl. field. lra.
      * rewrite EC by lia. unfold delta. destruct (Nat.eqb_spec i n); [lia|]. field. lra.
    + rewrite (rsum_ext n _ (fun l => A i l * T l j)).
      2:{ intros l Hl. destruct (Nat.eqb_spec l n); [lia|]. reflexivity. }
      destruct (Nat.eq_dec i n) as [->|Ni].
      * fold (bt j). fold a. unfold delta. destruct (Nat.eqb_spec n j); [lia|]. field. lra.
      * rewrite ET by lia. field. lra.
Qed.

Lemma mvec_mmul n A B x i : mvec n (mmul n A B) x i = mvec n A (mvec n B x) i.
Proof.
  unfold mvec, mmul. rewrite (rsum_ext n _ (fun l => rsum n (fun k => A i k * B k l * x l))) by (intros; rewrite <- rsum_scal_r; reflexivity).
  rewrite rsum_swap. apply rsum_ext. intros l Hl. rewrite <- rsum_scal_l. apply rsum_ext. intros; ring.
Qed.

Lemma pinv_ok : inverts_posdef pinv.
Proof.
  intros n A H. pose proof (right_inverse n A H) as HB. set (B := pinv n A) in *.
  assert (AB : forall x i, (i < n)%nat -> mvec n A (mvec n B x) i = x i).
  { intros x i Hi. rewrite <- mvec_mmul. unfold mvec. rewrite (rsum_ext n _ (fun l => delta i l * x l)) by (intros; rewrite HB by assumption; reflexivity).
    apply rsum_delta_l, Hi. }
  intros i j Hi Hj. split; [apply HB; assumption|].
  assert (E : forall k, (k < n)%nat -> mvec n B (fun l => A l j) k - delta k j = 0).
  { apply (pos_def_inj n A (fun k => mvec n B (fun l => A l j) k - delta k j) H). intros k Hk. unfold mvec at 1.
    rewrite (rsum_ext n _ (fun l => A k l * mvec n B (fun l => A l j) l - A k l * delta l j)) by (intros; ring).
    rewrite rsum_minus, rsum_delta_r by exact Hj. fold (mvec n A (mvec n B (fun l => A l j)) k). rewrite AB by exact Hk. ring. }
  specialize (E i Hi). change (mvec n B (fun l => A l j) i = delta i j). lra.
Qed.

(** Diagonal blocks. *)
Lemma pos_def_slice n A o k : (o + k <= n)%nat -> pos_def n A -> pos_def k (slice A o o).
Proof.
  intros Hk H. apply pos_def_of. intros x (i & Hi & Hx).
  set (z := fun i => if rangeb o (o + k) i then x (i - o)%nat else 0).
  assert (S : forall f, rsum n (fun l => f l * z l) = rsum k (fun l => f (o + l)%nat * x l)).
  { intros f. replace n with (o + (k + (n - o - k)))%nat by lia. rewrite !rsum_app.
    rewrite (rsum_zero o), (rsum_zero (n - o - k)).
    - rewrite Rplus_0_l, Rplus_0_r. apply rsum_ext. intros l Hl. unfold z, rangeb.
      destruct (Nat.leb_spec o (o + l)); [|lia]. destruct (Nat.ltb_spec (o + l) (o + k)); [|lia]. cbn [andb].
      replace (o + l - o)%nat with l by lia. reflexivity.
    - intros l Hl. unfold z, rangeb. destruct (Nat.ltb_spec (o + (k + l)) (o + k)); [lia|]. rewrite andb_false_r. ring.
    - intros l Hl. unfold z, rangeb. destruct (Nat.leb_spec o l); [lia|]. cbn [andb]. ring. }
  pose proof (pos_def_quad n A z H) as P.
  rewrite (rsum_ext n _ (fun l => mvec n A z l * z l)) in P by (intros; ring). rewrite S in P.
  rewrite (rsum_ext k _ (fun l => mvec n A z (o + l)%nat * x l)).
  - apply P. exists (o + i)%nat. split; [lia|]. unfold z, rangeb.
    destruct (Nat.leb_spec o (o + i)); [|lia]. destruct (Nat.ltb_spec (o + i) (o + k)); [|lia]. cbn [andb].
    replace (o + i - o)%nat with i by lia. exact Hx.
  - intros l Hl. unfold mvec at 2. rewrite S. unfold mvec, slice. ring.
Qed.

(** Exchanging knowns and unknowns keeps the power. *)
Lemma pos_def_same n s A A' : pos_def n A -> same_problem n s A A' -> pos_def n A'.
Proof.
  intros H P x y L (i & Hi & Hx).
  assert (X : forall x y : vec, forall k, exch s (exch s x y) (exch s y x) k = x k) by (intros x0 y0 k; unfold exch; destruct (s k); reflexivity).
  assert (L0 : linrel n A (exch s x y) (exch s y x)).
  { apply P. intros k Hk. rewrite X, (L k Hk). apply rsum_ext. intros l Hl. rewrite X. reflexivity. }
  replace (rsum n (fun i => x i * y i)) with (rsum n (fun i => exch s x y i * exch s y x i))
    by (apply rsum_ext; intros k Hk; unfold exch; destruct (s k); ring).
  apply (H _ _ L0).
  destruct (s i) eqn:Es.
  - (* if the mixed vector vanished so would y, hence x *)
    assert (D : (exists k, (k < n)%nat /\ exch s x y k <> 0) \/ (forall k, (k < n)%nat -> exch s x y k = 0)).
    { clear. induction n as [|m IH]; [right; intros; lia|]. destruct IH as [(k & Hk & E)|E].
      - left. exists k. split; [lia|exact E].
      - destruct (Req_dec (exch s x y m) 0) as [Z|Z].
        + right. intros k Hk. destruct (Nat.eq_dec k m) as [->|]; [exact Z|apply E; lia].
        + left. exists m. split; [lia|exact Z]. }
    destruct D as [D|D]; [exact D|]. exfalso. apply Hx.
    specialize (L0 i Hi). unfold exch at 1 in L0. rewrite Es in L0. rewrite L0. apply rsum_zero. intros k Hk. rewrite D by exact Hk. ring.
  - exists i. split; [exact Hi|]. unfold exch. rewrite Es. exact Hx.
Qed.

Lemma pos_def_invertible n A : pos_def n A -> invertible n A.
Proof. intros H. exists (pinv n A). exact (pinv_ok n A H). Qed.

(** The inverse of a positive definite matrix, and sums. *)
Lemma pos_def_inv n A B : pos_def n A -> is_inv n A B -> pos_def n B.
Proof.
  intros H I x y L (i & Hi & Hx).
  assert (L' : linrel n A y x).
  { pose proof (is_inv_mvec n A B y x I) as [_ K]. intros k Hk. apply K; [|exact Hk]. intros l Hl. apply L, Hl. }
  rewrite (rsum_ext n _ (fun i => y i * x i)) by (intros; ring). apply (H y x L').
  assert (D : (exists k, (k < n)%nat /\ y k <> 0) \/ (forall k, (k < n)%nat -> y k = 0)).
  { clear. induction n as [|m IH]; [right; intros; lia|]. destruct IH as [(k & Hk & E)|E].
    - left. exists k. split; [lia|exact E].
    - destruct (Req_dec (y m) 0) as [Z|Z].
      + right. intros k Hk. destruct (Nat.eq_dec k m) as [->|]; [exact Z|apply E; lia].
      + left. exists m. split; [lia|exact Z]. }
  destruct D as [D|D]; [exact D|]. exfalso. apply Hx. rewrite (L' i Hi). apply rsum_zero. intros k Hk. rewrite (D k Hk). ring.
Qed.

(** At most one solution agrees with the prescribed values, whatever the choice
    of prescribed components. *)
Lemma unique_solution n s A u f u' f' :
  pos_def n A -> linrel n A u f -> linrel n A u' f' ->
  (forall i, (i < n)%nat -> if (s i : bool) then u i = u' i else f i = f' i) ->
  forall i, (i < n)%nat -> u i = u' i /\ f i = f' i.
Proof.
  intros H L L' K.
  assert (Ld : linrel n A (fun i => u i - u' i) (fun i => f i - f' i)).
  { intros i Hi. rewrite (L i Hi), (L' i Hi), <- rsum_minus. apply rsum_ext. intros; ring. }
  assert (Z : rsum n (fun i => (u i - u' i) * (f i - f' i)) = 0).
  { apply rsum_zero. intros i Hi. specialize (K i Hi). destruct (s i); rewrite K; ring. }
  assert (Eu : forall i, (i < n)%nat -> u i - u' i = 0).
  { intros i Hi. destruct (Req_dec (u i - u' i) 0) as [E|E]; [exact E|]. exfalso.
    pose proof (H _ _ Ld ltac:(exists i; split; [exact Hi|exact E])) as P. cbv beta in P; rewrite Z in P. lra. }
  intros i Hi. split; [pose proof (Eu i Hi); lra|].
  assert (E : f i - f' i = 0); [|lra]. rewrite (Ld i Hi). apply rsum_zero. intros k Hk. rewrite (Eu k Hk). ring.
Qed.

Lemma sum_squares_pos n (x : vec) : (exists i, (i < n)%nat /\ x i <> 0) -> 0 < rsum n (fun i => x i * x i).
Proof.
  induction n as [|n IH]; intros (i & Hi & Hx); [lia|]. cbn [rsum].
  assert (N : 0 <= rsum n (fun i => x i * x i)) by (apply rsum_nonneg; intros; nra).
  destruct (Nat.eq_dec i n) as [->|Hn]; [nra|].
  assert (P : 0 < rsum n (fun i => x i * x i)) by (apply IH; exists i; split; [lia|exact Hx]). nra.
Qed.

Lemma pos_def_diag n (d : vec) A : (forall i, (i < n)%nat -> 0 < d i) ->
  (forall i j, (i < n)%nat -> (j < n)%nat -> A i j = if Nat.eqb i j then d i else 0) -> pos_def n A.
Proof.
  intros Hd HA. apply pos_def_of. intros x (i & Hi & Hx).
  set (z := fun i => if Rlt_dec 0 (d i) then sqrt (d i) * x i else 0).
  rewrite (rsum_ext n _ (fun i => z i * z i)).
  - apply sum_squares_pos. exists i. split; [exact Hi|]. unfold z. destruct (Rlt_dec 0 (d i)) as [P|P]; [|destruct P; apply Hd, Hi].
    apply Rmult_integral_contrapositive_currified; [|exact Hx]. apply Rgt_not_eq, sqrt_lt_R0, P.
  - intros k Hk. unfold mvec. rewrite (rsum_single n k); [|exact Hk|].
    + rewrite HA, Nat.eqb_refl by assumption. unfold z. destruct (Rlt_dec 0 (d k)) as [P|P]; [|destruct P; apply Hd, Hk].
      rewrite <- (sqrt_sqrt (d k)) at 1 by lra. ring.
    + intros l Hl Hlk. rewrite HA by assumption. destruct (Nat.eqb_spec k l); [lia|]. ring.
Qed.

Lemma pos_def_add n A N : pos_def n A -> (forall x, 0 <= rsum n (fun i => x i * mvec n N x i)) -> pos_def n (madd A N).
Proof.
  intros H HN. apply pos_def_of. intros x Hx. pose proof (pos_def_quad n A x H Hx). pose proof (HN x).
  rewrite (rsum_ext n _ (fun i => x i * mvec n A x i + x i * mvec n N x i)).
  - rewrite rsum_plus. lra.
  - intros i Hi. unfold mvec, madd. rewrite <- Rmult_plus_distr_l, <- rsum_plus. f_equal. apply rsum_ext. intros; ring.
Qed.
