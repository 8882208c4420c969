(** Pairs of beads in any direction, and the whole mobility matrix. *)
From Coq Require Import Reals Arith Bool List Lia Lra Psatz FunctionalExtensionality.
From Verif Require Import Base Model_Pack Model_Mob Model_Layout Model_Minf Model_L Spec_Layout Spec_Minf Spec_Rotate Spec_Convert Spec_Posdef Spec_Two
  Proof_Layout Proof_Mob Proof_Mob2 Proof_Minf Proof_Minf2 Proof_Minf3 Proof_Minf4 Proof_Posdef Proof_Rotate1 Proof_Rotate2 Proof_Rotate3 Proof_Rotate4 Proof_Rotate5
  Proof_Wide2 Proof_Wide3 Proof_Two1 Proof_Two2.
Import ListNotations.
Local Open Scope R_scope.

(** A reflection that takes a vector to the z axis. *)
Definition mirror_of (w : vec) : mat := fun i j => delta i j - 2 * (w i * w j) / (w 0%nat * w 0%nat + w 1%nat * w 1%nat + w 2%nat * w 2%nat).
Lemma mirror_orth w : w 0%nat * w 0%nat + w 1%nat * w 1%nat + w 2%nat * w 2%nat <> 0 -> orthogonal (mirror_of w).
Proof.
  intros H i j Hi Hj. unfold mmul, mtr, mirror_of. set (n := w 0%nat * w 0%nat + w 1%nat * w 1%nat + w 2%nat * w 2%nat) in *.
  assert (E : n = w 0%nat * w 0%nat + w 1%nat * w 1%nat + w 2%nat * w 2%nat) by reflexivity. clearbody n.
  split5 i Hi; split5 j Hj; unfold rsum, delta; cbn [Nat.eqb]; split; field_simplify_eq; try assumption; rewrite ?E; ring.
Qed.
Lemma norm_sqr (r : vec) : norm r * norm r = r 0%nat * r 0%nat + r 1%nat * r 1%nat + r 2%nat * r 2%nat.
Proof.
  unfold norm. rewrite sqrt_sqrt; [ring|]. pose proof (pow2_ge_0 (r 0%nat)). pose proof (pow2_ge_0 (r 1%nat)). pose proof (pow2_ge_0 (r 2%nat)). lra.
Qed.
Lemma to_axis (r : vec) : exists Q, orthogonal Q /\ forall i, (i < 3)%nat -> rot Q r i = v3 0 0 (norm r) i.
Proof.
  set (s := norm r). pose proof (norm_sqr r) as NS. fold s in NS.
  set (w := vsub r (v3 0 0 s)).
  set (n := w 0%nat * w 0%nat + w 1%nat * w 1%nat + w 2%nat * w 2%nat).
  assert (En : n = 2 * (s * s - s * r 2%nat)).
  { unfold n, w, vsub, v3. replace (2 * (s * s - s * r 2%nat)) with (s * s + s * s - 2 * (s * r 2%nat)) by ring. rewrite NS at 1. ring. }
  destruct (Req_EM_T n 0) as [Z|N].
  - exists delta. split.
    + intros i j Hi Hj. unfold mmul, mtr. split5 i Hi; split5 j Hj; unfold rsum, delta; cbn [Nat.eqb]; split; ring.
    + assert (W : w 0%nat = 0 /\ w 1%nat = 0 /\ w 2%nat = 0).
      { unfold n in Z. pose proof (sq0 (w 0%nat)). pose proof (sq0 (w 1%nat)). pose proof (sq0 (w 2%nat)).
        repeat match goal with |- _ /\ _ => split end; apply Rsqr_0_uniq; unfold Rsqr; lra. }
      destruct W as (W0 & W1 & W2). unfold w, vsub in W0, W1, W2. cbn [v3] in W0, W1, W2.
      intros i Hi. unfold rot, mvec. split5 i Hi; unfold rsum, delta; cbn [Nat.eqb v3]; lra.
  - exists (mirror_of w). split; [apply mirror_orth; exact N|].
    intros i Hi. unfold rot, mvec, mirror_of. fold n.
    assert (D : w 0%nat * r 0%nat + w 1%nat * r 1%nat + w 2%nat * r 2%nat = n / 2).
    { rewrite En. unfold w, vsub, v3. replace (2 * (s * s - s * r 2%nat) / 2) with (s * s - s * r 2%nat) by field. rewrite NS at 1. ring. }
    transitivity (rsum 3 (fun j => delta i j * r j) - 2 * w i / n * (w 0%nat * r 0%nat + w 1%nat * r 1%nat + w 2%nat * r 2%nat)).
    { unfold rsum. field. exact N. }
    rewrite D, rsum_delta_l by exact Hi. replace (2 * w i / n * (n / 2)) with (w i) by (field; exact N). unfold w, vsub. ring.
Qed.

(** The interaction is the same seen from a turned frame. *)
Definition turnX (Q : mat) (X : kind -> nat -> R) : kind -> nat -> R := fun k i => rsum (ksize k) (fun a => tmat Q k i a * X k a).
Section Turn.
Variable Q : mat.
Hypothesis HQ : orthogonal Q.
Lemma sq_turn k X : sq (ksize k) (turnX Q X k) = sq (ksize k) (X k).
Proof.
  unfold sq, turnX. set (m := ksize k).
  transitivity (rsum m (fun i => rsum m (fun a => rsum m (fun b => tmat Q k i a * tmat Q k i b * (X k a * X k b))))).
  - apply rsum_ext. intros i _. rewrite <- rsum_scal_r. apply rsum_ext. intros a _. rewrite <- rsum_scal_l. apply rsum_ext. intros. ring.
  - rewrite rsum_swap. apply rsum_ext. intros a Ha. rewrite rsum_swap.
    rewrite (rsum_ext _ _ (fun b => delta a b * (X k a * X k b))).
    + apply rsum_delta_l. exact Ha.
    + intros b Hb. rewrite rsum_scal_r. unfold m in *. rewrite (tmat_cols Q HQ) by assumption. reflexivity.
Qed.
Lemma block_turn k1 k2 (f : nat -> nat -> R) X Y :
  rsum (ksize k1) (fun i => rsum (ksize k2) (fun j => turnX Q X k1 i * turned_block Q k1 k2 f i j * turnX Q Y k2 j))
  = rsum (ksize k1) (fun i => rsum (ksize k2) (fun j => X k1 i * f i j * Y k2 j)).
Proof.
  transitivity (rsum (ksize k1) (fun i => turnX Q X k1 i * rsum (ksize k2) (fun b => rsum (ksize k1) (fun a => tmat Q k1 i a * f a b) * Y k2 b))).
  - apply rsum_ext. intros i Hi. rewrite <- (pull_back Q HQ). rewrite <- rsum_scal_l. apply rsum_ext. intros j _. unfold turnX. ring.
  - set (g := fun a => rsum (ksize k2) (fun b => f a b * Y k2 b)).
    transitivity (rsum (ksize k1) (fun i => rsum (ksize k1) (fun a => rsum (ksize k1) (fun a' => tmat Q k1 i a * tmat Q k1 i a' * (X k1 a * g a'))))).
    + apply rsum_ext. intros i _. unfold turnX at 1. rewrite <- rsum_scal_r. apply rsum_ext. intros a _.
      rewrite (rsum_ext _ (fun b => rsum (ksize k1) (fun a0 => tmat Q k1 i a0 * f a0 b) * Y k2 b) (fun b => rsum (ksize k1) (fun a' => tmat Q k1 i a' * (f a' b * Y k2 b)))).
      * rewrite rsum_swap, <- rsum_scal_l. apply rsum_ext. intros a' _. rewrite rsum_scal_l. fold (g a'). ring.
      * intros b _. rewrite <- rsum_scal_r. apply rsum_ext. intros. ring.
    + rewrite rsum_swap. apply rsum_ext. intros a Ha. rewrite rsum_swap. rewrite (rsum_ext _ _ (fun a' => delta a a' * (X k1 a * g a'))).
      * rewrite rsum_delta_l by exact Ha. unfold g. rewrite <- rsum_scal_l. apply rsum_ext. intros. ring.
      * intros a' Ha'. rewrite rsum_scal_r, (tmat_cols Q HQ) by assumption. reflexivity.
Qed.
Lemma alone_turn a X : alone a (turnX Q X) = alone a X.
Proof. unfold alone. pose proof (sq_turn KU X) as A. pose proof (sq_turn KO X) as B. pose proof (sq_turn KS X) as C. cbn [ksize] in A, B, C. rewrite A, B, C. reflexivity. Qed.
End Turn.

Theorem pair_any r a1 a2 c mu X Y : tiny < norm r -> 0 < a1 -> 0 < a2 -> a1 + a2 <= norm r -> 0 < c ->
  let b := bil (fun k1 k2 => pmob k1 k2 r (norm r) a1 a2 c mu) X Y in
  b * b <= (c * alone a1 X) * (81 / 25 * (a1 * a2 / norm r ^ 2) * (c * alone a2 Y)).
Proof.
  intros Hr H1 H2 H12 Hc b. set (s := norm r) in *. pose proof (s_pos s Hr) as SP.
  destruct (to_axis r) as (Q & HQ & EQ). fold s in EQ.
  assert (E1 : a1 = a1 / s * s) by (field; lra). assert (E2 : a2 = a2 / s * s) by (field; lra).
  assert (Eb : b = bil (fun k1 k2 => pmob k1 k2 (v3 0 0 s) s (a1 / s * s) (a2 / s * s) c mu) (turnX Q X) (turnX Q Y)).
  { rewrite <- E1, <- E2. unfold b.
    rewrite (bil_ext (fun k1 k2 => pmob k1 k2 (v3 0 0 s) s a1 a2 c mu) (fun k1 k2 i j => turned_block Q k1 k2 (fun x y => pmob k1 k2 r s a1 a2 c mu x y) i j)).
    - unfold bil. repeat match goal with |- (_ + _ = _ + _)%R => apply f_equal2 end; symmetry; apply (block_turn Q HQ).
    - intros k1 k2 i j _ _ Hi Hj. rewrite (pmob_ext3 k1 k2 _ (rot Q r)) by (try assumption; intros; symmetry; apply EQ; assumption).
      apply (pmob_rot Q HQ); try assumption. left. exact Hr. }
  assert (P1 : 0 < a1 / s) by (apply Rdiv_lt_0_compat; assumption). assert (P2 : 0 < a2 / s) by (apply Rdiv_lt_0_compat; assumption).
  assert (P3 : a1 / s + a2 / s <= 1).
  { apply Rmult_le_reg_r with s; [exact SP|]. replace ((a1 / s + a2 / s) * s) with (a1 + a2) by (field; lra). lra. }
  pose proof (pair_axis s (a1 / s) (a2 / s) c mu (turnX Q X) (turnX Q Y) Hr P1 P2 P3 Hc) as H. cbn zeta in H. rewrite <- Eb in H.
  rewrite <- E1, <- E2, !(alone_turn Q HQ) in H. replace (a1 * a2 / s ^ 2) with (a1 / s * (a2 / s)) by (field; lra). exact H.
Qed.

(** Two numbers whose product bounds a square bound the number by their mean. *)
Lemma mean_bound b k p q : 0 <= k -> 0 <= p -> 0 <= q -> b * b <= (k * k) * (p * q) -> Rabs b <= k * ((p + q) / 2).
Proof.
  intros Hk Hp Hq H. apply Rsqr_incr_0_var; [|nn]. rewrite <- Rsqr_abs. unfold Rsqr. apply Rle_trans with (1 := H).
  replace (k * ((p + q) / 2) * (k * ((p + q) / 2))) with (k * k * ((p + q) / 2 * ((p + q) / 2))) by ring. apply Rmult_le_compat_l; [nn|].
  pose proof (sq0 (p - q)). lra.
Qed.
Lemma sep_sym x1 x2 a1 a2 : used_separation x1 x2 a1 a2 = used_separation x2 x1 a2 a1.
Proof.
  unfold used_separation. rewrite (Rplus_comm a2 a1). f_equal. unfold norm, vsub. f_equal. ring.
Qed.
Lemma influence_sym x a p q : influence x a p q = influence x a q p.
Proof. unfold influence. rewrite sep_sym, (Rmult_comm (a q)). reflexivity. Qed.

Lemma rsum_Rabs m f : Rabs (rsum m f) <= rsum m (fun i => Rabs (f i)).
Proof. induction m as [|m IH]; [simpl; rewrite Rabs_R0; lra|]. simpl. apply Rle_trans with (1 := Rabs_triang _ _). lra. Qed.
Lemma rsum_ge_term m f i : (i < m)%nat -> (forall j, (j < m)%nat -> 0 <= f j) -> f i <= rsum m f.
Proof.
  induction m as [|m IH]; intros Hi H; [lia|]. simpl.
  assert (0 <= rsum m f) by (apply rsum_nonneg; intros; apply H; lia). assert (0 <= f m) by (apply H; lia).
  destruct (Nat.eq_dec i m) as [->|N]; [lra|]. assert (f i <= rsum m f) by (apply IH; [lia|intros; apply H; lia]). lra.
Qed.

Section Assembly.
Variables (bb : bool) (x : nat -> vec) (a : nat -> R) (Ns Nd : nat) (mu : R).
Let n := (11 * Ns + 6 * Nd)%nat.
Let nb := (Ns + 2 * Nd)%nat.
Let c := 1 / (8 * PI * mu).
Let M := generate_Minfinity_loop bb x a Ns Nd c mu.
Hypothesis Hmu : 0 < mu.
Hypothesis Ha : forall b, (b < nb)%nat -> 0 < a b.
Hypothesis Hx : forall p q, (p < nb)%nat -> (q < nb)%nat -> p <> q -> / 10 ^ 8 < norm (vsub (x p) (x q)).

Lemma tc_pos : 0 < c. Proof. unfold c. pose proof PI_RGT_0. apply Rdiv_lt_0_compat; [lra|]. mpos. Qed.
Lemma x_distinct2 : distinct_beads nb x a.
Proof. split; [exact Ha|]. intros p q Hp Hq N. pose proof (Hx p q Hp Hq N). pose proof e8. unfold tiny in *. lra. Qed.

(** Forces, torques and stresslets of a bead; its kinds of components. *)
Definition bk (b : nat) (k : kind) : kind := if Nat.ltb b Ns then k else KB.
Definition W (v : vec) (b : nat) (k : kind) (i : nat) : R :=
  match k with
  | KU => v (kstart Ns (bk b KU) b + i)%nat
  | KB => 0
  | _ => if Nat.ltb b Ns then v (kstart Ns k b + i)%nat else 0
  end.
Definition part (v g : vec) (b : nat) : R :=
  rsum 3 (fun i => W v b KU i * g (kstart Ns (bk b KU) b + i)%nat) + rsum 3 (fun i => W v b KO i * g (kstart Ns (bk b KO) b + i)%nat)
  + rsum 5 (fun i => W v b KS i * g (kstart Ns (bk b KS) b + i)%nat).
Lemma rsum_parts v g : rsum n (fun r => v r * g r) = rsum nb (part v g).
Proof.
  unfold n, nb. rewrite rsum_blocks, rsum_app, <- !rsum_plus. apply f_equal2; apply rsum_ext; intros b Hb; unfold part, W, bk.
  - destruct (Nat.ltb_spec b Ns); [reflexivity|lia].
  - destruct (Nat.ltb_spec (Ns + b) Ns); [lia|]. unfold rsum. ring.
Qed.
Definition pairG (b b' : nat) (k1 k2 : kind) : nat -> nat -> R := ent Ns M (bk b k1) b (bk b' k2) b'.
Lemma quad_pairs v : rsum n (fun r => v r * mvec n M v r) = rsum nb (fun b => rsum nb (fun b' => bil (pairG b b') (W v b) (W v b'))).
Proof.
  rewrite rsum_parts. apply rsum_ext. intros b _. unfold part, mvec.
  assert (E : forall r, rsum n (fun t => M r t * v t) = rsum nb (fun b' => part v (fun t => M r t) b')).
  { intros r. rewrite <- rsum_parts. apply rsum_ext. intros. ring. }
  assert (R : forall k w, rsum k (fun i => w i * rsum n (fun t => M (kstart Ns (bk b KU) b + i)%nat t * v t))
     = rsum nb (fun b' => rsum k (fun i => w i * part v (fun t => M (kstart Ns (bk b KU) b + i)%nat t) b'))).
  { intros k w. rewrite rsum_swap. apply rsum_ext. intros i _. rewrite rsum_scal_l. f_equal. apply E. }
  assert (R2 : forall k w K, rsum k (fun i => w i * rsum n (fun t => M (kstart Ns (bk b K) b + i)%nat t * v t))
     = rsum nb (fun b' => rsum k (fun i => w i * part v (fun t => M (kstart Ns (bk b K) b + i)%nat t) b'))).
  { intros k w K. rewrite rsum_swap. apply rsum_ext. intros i _. rewrite rsum_scal_l. f_equal. apply E. }
  rewrite !R2, <- !rsum_plus. apply rsum_ext. intros b' _. unfold bil, pairG, ent, part. cbn [ksize].
  unfold rsum. ring.
Qed.

Lemma bk_valid b k : (b < nb)%nat -> k <> KB -> kvalid Ns Nd (bk b k) b.
Proof. intros Hb N. unfold bk. destruct (Nat.ltb_spec b Ns); [destruct k; cbn; congruence || assumption|cbn; unfold nb in Hb; lia]. Qed.
Lemma W_zero v b k i : (Ns <= b)%nat -> k <> KU -> W v b k i = 0.
Proof. intros Hb N. unfold W. destruct (Nat.ltb_spec b Ns); [lia|]. destruct k; congruence || reflexivity. Qed.
Lemma bil_ext2 G G' X Y : (forall k1 k2 i j, k1 <> KB -> k2 <> KB -> (i < ksize k1)%nat -> (j < ksize k2)%nat -> X k1 i * G k1 k2 i j * Y k2 j = X k1 i * G' k1 k2 i j * Y k2 j) ->
  bil G X Y = bil G' X Y.
Proof.
  intros H. unfold bil. repeat match goal with |- (_ + _ = _ + _)%R => apply f_equal2 end;
  apply rsum_ext; intros i Hi; apply rsum_ext; intros j Hj; rewrite H by (discriminate || assumption); reflexivity.
Qed.

(** The energy of a bead alone. *)
Definition E (v : vec) (b : nat) : R := c * alone (a b) (W v b).
Lemma E_nonneg v b : (b < nb)%nat -> 0 <= E v b.
Proof.
  intros Hb. unfold E, alone, sq. pose proof (Ha b Hb) as A. pose proof tc_pos as C. assert (0 < a b ^ 3) by (apply pow_lt; exact A).
  assert (S : forall m f, 0 <= rsum m (fun i => f i * f i)) by (intros; apply rsum_nonneg; intros; apply sq0).
  apply Rmult_le_pos; [lra|]. repeat apply Rplus_le_le_0_compat; apply Rmult_le_pos; try apply S; left; try apply Rdiv_lt_0_compat; try apply Rinv_0_lt_compat; lra.
Qed.
Lemma pair_self v b : (b < nb)%nat -> bil (pairG b b) (W v b) (W v b) = E v b.
Proof.
  intros Hb. pose proof (Ha b Hb) as A. pose proof PI_RGT_0 as HP.
  rewrite (bil_ext2 _ (fun k1 k2 i j => self_value k1 k2 (a b) mu i j)).
  - unfold bil, E, alone, sq, c. cbn [ksize self_value]. unfold rsum, delta. cbn [Nat.eqb]. field. repeat split; lra.
  - intros k1 k2 i j N1 N2 Hi Hj. destruct (Nat.lt_ge_cases b Ns) as [L|G].
    + assert (B : forall k, bk b k = k) by (intros; unfold bk; destruct (Nat.ltb_spec b Ns); [reflexivity|lia]).
      unfold pairG. rewrite !B. unfold M. rewrite loop_self; try assumption; try reflexivity; destruct k1, k2; cbn; congruence || assumption.
    + destruct k1; try congruence; try (rewrite ?(W_zero v b KO), ?(W_zero v b KS) by (assumption || discriminate); ring).
      destruct k2; try congruence; try (rewrite ?(W_zero v b KO), ?(W_zero v b KS) by (assumption || discriminate); ring).
      assert (B : bk b KU = KB) by (unfold bk; destruct (Nat.ltb_spec b Ns); [lia|reflexivity]).
      unfold pairG. rewrite !B. unfold M. rewrite loop_self; [reflexivity|cbn; unfold nb in Hb; lia|cbn; unfold nb in Hb; lia|exact Hi|exact Hj].
Qed.
Lemma pair_cross v b b' : (b < nb)%nat -> (b' < nb)%nat -> b <> b' ->
  Rabs (bil (pairG b b') (W v b) (W v b')) <= 9 / 10 * influence x a b b' * ((E v b + E v b') / 2).
Proof.
  intros Hb Hb' N. pose proof (Ha b Hb) as A. pose proof (Ha b' Hb') as A'. pose proof (Hx b b' Hb Hb' N) as X.
  destruct (geom_used (x b) (x b') (a b) (a b') ltac:(lra) X) as (G1 & _ & G2).
  set (s := used_separation (x b) (x b') (a b) (a b')) in *. set (r := fst (pair_geometry (x b) (x b') (a b) (a b'))) in *.
  assert (S1 : a b + a b' <= s).
  { unfold s, used_separation. apply Rle_trans with (2 := Rmax_r _ _). lra. }
  assert (S2 : tiny < s).
  { unfold s, used_separation. apply Rlt_le_trans with (2 := Rmax_l _ _). pose proof e8. unfold tiny in *. lra. }
  assert (NI : 0 <= influence x a b b').
  { unfold influence. fold s. unfold Rdiv. apply Rmult_le_pos; [pose proof (sqrt_pos (a b * a b')); lra|]. left. apply Rinv_0_lt_compat. lra. }
  pose proof (E_nonneg v b Hb) as E0. pose proof (E_nonneg v b' Hb') as E1.
  assert (Cr : (bb = false /\ (Ns <= b)%nat /\ (Ns <= b')%nat) \/ ~ (bb = false /\ (Ns <= b)%nat /\ (Ns <= b')%nat)).
  { destruct (bool_dec bb false) as [Bf|Bf]; [|right; intros (H & _); contradiction]. destruct (Nat.lt_ge_cases b Ns); [right; lia|]. destruct (Nat.lt_ge_cases b' Ns); [right; lia|]. left. auto. }
  assert (En : forall k1 k2 i j, k1 <> KB -> k2 <> KB -> (i < ksize k1)%nat -> (j < ksize k2)%nat -> (Ns <= b -> k1 = KU)%nat -> (Ns <= b' -> k2 = KU)%nat ->
     pairG b b' k1 k2 i j = bead_mobility bb (fun p q => pair_geometry (x p) (x q) (a p) (a q)) a c mu (bk b k1) b (bk b' k2) b' i j).
  { intros k1 k2 i j N1 N2 Hi Hj U1 U2. unfold pairG, M. apply loop_entry; try (apply bk_valid; assumption); try exact x_distinct2.
    - unfold bk. destruct (Nat.ltb_spec b Ns) as [L|L]; [assumption|]. rewrite (U1 L) in Hi. exact Hi.
    - unfold bk. destruct (Nat.ltb_spec b' Ns) as [L|L]; [assumption|]. rewrite (U2 L) in Hj. exact Hj. }
  destruct Cr as [(Bf & L1 & L2)|Cr].
  - rewrite (bil_ext2 _ (fun _ _ _ _ => 0)).
    + replace (bil (fun _ _ _ _ => 0) (W v b) (W v b')) with 0 by (unfold bil; cbn [ksize]; unfold rsum; ring).
      rewrite Rabs_R0. nn.
    + intros k1 k2 i j N1 N2 Hi Hj.
      destruct k1; try congruence; try (rewrite ?(W_zero v b KO), ?(W_zero v b KS) by (assumption || discriminate); ring).
      destruct k2; try congruence; try (rewrite ?(W_zero v b' KO), ?(W_zero v b' KS) by (assumption || discriminate); ring).
      rewrite En by (try assumption; reflexivity).
      unfold bk. destruct (Nat.ltb_spec b Ns); [lia|]. destruct (Nat.ltb_spec b' Ns); [lia|].
      unfold bead_mobility. rewrite Bf. destruct (Nat.eqb_spec b b'); [contradiction|]. reflexivity.
  - rewrite (bil_ext2 _ (fun k1 k2 => pmob k1 k2 r (norm r) (a b) (a b') c mu)).
    + apply mean_bound; [nn|assumption|assumption|].
      pose proof (pair_any r (a b) (a b') c mu (W v b) (W v b') ltac:(rewrite G2; exact S2) A A' ltac:(rewrite G2; exact S1) tc_pos) as P. cbn zeta in P.
      apply Rle_trans with (1 := P). apply Req_le. rewrite G2. unfold E, influence. fold s.
      assert (Q : sqrt (a b * a b') * sqrt (a b * a b') = a b * a b') by (apply sqrt_sqrt; nn).
      set (t := sqrt (a b * a b')) in *. rewrite <- Q. field. lra.
    + intros k1 k2 i j N1 N2 Hi Hj.
      destruct (Nat.lt_ge_cases b Ns) as [L|L].
      * assert (U1 : (Ns <= b -> k1 = KU)%nat) by lia.
        destruct (Nat.lt_ge_cases b' Ns) as [L'|L'].
        -- rewrite En by (try assumption; lia). unfold bk. destruct (Nat.ltb_spec b Ns); [|lia]. destruct (Nat.ltb_spec b' Ns); [|lia].
           unfold bead_mobility. rewrite G1, G2. fold r. destruct k1, k2; congruence || reflexivity.
        -- destruct k2; try congruence; try (rewrite ?(W_zero v b' KO), ?(W_zero v b' KS) by (assumption || discriminate); ring).
           rewrite En by (try assumption; (lia || reflexivity)). unfold bk. destruct (Nat.ltb_spec b Ns); [|lia]. destruct (Nat.ltb_spec b' Ns); [lia|].
           unfold bead_mobility. rewrite G1, G2. fold r. destruct k1; congruence || reflexivity.
      * destruct k1; try congruence; try (rewrite ?(W_zero v b KO), ?(W_zero v b KS) by (assumption || discriminate); ring).
        destruct (Nat.lt_ge_cases b' Ns) as [L'|L'].
        -- rewrite En by (try assumption; (lia || reflexivity)). unfold bk. destruct (Nat.ltb_spec b Ns); [lia|]. destruct (Nat.ltb_spec b' Ns); [|lia].
           unfold bead_mobility. rewrite G1, G2. fold r. destruct k2; congruence || reflexivity.
        -- destruct k2; try congruence; try (rewrite ?(W_zero v b' KO), ?(W_zero v b' KS) by (assumption || discriminate); ring).
           rewrite En by (try assumption; reflexivity). unfold bk. destruct (Nat.ltb_spec b Ns); [lia|]. destruct (Nat.ltb_spec b' Ns); [lia|].
           unfold bead_mobility. rewrite G1, G2. fold r.
           assert (Bt : bb = true) by (apply not_false_is_true; intros Z; apply Cr; auto). rewrite Bt. reflexivity.
Qed.

Hypothesis HU : uncrowded nb x a.
Theorem near_lone v : Rabs (rsum n (fun r => v r * mvec n M v r) - rsum nb (E v)) <= 9 / 10 * rsum nb (E v).
Proof.
  rewrite quad_pairs.
  set (D := fun b b' => if Nat.eqb b b' then 0 else bil (pairG b b') (W v b) (W v b')).
  set (I := fun b b' => if Nat.eqb b b' then 0 else influence x a b b').
  assert (E1 : rsum nb (fun b => rsum nb (fun b' => bil (pairG b b') (W v b) (W v b'))) - rsum nb (E v) = rsum nb (fun b => rsum nb (D b))).
  { rewrite <- rsum_minus. apply rsum_ext. intros b Hb.
    rewrite (rsum_ext nb _ (fun b' => D b b' + delta b b' * E v b)).
    - rewrite rsum_plus. rewrite (rsum_delta_l nb b (fun _ => E v b) Hb). ring.
    - intros b' Hb'. unfold D, delta. destruct (Nat.eqb_spec b b') as [<-|Nb]; [rewrite pair_self by exact Hb; ring|ring]. }
  rewrite E1.
  apply Rle_trans with (rsum nb (fun b => rsum nb (fun b' => 9 / 10 * I b b' * ((E v b + E v b') / 2)))).
  - apply Rle_trans with (rsum nb (fun b => Rabs (rsum nb (D b)))); [apply rsum_Rabs|]. apply rsum_le. intros b Hb.
    apply Rle_trans with (rsum nb (fun b' => Rabs (D b b'))); [apply rsum_Rabs|]. apply rsum_le. intros b' Hb'.
    unfold D, I. destruct (Nat.eqb_spec b b') as [<-|Nb]; [rewrite Rabs_R0; lra|]. apply pair_cross; assumption.
  - apply Rle_trans with (rsum nb (fun b => rsum nb (fun b' => 9 / 10 * I b b' * E v b))).
    + apply Req_le.
      transitivity (rsum nb (fun b => rsum nb (fun b' => 9 / 20 * I b b' * E v b)) + rsum nb (fun b => rsum nb (fun b' => 9 / 20 * I b b' * E v b'))).
      * rewrite <- rsum_plus. apply rsum_ext. intros b _. rewrite <- rsum_plus. apply rsum_ext. intros. field.
      * rewrite (rsum_swap nb nb (fun b b' => 9 / 20 * I b b' * E v b')). rewrite <- rsum_plus. apply rsum_ext. intros b _. rewrite <- rsum_plus. apply rsum_ext. intros b' _.
        assert (IS : I b' b = I b b').
        { unfold I. rewrite (Nat.eqb_sym b' b), (influence_sym x a b' b). reflexivity. }
        rewrite IS. field.
    + rewrite <- rsum_scal_l. apply rsum_le. intros b Hb. rewrite rsum_scal_r. rewrite rsum_scal_l.
      apply Rmult_le_compat_r; [apply E_nonneg; exact Hb|]. pose proof (HU b Hb) as H. fold (I b) in H. lra.
Qed.
Lemma E_pos v : (exists i, (i < n)%nat /\ v i <> 0) -> 0 < rsum nb (E v).
Proof.
  intros (i & Hi & Nz). destruct (block_cover Ns Nd i Hi) as (k & b & t & V & Ht & ->).
  pose proof (kvalid_beads _ _ _ _ V) as Hb. fold nb in Hb.
  apply Rlt_le_trans with (E v b).
  - pose proof (Ha b Hb) as A. pose proof tc_pos as C. assert (A3 : 0 < a b ^ 3) by (apply pow_lt; exact A).
    set (v0 := v (kstart Ns k b + t)%nat) in *.
    assert (S : forall m f, 0 <= rsum m (fun i => f i * f i)) by (intros; apply rsum_nonneg; intros; apply sq0).
    assert (P : forall m f, (exists i, (i < m)%nat /\ f i <> 0) -> 0 < rsum m (fun i => f i * f i)).
    { intros m f (i & Hm & Hf). apply Rlt_le_trans with (f i * f i); [apply Rsqr_pos_lt; exact Hf|].
      apply (rsum_ge_term m (fun i => f i * f i) i Hm). intros; apply sq0. }
    unfold E. apply Rmult_lt_0_compat; [exact C|]. unfold alone, sq.
    assert (C1 : 0 < 4 / 3 / a b) by (apply Rdiv_lt_0_compat; lra). assert (C2 : 0 < / a b ^ 3) by (apply Rinv_0_lt_compat; lra).
    assert (C3 : 0 < 6 / 5 / a b ^ 3) by (apply Rdiv_lt_0_compat; lra).
    pose proof (S 3%nat (W v b KU)) as S1. pose proof (S 3%nat (W v b KO)) as S2. pose proof (S 5%nat (W v b KS)) as S3.
    apply (Rmult_le_pos _ _ (Rlt_le _ _ C1)) in S1. apply (Rmult_le_pos _ _ (Rlt_le _ _ C2)) in S2. apply (Rmult_le_pos _ _ (Rlt_le _ _ C3)) in S3.
    destruct k; cbn [kvalid ksize] in V, Ht.
    + assert (0 < rsum 3 (fun i => W v b KU i * W v b KU i)).
      { apply P. exists t. split; [exact Ht|]. unfold W, bk. destruct (Nat.ltb_spec b Ns); [exact Nz|lia]. }
      pose proof (Rmult_lt_0_compat _ _ C1 H). lra.
    + assert (0 < rsum 3 (fun i => W v b KO i * W v b KO i)).
      { apply P. exists t. split; [exact Ht|]. unfold W, bk. destruct (Nat.ltb_spec b Ns); [exact Nz|lia]. }
      pose proof (Rmult_lt_0_compat _ _ C2 H). lra.
    + assert (0 < rsum 5 (fun i => W v b KS i * W v b KS i)).
      { apply P. exists t. split; [exact Ht|]. unfold W, bk. destruct (Nat.ltb_spec b Ns); [exact Nz|lia]. }
      pose proof (Rmult_lt_0_compat _ _ C3 H). lra.
    + assert (0 < rsum 3 (fun i => W v b KU i * W v b KU i)).
      { apply P. exists t. split; [exact Ht|]. unfold W, bk. destruct (Nat.ltb_spec b Ns); [lia|exact Nz]. }
      pose proof (Rmult_lt_0_compat _ _ C1 H). lra.
  - apply (rsum_ge_term nb (E v) b Hb). intros. apply E_nonneg. assumption.
Qed.
Theorem uncrowded_loop : pos_def n M.
Proof.
  apply pos_def_of. intros v Hv. pose proof (near_lone v) as H. pose proof (E_pos v Hv) as P.
  pose proof (Rle_abs (- (rsum n (fun r => v r * mvec n M v r) - rsum nb (E v)))) as R0. rewrite Rabs_Ropp in R0. lra.
Qed.
End Assembly.
