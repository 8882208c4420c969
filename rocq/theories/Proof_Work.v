(** Positive definite resistances: forces do positive work. *)
From Coq Require Import Reals List Arith Bool Lia Lra Sorted.
From Verif Require Import Base Py Model_Pack Model_Mob Model_Layout Model_Minf Model_Step Model_Output Model_Frame Model_Inputs
  Spec_Pack Spec_Convert Spec_Output Spec_Layout Spec_Minf Spec_Rotate Spec_Posdef Spec_Step Spec_Frame Spec_Run Spec_Turn Spec_Work
  Proof_Pack Proof_Output Proof_Layout Proof_Posdef Proof_Minf Proof_Rotate3 Proof_Turn2 Proof_Turn3 Proof_Turn5.
Import ListNotations.
Local Open Scope R_scope.

Notation oFa := Model_Output.o_Fa.
Notation oSa := Model_Output.o_Sa.
Notation oFb := Model_Output.o_Fb.
Notation oDFb := Model_Output.o_DFb.
Notation oUa := Model_Output.o_Ua.
Notation oOa := Model_Output.o_Oa.
Notation oEa := Model_Output.o_Ea.
Notation oUb := Model_Output.o_Ub.
Notation oHDb := Model_Output.o_HalfDUb.

Lemma ldot_rsum : forall a b, length a = length b -> ldot a b = rsum (length a) (fun i => nth i a 0 * nth i b 0).
Proof.
  induction a as [|x a IH] using rev_ind; intros b H.
  - reflexivity.
  - destruct (exists_last (l := b)) as (b' & y & ->).
    { intros ->. rewrite app_length in H. cbn in H. lia. }
    rewrite !app_length in H. cbn [length] in H.
    assert (L : length a = length b') by lia.
    rewrite ldot_app by exact L. rewrite IH by exact L. rewrite app_length. cbn [length ldot]. rewrite Nat.add_1_r. cbn [rsum].
    rewrite !app_nth2 by lia. rewrite L, Nat.sub_diag. cbn [nth].
    rewrite (rsum_ext (length b') (fun i => nth i (a ++ [x]) 0 * nth i (b' ++ [y]) 0) (fun i => nth i a 0 * nth i b' 0)).
    + ring.
    + intros i Hi. rewrite !app_nth1 by lia. reflexivity.
Qed.
Lemma rsum_S_l n f : rsum (S n) f = f 0%nat + rsum n (fun i => f (S i)).
Proof. induction n as [|n IH]; [cbn; ring|]. cbn [rsum] in *. rewrite IH. ring. Qed.
Lemma rowdot_rsum : forall n a b, shaped n 3 a -> shaped n 3 b -> rowdot a b = rsum n (fun j => dot3 (rowof a j) (rowof b j)).
Proof.
  induction n as [|n IH]; intros a b [La Ha] [Lb Hb].
  - destruct a; [reflexivity|discriminate].
  - destruct a as [|x a]; [discriminate|]. destruct b as [|y b]; [discriminate|]. cbn [rowdot]. rewrite rsum_S_l. f_equal.
    + specialize (Ha x (or_introl eq_refl)). specialize (Hb y (or_introl eq_refl)).
      destruct x as [|x0 [|x1 [|x2 [|? ?]]]]; try discriminate. destruct y as [|y0 [|y1 [|y2 [|? ?]]]]; try discriminate.
      unfold dot3, rowof. cbn [ldot nth]. lra.
    + apply IH; (split; [injection La as La; injection Lb as Lb; assumption|]); intros r Hr; [apply Ha|apply Hb]; right; exact Hr.
Qed.
Lemma sumddot_zero : forall s e, (forall m, In m e -> m = zeros33) -> sumddot s e = 0.
Proof.
  induction s as [|x s IH]; intros e H; [reflexivity|]. destruct e as [|y e]; [reflexivity|]. cbn [sumddot].
  rewrite IH by (intros m Hm; apply H; right; exact Hm). rewrite (H y (or_introl eq_refl)).
  unfold ddot, Spec_Pack.ent, zeros33, zeros3. cbn [nth]. ring.
Qed.
Lemma grand_packed Ns f t s fb dfb : shaped_st Ns s -> grand f t s fb dfb = packed f t s fb dfb.
Proof.
  intros [_ H]. unfold grand, packed. f_equal. f_equal. f_equal. rewrite flat_map_concat_map. f_equal.
  apply map_ext_in. intros m Hm. symmetry. apply condense1_five. apply H. exact Hm.
Qed.
Lemma some_nonzero n (x : vec) : (exists i, (i < n)%nat /\ x i <> 0) \/ forall i, (i < n)%nat -> x i = 0.
Proof.
  induction n as [|n [IH|IH]].
  - right. intros i Hi. lia.
  - left. destruct IH as (i & Hi & Hx). exists i. split; [lia|exact Hx].
  - destruct (Req_dec (x n) 0) as [E|E].
    + right. intros i Hi. destruct (Nat.eq_dec i n) as [->|]; [exact E|apply IH; lia].
    + left. exists n. split; [lia|exact E].
Qed.

(** Power of the forces on the particles. *)
Definition force_power (Ns Nd : nat) (o : outputs) : R :=
  rsum Ns (fun j => dot3 (rowof (oFa o) j) (rowof (oUa o) j)) +
  rsum Nd (fun d => dot3 (rowof (oFb o) d) (rowof (oUb o) d) + dot3 (rowof (oDFb o) d) (rowof (oHDb o) d)).
(** Without torques and strain. *)
Definition quiet (o : outputs) : Prop := (forall r, In r (o_Ta o) -> r = zeros3) /\ (forall m, In m (oEa o) -> m = zeros33).
Definition at_rest (Ns Nd : nat) (o : outputs) : Prop :=
  (forall j l, (j < Ns)%nat -> (l < 3)%nat -> rowof (oUa o) j l = 0 /\ rowof (oFa o) j l = 0) /\
  (forall j a b, (j < Ns)%nat -> (a < 3)%nat -> (b < 3)%nat -> matof (oSa o) j a b = 0) /\
  (forall d l, (d < Nd)%nat -> (l < 3)%nat -> (rowof (oUb o) d l = 0 /\ rowof (oHDb o) d l = 0) /\ (rowof (oFb o) d l = 0 /\ rowof (oDFb o) d l = 0)).

Section Power.
Variables Ns Nd : nat.
Variable fm : form.
Notation n := (11 * Ns + 6 * Nd)%nat.
Variables (i : inputs) (R0 : mat) (o : outputs).
Hypothesis Hp : pos_def n R0.
Hypothesis Hfm : fm <> fts.
Hypothesis HA : answers Ns Nd fm i R0 o.
Hypothesis Hq : quiet o.

Lemma power_positive : 0 <= force_power Ns Nd o /\ (force_power Ns Nd o = 0 -> at_rest Ns Nd o).
Proof.
  destruct HA as ((L1 & L2 & L3) & (H1 & H2 & H3 & H4 & H5 & H6 & H7 & H8 & H9 & H10 & H11) & _).
  assert (SE : shaped_st Ns (oEa o)).
  { split; [apply H10|]. intros t Ht. rewrite (proj2 Hq t Ht). apply zeros_st. }
  assert (SS : shaped_st Ns (oSa o)) by (destruct fm; [contradiction|exact H11..]). clear H11.
  set (x := lvec (grand (oUa o) (oOa o) (oEa o) (oUb o) (oHDb o))) in *.
  set (y := lvec (grand (oFa o) (o_Ta o) (oSa o) (oFb o) (oDFb o))) in *.
  assert (Q0 : forall a b, shaped Ns 3 a -> shaped Ns 3 b -> (forall r, In r a -> r = zeros3) -> rowdot a b = 0).
  { intros a b Ha Hb Hz. rewrite (rowdot_rsum Ns a b Ha Hb). apply rsum_zero. intros j Hj. unfold dot3, rowof.
    rewrite (Hz (nth j a [])) by (apply nth_In; destruct Ha; lia). unfold zeros3. cbn [nth]. ring. }
  assert (E : force_power Ns Nd o = rsum n (fun k => x k * y k)).
  { rewrite (rsum_ext n _ (fun k => y k * x k)) by (intros; ring). unfold x, y, lvec. rewrite <- L1. rewrite <- ldot_rsum by lia.
    rewrite !(grand_packed Ns) by assumption. rewrite (packed_power Ns Nd) by assumption.
    rewrite (Q0 _ _ H2 H6 (proj1 Hq)), (sumddot_zero _ _ (proj2 Hq)).
    rewrite (rowdot_rsum Ns _ _ H1 H5), (rowdot_rsum Nd _ _ H3 H7), (rowdot_rsum Nd _ _ H4 H8).
    unfold force_power. rewrite rsum_plus. ring. }
  destruct (some_nonzero n x) as [X|X].
  - pose proof (Hp x y L3 X) as P. rewrite E. split; [lra|intros C; lra].
  - assert (Y : forall k, (k < n)%nat -> y k = 0).
    { intros k Hk. rewrite (L3 k Hk). apply rsum_zero. intros j Hj. rewrite (X j Hj). ring. }
    split.
    + rewrite E, rsum_zero; [lra|]. intros k Hk. rewrite (X k Hk). ring.
    + intros _.
      assert (GU : forall k p c, kvalid Ns Nd k p -> (c < ksize k)%nat ->
        blk (oUa o) (oOa o) (oEa o) (oUb o) (oHDb o) Ns Nd k p c = 0 /\ blk (oFa o) (o_Ta o) (oSa o) (oFb o) (oDFb o) Ns Nd k p c = 0).
      { intros k p c Hk Hc.
        assert (B : (kstart Ns k p + c < n)%nat) by (destruct k; cbn [kvalid ksize kstart] in *; lia).
        split; [rewrite <- (grand_at Ns Nd (oUa o) (oOa o) (oEa o) (oUb o) (oHDb o) k p c) | rewrite <- (grand_at Ns Nd (oFa o) (o_Ta o) (oSa o) (oFb o) (oDFb o) k p c)];
          try assumption; try apply H10; try apply H9; [apply X|apply Y]; exact B. }
      split; [|split].
      * intros j l Hj Hl. exact (GU KU j l Hj Hl).
      * intros j a b Hj Ha Hb. rewrite <- (tensor_condense (matof (oSa o) j) a b (matof_st Ns _ j SS Hj) Ha Hb).
        rewrite (tensor_ext _ (fun _ => 0)) by (intros m Hm; apply (GU KS j m Hj Hm)).
        unfold tensor_of, get2, uncondense1, Rdiv. idx3 Ha; idx3 Hb; cbn; ring.
      * intros d l Hd Hl. pose proof (GU KB (Ns + d)%nat l ltac:(cbn; lia) Hl) as G1. pose proof (GU KB (Ns + Nd + d)%nat l ltac:(cbn; lia) Hl) as G2.
        cbn [blk] in G1, G2.
        replace (Ns + d - Ns)%nat with d in G1 by lia. destruct (Nat.ltb_spec d Nd); [|lia].
        replace (Ns + Nd + d - Ns)%nat with (Nd + d)%nat in G2 by lia. destruct (Nat.ltb_spec (Nd + d) Nd); [lia|].
        replace (Nd + d - Nd)%nat with d in G2 by lia. tauto.
Qed.
End Power.
