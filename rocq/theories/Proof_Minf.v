(** Every entry of the assembled mobility matrix. *)
From Coq Require Import Reals Arith Bool List Lia Lra FunctionalExtensionality.
From Verif Require Import Base Model_Pack Model_Mob Model_Layout Model_Minf Spec_Layout Spec_Minf
  Spec_Calc Proof_Fold Proof_Layout Proof_Calc Proof_Mob Proof_Mob2.
Import ListNotations.
Local Open Scope R_scope.

Lemma geom_swap x1 x2 a1 a2 :
  pair_geometry x2 x1 a2 a1 =
  (vopp (fst (pair_geometry x1 x2 a1 a2)), snd (pair_geometry x1 x2 a1 a2)).
Proof.
  assert (Hv : vsub x2 x1 = vopp (vsub x1 x2)).
  { apply functional_extensionality. intros i. unfold vsub, vopp. ring. }
  unfold pair_geometry. rewrite Hv, norm_vopp, (Rplus_comm a2 a1).
  destruct (Rlt_dec _ _); [|reflexivity]. destruct (Rlt_dec _ _); [|reflexivity].
  simpl. f_equal. apply functional_extensionality. intros i. unfold vopp, v3.
  destruct i as [|[|[|i]]]; unfold Rdiv; ring.
Qed.

Lemma con_row_condense f m : (m < 5)%nat -> con_row f m = condense_idx f m.
Proof.
  intros Hm. unfold condense_idx. cbn [rsum].
  idx5 Hm; unfold con_row, contraction; simpl; ring.
Qed.

Lemma cond_E_condense f m : (m < 5)%nat ->
  rsum 5 (fun l => cond_E m l * f (fst (cond_idx l)) (snd (cond_idx l))) = condense_idx f m.
Proof.
  intros Hm. unfold condense_idx. cbn [rsum].
  idx5 Hm; unfold cond_E, cond_idx, contraction; simpl; ring.
Qed.

Lemma cond_E_sym m l : (m < 5)%nat -> (l < 5)%nat -> cond_E l m = cond_E m l.
Proof. intros Hm Hl. idx5 Hm; idx5 Hl; reflexivity. Qed.

Lemma cond_E_both g i j : (i < 5)%nat -> (j < 5)%nat ->
  mmul 5 (mmul 5 cond_E (fun i j => g (fst (cond_idx i)) (snd (cond_idx i)) (fst (cond_idx j)) (snd (cond_idx j)))) cond_E i j
  = condense_idx (fun k l => condense_idx (fun k' l' => g k l k' l') j) i.
Proof.
  intros Hi Hj. unfold mmul.
  transitivity (rsum 5 (fun l => cond_E j l *
     (condense_idx (fun k l0 => g k l0 (fst (cond_idx l)) (snd (cond_idx l))) i))).
  - apply rsum_ext. intros l Hl. rewrite (cond_E_sym j l) by assumption.
    rewrite (cond_E_condense (fun k l0 => g k l0 (fst (cond_idx l)) (snd (cond_idx l))) i Hi). ring.
  - rewrite (cond_E_condense (fun k' l' => condense_idx (fun k l0 => g k l0 k' l') i) j Hj).
    unfold condense_idx. cbn [rsum]. ring.
Qed.

Section Assembly.
Variables (bb : bool) (x : nat -> vec) (a : nat -> R) (Ns Nd : nat) (c mu : R).
Let nb := (Ns + 2 * Nd)%nat.
Let step := minf_step bb x a Ns Nd c mu.

(** What the loop leaves at an upper triangular block. *)
Definition upper_val k1 p k2 q i j : R :=
  let g := pair_geometry (x p) (x q) (a p) (a q) in
  match k1, k2 with
  | KB, KB => if (bb || Nat.eqb p q)%bool then pmob k1 k2 (fst g) (snd g) (a p) (a q) c mu i j else 0
  | _, _ => pmob k1 k2 (fst g) (snd g) (a p) (a q) c mu i j
  end.

Definition upper_block k1 p k2 q : Prop := (krank k1 < krank k2)%nat \/ (k1 = k2 /\ (p <= q)%nat).

Ltac side := first [assumption | reflexivity | (simpl; lia) | (simpl; f_equal; lia)].
Ltac wr k1 p k2 q :=
  first [ rewrite (mset_block Ns Nd _ _ k1 p k2 q) by side
        | rewrite (mset_rows_block Ns Nd _ _ k1 p k2 q) by side
        | rewrite (mset_diag_block Ns Nd _ _ k1 p k2 q) by side ].
Ltac hit := match goal with
  | |- context [same_block_dec ?a ?b ?c ?d ?e ?f ?g ?h] =>
     destruct (same_block_dec a b c d e f g h) as [(?E & ?E & ?E & ?E)|?NE] end.

Definition pair_of p q : nat * nat := (min p q, max p q).

Lemma step_other k1 p k2 q i j u v X :
  kvalid Ns Nd k1 p -> kvalid Ns Nd k2 q -> (i < ksize k1)%nat -> (j < ksize k2)%nat ->
  upper_block k1 p k2 q -> (u <= v < nb)%nat -> (u, v) <> pair_of p q ->
  ent Ns (step X (u, v)) k1 p k2 q i j = ent Ns X k1 p k2 q i j.
Proof.
  intros V1 V2 Hi Hj Hup Huv Hne. unfold step, minf_step, nb in *.
  assert (Hd : ~ (u = p /\ v = q) /\ ~ (u = q /\ v = p)).
  { unfold pair_of in Hne. split; intros [-> ->]; apply Hne; f_equal; lia. }
  destruct (pair_geometry (x u) (x v) (a u) (a v)) as [r s].
  unfold is_sphere, is_dumbbell_bead_1, is_dumbbell_bead_2.
  destruct (Nat.ltb_spec u Ns) as [Hu|Hu]; destruct (Nat.ltb_spec v Ns) as [Hv|Hv];
    cbn [andb]; try lia.
  - (* sphere sphere *)
    assert (kvalid Ns Nd KU u /\ kvalid Ns Nd KO u /\ kvalid Ns Nd KS u) as (U1 & U2 & U3) by (simpl; auto).
    assert (kvalid Ns Nd KU v /\ kvalid Ns Nd KO v /\ kvalid Ns Nd KS v) as (W1 & W2 & W3) by (simpl; auto).
    destruct (Req_EM_T (a u) (a v)).
    + wr KO v KS u; hit; [subst; tauto|]. wr KU v KS u; hit; [subst; tauto|].
      wr KU v KO u; hit; [subst; tauto|].
      destruct (Rlt_dec tiny s).
      * wr KS u KS v; hit; [subst; tauto|]. wr KO u KS v; hit; [subst; tauto|].
        wr KU u KS v; hit; [subst; tauto|]. wr KO u KO v; hit; [subst; tauto|].
        wr KU u KO v; hit; [subst; tauto|]. wr KU u KU v; hit; [subst; tauto|]. reflexivity.
      * wr KS u KS v; hit; [subst; tauto|]. wr KO u KS v; hit; [subst; tauto|].
        wr KU u KS v; hit; [subst; tauto|]. wr KO u KO v; hit; [subst; tauto|].
        wr KU u KO v; hit; [subst; tauto|]. wr KU u KU v; hit; [subst; tauto|]. reflexivity.
    + wr KO v KS u; hit; [subst; tauto|]. wr KU v KS u; hit; [subst; tauto|].
      wr KU v KO u; hit; [subst; tauto|].
      destruct (Rlt_dec tiny s).
      * wr KS u KS v; hit; [subst; tauto|]. wr KO u KS v; hit; [subst; tauto|].
        wr KU u KS v; hit; [subst; tauto|]. wr KO u KO v; hit; [subst; tauto|].
        wr KU u KO v; hit; [subst; tauto|]. wr KU u KU v; hit; [subst; tauto|]. reflexivity.
      * wr KS u KS v; hit; [subst; tauto|]. wr KO u KS v; hit; [subst; tauto|].
        wr KU u KS v; hit; [subst; tauto|]. wr KO u KO v; hit; [subst; tauto|].
        wr KU u KO v; hit; [subst; tauto|]. wr KU u KU v; hit; [subst; tauto|]. reflexivity.
  - (* sphere bead *)
    assert (kvalid Ns Nd KU u /\ kvalid Ns Nd KO u /\ kvalid Ns Nd KS u) as (U1 & U2 & U3) by (simpl; auto).
    assert (kvalid Ns Nd KB v) as W1 by (simpl; lia).
    destruct (Nat.leb_spec Ns v); [|lia].
    destruct (Nat.ltb_spec v (Ns + Nd)); cbn [andb];
    (wr KS u KB v; hit; [subst; tauto|]; wr KO u KB v; hit; [subst; tauto|];
     wr KU u KB v; hit; [subst; tauto|]; reflexivity).
  - (* bead bead *)
    assert (kvalid Ns Nd KB u) as U1 by (simpl; lia).
    assert (kvalid Ns Nd KB v) as W1 by (simpl; lia).
    destruct (Nat.leb_spec Ns u); [|lia]. destruct (Nat.leb_spec Ns v); [|lia].
    destruct (Nat.leb_spec (Ns + Nd) v);
    destruct (Nat.ltb_spec u (Ns + Nd)); destruct (Nat.ltb_spec v (Ns + Nd)); cbn [andb]; try lia;
    match goal with |- context [if ?b then _ else _] => destruct b end; try reflexivity;
    (wr KB u KB v; hit; [subst; tauto|]; reflexivity).
Qed.

Ltac miss := hit; [exfalso; congruence|].
Ltac take := hit; [|exfalso; unfold same_block in *; tauto].

Lemma M12_zero_small r s a1 a2 i j : ~ tiny < s -> M12 r s a1 a2 i j c mu = 0.
Proof. intros H. unfold M12. destruct (Rlt_dec tiny s); [contradiction|reflexivity]. Qed.


Lemma norm_zero_vsub y : norm (vsub y y) = 0.
Proof. unfold norm, vsub. rewrite <- sqrt_0. f_equal. ring. Qed.
Lemma geom_self y b : pair_geometry y y b b = (vsub y y, 0).
Proof.
  unfold pair_geometry. rewrite norm_zero_vsub.
  destruct (Rlt_dec (/ 10 ^ 8) 0) as [H|H]; [|reflexivity].
  exfalso. assert (0 < / 10 ^ 8) by (apply Rinv_0_lt_compat; apply pow_lt; lra). lra.
Qed.
Lemma tiny_not_0 : ~ tiny < 0.
Proof. pose proof tiny_pos. lra. Qed.

Lemma condense_zero f m : (forall k l, f k l = 0) -> condense_idx f m = 0.
Proof.
  intros H. unfold condense_idx. apply rsum_zero. intros k _. apply rsum_zero. intros l _.
  rewrite H. ring.
Qed.
Lemma condense_opp f m : condense_idx (fun k l => - f k l) m = - condense_idx f m.
Proof. unfold condense_idx. cbn [rsum]. ring. Qed.
Lemma condense_ext f g m : (forall k l, (k < 3)%nat -> (l < 3)%nat -> f k l = g k l) ->
  condense_idx f m = condense_idx g m.
Proof.
  intros H. unfold condense_idx. apply rsum_ext. intros k Hk. apply rsum_ext. intros l Hl.
  rewrite H by assumption. reflexivity.
Qed.


Lemma M13_zero_small r s a1 a2 i j k : ~ tiny < s -> M13 r s a1 a2 i j k c mu = 0.
Proof. intros H. unfold M13. destruct (Rlt_dec tiny s); [contradiction|reflexivity]. Qed.
Lemma M23_zero_self y s a1 a2 i j k : M23 (vsub y y) s a1 a2 i j k c mu = 0.
Proof.
  unfold M23. destruct (Rlt_dec _ _) as [H|H]; [|reflexivity]. exfalso. revert H. unfold vsub.
  rewrite !Rminus_diag_eq by reflexivity. rewrite Rabs_R0. pose proof tiny_pos. lra.
Qed.

(** The write by the pair itself, p < q. *)
Lemma step_own_lt k1 p k2 q i j X :
  kvalid Ns Nd k1 p -> kvalid Ns Nd k2 q -> (i < ksize k1)%nat -> (j < ksize k2)%nat ->
  upper_block k1 p k2 q -> (p < q)%nat -> ent Ns X k1 p k2 q i j = 0 ->
  ent Ns (step X (p, q)) k1 p k2 q i j = upper_val k1 p k2 q i j.
Proof.
  intros V1 V2 Hi Hj Hup Hpq HX. unfold step, minf_step, upper_val.
  destruct (pair_geometry (x p) (x q) (a p) (a q)) as [r s]. cbn [fst snd] in *.
  unfold is_sphere, is_dumbbell_bead_1, is_dumbbell_bead_2.
  destruct (Nat.ltb_spec p Ns) as [Hp|Hp]; destruct (Nat.ltb_spec q Ns) as [Hq|Hq];
    cbn [andb]; try lia.
  - assert (kvalid Ns Nd KU p /\ kvalid Ns Nd KO p /\ kvalid Ns Nd KS p) as (U1 & U2 & U3) by (simpl; auto).
    assert (kvalid Ns Nd KU q /\ kvalid Ns Nd KO q /\ kvalid Ns Nd KS q) as (W1 & W2 & W3) by (simpl; auto).
    assert (k1 <> KB) as N1 by (intros ->; simpl in V1; lia).
    assert (k2 <> KB) as N2 by (intros ->; simpl in V2; lia).
    assert (p <> q) as Npq by lia.
    destruct (Req_EM_T (a p) (a q)).
    1: wr KO q KS p; miss; wr KU q KS p; miss; wr KU q KO p; miss.
    2: wr KO q KS p; miss; wr KU q KS p; miss; wr KU q KO p; miss.
    all: destruct k1, k2; try congruence; try (destruct Hup as [Hup|[Hup _]]; simpl in Hup; (discriminate || lia)).
    all: destruct (Rlt_dec tiny s) as [Hs|Hs].
    all: wr KS p KS q; first [miss | take; unfold pmob; (destruct (Rlt_dec tiny s); [|contradiction]);
            rewrite (cond_E_both (fun k l k' l' => M33 r s (a p) (a q) k l k' l' c mu)) by (simpl in *; lia); reflexivity
          | take; unfold pmob; (destruct (Rlt_dec tiny s); [contradiction|]) | idtac].
    all: wr KO p KS q; first [miss | take; unfold pmob, con_M23_row; rewrite con_row_condense by (simpl in *; lia); reflexivity | idtac].
    all: wr KU p KS q; first [miss | take; unfold pmob, con_M13_row; rewrite con_row_condense by (simpl in *; lia); reflexivity | idtac].
    all: wr KO p KO q; first [miss | take; reflexivity | idtac].
    all: wr KU p KO q; first [miss | take; reflexivity | idtac].
    all: wr KU p KU q; first [take; reflexivity | miss].
    all: rewrite HX; unfold delta; destruct (Nat.eqb_spec i j); unfold Rdiv; ring.
  - assert (kvalid Ns Nd KU p /\ kvalid Ns Nd KO p /\ kvalid Ns Nd KS p) as (U1 & U2 & U3) by (simpl; auto).
    assert (kvalid Ns Nd KB q) as W1 by (destruct k2; simpl in V2 |- *; lia).
    assert (k1 <> KB) as N1 by (intros ->; simpl in V1; lia).
    assert (k2 = KB) as -> by (destruct k2; simpl in V2; solve [lia|reflexivity]).
    destruct (Nat.leb_spec Ns q); [|lia].
    destruct (Nat.ltb_spec q (Ns + Nd)); cbn [andb];
    (destruct k1; try congruence;
     wr KS p KB q; first [miss | take; unfold pmob, mmul;
        rewrite (cond_E_condense (fun k l => M13 (vopp r) s (a q) (a p) j k l c mu)) by (simpl in *; lia); reflexivity | idtac];
     wr KO p KB q; first [miss | take; reflexivity | idtac];
     wr KU p KB q; take; reflexivity).
  - assert (k1 = KB) as -> by (destruct k1; simpl in V1; solve [lia|reflexivity]).
    assert (k2 = KB) as -> by (destruct k2; simpl in V2; solve [lia|reflexivity]).
    simpl in V1, V2.
    destruct (Nat.leb_spec Ns p); [|lia]. destruct (Nat.leb_spec Ns q); [|lia].
    destruct (Nat.eqb_spec p q); [lia|]. rewrite orb_false_r.
    destruct (Nat.leb_spec (Ns + Nd) q);
    destruct (Nat.ltb_spec p (Ns + Nd)); destruct (Nat.ltb_spec q (Ns + Nd)); cbn [andb]; try lia;
    (destruct bb; [wr KB p KB q; take; reflexivity|exact HX]).
Qed.

(** p = q. *)
Lemma step_own_eq k1 p k2 i j X :
  kvalid Ns Nd k1 p -> kvalid Ns Nd k2 p -> (i < ksize k1)%nat -> (j < ksize k2)%nat ->
  upper_block k1 p k2 p -> ent Ns X k1 p k2 p i j = 0 ->
  ent Ns (step X (p, p)) k1 p k2 p i j = upper_val k1 p k2 p i j.
Proof.
  intros V1 V2 Hi Hj Hup HX. unfold step, minf_step, upper_val.
  rewrite geom_self. cbn [fst snd] in *. set (r := vsub (x p) (x p)).
  unfold is_sphere, is_dumbbell_bead_1, is_dumbbell_bead_2.
  destruct (Rlt_dec tiny 0) as [Hs|Hs]; [destruct (tiny_not_0 Hs)|].
  destruct (Nat.ltb_spec p Ns) as [Hp|Hp]; cbn [andb].
  - assert (kvalid Ns Nd KU p /\ kvalid Ns Nd KO p /\ kvalid Ns Nd KS p) as (U1 & U2 & U3) by (simpl; auto).
    assert (k1 <> KB) as N1 by (intros ->; simpl in V1; lia).
    assert (k2 <> KB) as N2 by (intros ->; simpl in V2; lia).
    destruct (Req_EM_T (a p) (a p)) as [_|NE]; [|congruence].
    destruct k1, k2; try congruence; try (destruct Hup as [Hup|[Hup _]]; simpl in Hup; (discriminate || lia)).
    + wr KO p KS p; miss; wr KU p KS p; miss; wr KU p KO p; miss.
      wr KS p KS p; miss; wr KO p KS p; miss; wr KU p KS p; miss; wr KO p KO p; miss; wr KU p KO p; miss; wr KU p KU p; take; reflexivity.
    + wr KO p KS p; miss; wr KU p KS p; miss; wr KU p KO p; take.
      unfold mopp. rewrite (mget_block Ns _ _ KU p KO p) by side.
      wr KS p KS p; miss; wr KO p KS p; miss; wr KU p KS p; miss; wr KO p KO p; miss; wr KU p KO p; take.
      unfold pmob. rewrite M12_zero_small by exact Hs. ring.
    + wr KO p KS p; miss; wr KU p KS p; take.
      unfold mopp. rewrite (mget_block Ns _ _ KU p KS p) by side.
      wr KU p KO p; miss.
      wr KS p KS p; miss; wr KO p KS p; miss; wr KU p KS p; take.
      unfold pmob, con_M13_row. rewrite con_row_condense by (simpl in *; lia).
      rewrite condense_zero by (intros; apply M13_zero_small; exact Hs). ring.
    + wr KO p KS p; miss; wr KU p KS p; miss; wr KU p KO p; miss.
      wr KS p KS p; miss; wr KO p KS p; miss; wr KU p KS p; miss; wr KO p KO p; take; reflexivity.
    + wr KO p KS p; take. rewrite (mget_block Ns _ _ KO p KS p) by side.
      wr KU p KS p; miss; wr KU p KO p; miss. wr KS p KS p; miss; wr KO p KS p; take.
      unfold pmob, con_M23_row. rewrite con_row_condense by (simpl in *; lia). reflexivity.
    + wr KO p KS p; miss; wr KU p KS p; miss; wr KU p KO p; miss.
      wr KS p KS p; take. unfold pmob. destruct (Rlt_dec tiny 0); [contradiction|].
      wr KO p KS p; miss; wr KU p KS p; miss; wr KO p KO p; miss; wr KU p KO p; miss; wr KU p KU p; miss.
      rewrite HX; unfold delta; destruct (Nat.eqb_spec i j); unfold Rdiv; ring.
  - assert (k1 = KB) as -> by (destruct k1; simpl in V1; solve [lia|reflexivity]).
    assert (k2 = KB) as -> by (destruct k2; simpl in V2; solve [lia|reflexivity]).
    simpl in V1, V2. rewrite Nat.eqb_refl, orb_true_r.
    destruct (Nat.leb_spec Ns p); [|lia].
    destruct (Nat.leb_spec (Ns + Nd) p);
    destruct (Nat.ltb_spec p (Ns + Nd)); cbn [andb]; try lia;
    (wr KB p KB p; take; reflexivity).
Qed.

(** p > q: the blocks written at the swapped place by the pair (q, p). *)
Lemma step_own_gt k1 p k2 q i j X :
  kvalid Ns Nd k1 p -> kvalid Ns Nd k2 q -> (i < ksize k1)%nat -> (j < ksize k2)%nat ->
  upper_block k1 p k2 q -> (q < p)%nat ->
  ent Ns (step X (q, p)) k1 p k2 q i j = upper_val k1 p k2 q i j.
Proof.
  intros V1 V2 Hi Hj Hup Hpq. unfold step, minf_step, upper_val.
  assert (Hs : pair_geometry (x p) (x q) (a p) (a q) =
     (vopp (fst (pair_geometry (x q) (x p) (a q) (a p))), snd (pair_geometry (x q) (x p) (a q) (a p))))
    by apply geom_swap.
  rewrite Hs. clear Hs.
  destruct (pair_geometry (x q) (x p) (a q) (a p)) as [r s]. cbn [fst snd] in *.
  assert (Hk : (krank k1 < krank k2)%nat) by (destruct Hup as [?|[? ?]]; lia).
  assert (p < Ns)%nat as Hp by (destruct k1, k2; simpl in *; lia).
  assert (q < Ns)%nat as Hq by lia.
  unfold is_sphere. rewrite (proj2 (Nat.ltb_lt p Ns) Hp), (proj2 (Nat.ltb_lt q Ns) Hq). cbn [andb].
  assert (kvalid Ns Nd KU p /\ kvalid Ns Nd KO p /\ kvalid Ns Nd KS p) as (U1 & U2 & U3) by (simpl; auto).
  assert (kvalid Ns Nd KU q /\ kvalid Ns Nd KO q /\ kvalid Ns Nd KS q) as (W1 & W2 & W3) by (simpl; auto).
  assert (k2 <> KB) as N2 by (intros ->; simpl in V2; lia).
  assert (p <> q) as Npq by lia.
  assert (Hr : vopp (vopp r) = r).
  { apply functional_extensionality. intros t. unfold vopp. ring. }
  destruct k1, k2; simpl in Hk; try lia; try congruence.
  - destruct (Req_EM_T (a q) (a p)) as [E|NE].
    + wr KO p KS q; miss; wr KU p KS q; miss; wr KU p KO q; take.
      unfold mopp. rewrite (mget_block Ns _ _ KU q KO p) by side.
      destruct (Rlt_dec tiny s) as [Hs|Hs];
      (wr KS q KS p; miss; wr KO q KS p; miss; wr KU q KS p; miss; wr KO q KO p; miss; wr KU q KO p; take;
       unfold pmob; rewrite (M12_odd r s (a q) (a p)) by (simpl in *; lia); reflexivity).
    + wr KO p KS q; miss; wr KU p KS q; miss; wr KU p KO q; take. reflexivity.
  - destruct (Req_EM_T (a q) (a p)) as [E|NE].
    + wr KO p KS q; miss; wr KU p KS q; take.
      unfold mopp. rewrite (mget_block Ns _ _ KU q KS p) by side. wr KU p KO q; miss.
      destruct (Rlt_dec tiny s) as [Hs|Hs];
      (wr KS q KS p; miss; wr KO q KS p; miss; wr KU q KS p; take;
       unfold pmob, con_M13_row; rewrite con_row_condense by (simpl in *; lia);
       rewrite <- condense_opp; apply condense_ext; intros k l Hk' Hl;
       rewrite E, <- M13_odd; reflexivity).
    + wr KO p KS q; miss; wr KU p KS q; take.
      unfold pmob, con_M13_row. rewrite con_row_condense by (simpl in *; lia). reflexivity.
  - destruct (Req_EM_T (a q) (a p)) as [E|NE].
    + wr KO p KS q; take. rewrite (mget_block Ns _ _ KO q KS p) by side.
      wr KU p KS q; miss. wr KU p KO q; miss.
      destruct (Rlt_dec tiny s) as [Hs|Hs];
      (wr KS q KS p; miss; wr KO q KS p; take;
       unfold pmob, con_M23_row; rewrite con_row_condense by (simpl in *; lia);
       apply condense_ext; intros k l Hk' Hl; symmetry; apply M23_even; simpl in *; lia).
    + wr KO p KS q; take. unfold pmob, con_M23_row. rewrite con_row_condense by (simpl in *; lia). reflexivity.
Qed.

Definition raw : mat := fold_left step (upper_pairs nb) mzero.

Lemma kvalid_nb k p : kvalid Ns Nd k p -> (p < nb)%nat.
Proof. unfold nb. destruct k; simpl; lia. Qed.

Lemma raw_upper k1 p k2 q i j :
  kvalid Ns Nd k1 p -> kvalid Ns Nd k2 q -> (i < ksize k1)%nat -> (j < ksize k2)%nat ->
  upper_block k1 p k2 q -> ent Ns raw k1 p k2 q i j = upper_val k1 p k2 q i j.
Proof.
  intros V1 V2 Hi Hj Hup. unfold raw, ent.
  pose proof (kvalid_nb _ _ V1). pose proof (kvalid_nb _ _ V2).
  apply (fold_once step _ _ _ _ 0 _ (pair_of p q)).
  - apply upper_pairs_nodup.
  - apply upper_pairs_in. lia.
  - reflexivity.
  - intros X HX. fold (ent Ns (step X (pair_of p q)) k1 p k2 q i j).
    unfold pair_of. destruct (lt_eq_lt_dec p q) as [[Hlt|<-]|Hgt].
    + rewrite Nat.min_l, Nat.max_r by lia. apply step_own_lt; assumption.
    + rewrite Nat.min_id, Nat.max_id. apply step_own_eq; assumption.
    + rewrite Nat.min_r, Nat.max_l by lia. apply step_own_gt; assumption.
  - intros [u v] X Hin Hne. apply upper_pairs_in in Hin.
    apply step_other; try assumption; lia.
Qed.
End Assembly.
