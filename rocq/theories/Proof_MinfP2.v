(** Every entry of the assembled periodic mobility matrix. *)
From Coq Require Import Reals Arith Bool List Lia Lra FunctionalExtensionality.
From Verif Require Import Base Model_Pack Model_Mob Model_Layout Model_Minf Model_Ewald Model_MinfP Spec_Layout Spec_Minf Spec_MinfP
  Spec_Calc Proof_Fold Proof_Layout Proof_Calc Proof_Mob Proof_Mob2 Proof_Minf Proof_MinfP1.
Import ListNotations.
Local Open Scope R_scope.

Section Assembly.
Variable lat : lattice.
Hypothesis HX : reflected (X_lmn lat).
Variables (bb : bool) (x : nat -> vec) (a : nat -> R) (Ns Nd : nat) (c mu : R).
Let nb := (Ns + 2 * Nd)%nat.
Let step := minfP_step lat bb x a Ns Nd c mu.
Notation P := (periodic_pair lat).
Notation dst r := (fun X => norm (vadd r X)).

Lemma M11P_erfcs i j r s a1 a2 e e' sl : M11P lat i j r s a1 a2 e c mu sl = M11P lat i j r s a1 a2 e' c mu sl.
Proof. unfold M11P, ar. destruct (Rlt_dec tiny s); reflexivity. Qed.
Lemma M12P_small i j r s a1 a2 sl : ~ tiny < s -> M12P lat i j r s a1 a2 c mu sl = 0.
Proof. intros H. unfold M12P. destruct (Rlt_dec tiny s); [contradiction|reflexivity]. Qed.
Lemma M13P_small i j k r s a1 a2 sl : ~ tiny < s -> M13P lat i j k r s a1 a2 c mu sl = 0.
Proof. intros H. unfold M13P. destruct (Rlt_dec tiny s); [contradiction|reflexivity]. Qed.
Lemma M12P_odd i j r s a1 a2 :
  M12P lat i j (vopp r) s a1 a2 c mu (dst (vopp r)) = - M12P lat i j r s a1 a2 c mu (dst r).
Proof.
  unfold M12P. destruct (Rlt_dec tiny s); [|ring].
  rewrite (vsum_image (X_lmn lat) r (fun y => btr y (norm y) a1 a2 i j (generate_erfcs (norm y) (lat_lamb lat)) c mu) HX).
  rewrite <- vsum_opp. apply vsum_ext. intros X _. rewrite norm_vopp. apply btr_odd.
Qed.
Lemma M13P_odd i j k r s a1 a2 :
  M13P lat i j k (vopp r) s a1 a2 c mu (dst (vopp r)) = - M13P lat i j k r s a1 a2 c mu (dst r).
Proof.
  unfold M13P. destruct (Rlt_dec tiny s); [|ring].
  rewrite (vsum_image (X_lmn lat) r (fun y => gtr y (norm y) a1 a2 i j k (generate_erfcs (norm y) (lat_lamb lat)) c mu) HX).
  rewrite <- vsum_opp. apply vsum_ext. intros X _. rewrite norm_vopp. apply gtr_odd.
Qed.
Lemma M23P_even i j k r s a1 a2 :
  M23P lat i j k (vopp r) s a1 a2 c mu (dst (vopp r)) = M23P lat i j k r s a1 a2 c mu (dst r).
Proof.
  unfold M23P. destruct (Rlt_dec tiny s); [|reflexivity]. cbv zeta. f_equal; [|f_equal].
  - rewrite (vsum_image (X_lmn lat) r (fun y => htr y (norm y) a1 a2 i j k (generate_erfcs (norm y) (lat_lamb lat)) c mu) HX).
    apply vsum_ext. intros X _. rewrite norm_vopp. apply htr_even.
  - apply vsum_ext. intros K _. rewrite dot3_vopp, cos_neg. reflexivity.
Qed.

(** What the loop leaves at an upper triangular block. *)
Definition upper_valP k1 p k2 q i j : R :=
  let g := pair_geometry (x p) (x q) (a p) (a q) in
  match k1, k2 with
  | KB, KB => if (bb || same_dumbbell Nd p q)%bool then P k1 k2 (fst g) (snd g) (a p) (a q) c mu i j else 0
  | _, _ => if mixed k1 k2 then P k1 k2 (fst g) (snd g) (a q) (a p) c mu i j else P k1 k2 (fst g) (snd g) (a p) (a q) c mu i j
  end.

Ltac side := first [assumption | reflexivity | (simpl; lia) | (simpl; f_equal; lia)].
Ltac wr k1 p k2 q :=
  first [ rewrite (mset_block Ns Nd _ _ k1 p k2 q) by side
        | rewrite (mset_rows_block Ns Nd _ _ k1 p k2 q) by side
        | rewrite (mset_diag_block Ns Nd _ _ k1 p k2 q) by side ].
Ltac hit := match goal with
  | |- context [same_block_dec ?a ?b ?c ?d ?e ?f ?g ?h] =>
     destruct (same_block_dec a b c d e f g h) as [(?E & ?E & ?E & ?E)|?NE] end.


Lemma stepP_other st k1 p k2 q i j u v X :
  kvalid Ns Nd k1 p -> kvalid Ns Nd k2 q -> (i < ksize k1)%nat -> (j < ksize k2)%nat ->
  upper_block k1 p k2 q -> (u <= v < nb)%nat -> (u, v) <> pair_of p q ->
  ent Ns (step st X (u, v)) k1 p k2 q i j = ent Ns X k1 p k2 q i j.
Proof.
  intros V1 V2 Hi Hj Hup Huv Hne. unfold step, minfP_step, nb in *.
  assert (Hd : ~ (u = p /\ v = q) /\ ~ (u = q /\ v = p)).
  { unfold pair_of in Hne. split; intros [-> ->]; apply Hne; f_equal; lia. }
  destruct (pair_geometry (x u) (x v) (a u) (a v)) as [r s].
  unfold is_sphere, is_dumbbell_bead_1, is_dumbbell_bead_2.
  destruct (Nat.ltb_spec u Ns) as [Hu|Hu]; destruct (Nat.ltb_spec v Ns) as [Hv|Hv];
    cbn [andb]; try lia.
  - (* sphere sphere *)
    assert (kvalid Ns Nd KU u /\ kvalid Ns Nd KO u /\ kvalid Ns Nd KS u) as (U1 & U2 & U3) by (simpl; auto).
    assert (kvalid Ns Nd KU v /\ kvalid Ns Nd KO v /\ kvalid Ns Nd KS v) as (W1 & W2 & W3) by (simpl; auto).
    destruct (Req_EM_T (a u) (a v));
      (wr KO v KS u; hit; [subst; tauto|]; wr KU v KS u; hit; [subst; tauto|];
       wr KU v KO u; hit; [subst; tauto|];
       wr KS u KS v; hit; [subst; tauto|]; wr KO u KS v; hit; [subst; tauto|];
       wr KU u KS v; hit; [subst; tauto|]; wr KO u KO v; hit; [subst; tauto|];
       wr KU u KO v; hit; [subst; tauto|]; wr KU u KU v; hit; [subst; tauto|]; reflexivity).
  - (* sphere bead *)
    assert (kvalid Ns Nd KU u /\ kvalid Ns Nd KO u /\ kvalid Ns Nd KS u) as (U1 & U2 & U3) by (simpl; auto).
    assert (kvalid Ns Nd KB v) as W1 by (simpl; lia).
    destruct (Nat.leb_spec Ns v); [|lia].
    destruct (Nat.ltb_spec v (Ns + Nd)); cbn [andb];
    (wr KS u KB v; hit; [subst; tauto|]; wr KO u KB v; hit; [subst; tauto|];
     wr KU u KB v; hit; [subst; tauto|]; reflexivity).
  - (* bead bead *)
    assert (kvalid Ns Nd KB u) as U1 by (simpl; lia).
    assert (kvalid Ns Nd KB v) as W1 by (simpl; lia).
    destruct (Nat.leb_spec Ns u); [|lia]. destruct (Nat.leb_spec Ns v); [|lia].
    destruct (Nat.leb_spec (Ns + Nd) v);
    destruct (Nat.ltb_spec u (Ns + Nd)); destruct (Nat.ltb_spec v (Ns + Nd)); cbn [andb]; try lia;
    match goal with |- context [if ?b then _ else _] => destruct b end; try reflexivity;
    (wr KB u KB v; hit; [subst; tauto|]; reflexivity).
Qed.

Ltac miss := hit; [exfalso; congruence|].
Ltac take := hit; [|exfalso; unfold same_block in *; tauto].

(** The write by the pair itself, p < q. *)
Lemma stepP_own_lt st k1 p k2 q i j X :
  kvalid Ns Nd k1 p -> kvalid Ns Nd k2 q -> (i < ksize k1)%nat -> (j < ksize k2)%nat ->
  upper_block k1 p k2 q -> (p < q)%nat -> ent Ns X k1 p k2 q i j = 0 ->
  ent Ns (step st X (p, q)) k1 p k2 q i j = upper_valP k1 p k2 q i j.
Proof.
  intros V1 V2 Hi Hj Hup Hpq HX0. unfold step, minfP_step, upper_valP.
  destruct (pair_geometry (x p) (x q) (a p) (a q)) as [r s]. cbn [fst snd] in *.
  unfold is_sphere, is_dumbbell_bead_1, is_dumbbell_bead_2.
  destruct (Nat.ltb_spec p Ns) as [Hp|Hp]; destruct (Nat.ltb_spec q Ns) as [Hq|Hq];
    cbn [andb]; try lia.
  - assert (kvalid Ns Nd KU p /\ kvalid Ns Nd KO p /\ kvalid Ns Nd KS p) as (U1 & U2 & U3) by (simpl; auto).
    assert (kvalid Ns Nd KU q /\ kvalid Ns Nd KO q /\ kvalid Ns Nd KS q) as (W1 & W2 & W3) by (simpl; auto).
    assert (k1 <> KB) as N1 by (intros ->; simpl in V1; lia).
    assert (k2 <> KB) as N2 by (intros ->; simpl in V2; lia).
    assert (p <> q) as Npq by lia.
    destruct (Req_EM_T (a p) (a q)).
    1: wr KO q KS p; miss; wr KU q KS p; miss; wr KU q KO p; miss.
    2: wr KO q KS p; miss; wr KU q KS p; miss; wr KU q KO p; miss.
    all: destruct k1, k2; try congruence; try (destruct Hup as [Hup|[Hup _]]; simpl in Hup; (discriminate || lia)).
    all: cbn [mixed].
    all: wr KS p KS q; first [miss | take; unfold periodic_pair;
            rewrite (cond_E_both (fun k l k' l' => M33P lat k l k' l' r s (a p) (a q) (generate_erfcs s (lat_lamb lat)) c mu (dst r))) by (simpl in *; lia); reflexivity | idtac].
    all: wr KO p KS q; first [miss | take; unfold periodic_pair, con_M23P_row; rewrite con_row_condense by (simpl in *; lia); reflexivity | idtac].
    all: wr KU p KS q; first [miss | take; unfold periodic_pair, con_M13P_row; rewrite con_row_condense by (simpl in *; lia); reflexivity | idtac].
    all: wr KO p KO q; first [miss | take; reflexivity | idtac].
    all: wr KU p KO q; first [miss | take; reflexivity | idtac].
    all: wr KU p KU q; take; reflexivity.
  - assert (kvalid Ns Nd KU p /\ kvalid Ns Nd KO p /\ kvalid Ns Nd KS p) as (U1 & U2 & U3) by (simpl; auto).
    assert (kvalid Ns Nd KB q) as W1 by (destruct k2; simpl in V2 |- *; lia).
    assert (k1 <> KB) as N1 by (intros ->; simpl in V1; lia).
    assert (k2 = KB) as -> by (destruct k2; simpl in V2; solve [lia|reflexivity]).
    destruct (Nat.leb_spec Ns q); [|lia].
    destruct (Nat.ltb_spec q (Ns + Nd)); cbn [andb];
    (destruct k1; try congruence; cbn [mixed];
     wr KS p KB q; first [miss | take; unfold periodic_pair, mmul;
        rewrite (cond_E_condense (fun k l => M13P lat j k l (vopp r) s (a p) (a q) c mu (dst (vopp r)))) by (simpl in *; lia); reflexivity | idtac];
     wr KO p KB q; first [miss | take; reflexivity | idtac];
     wr KU p KB q; take; unfold periodic_pair; apply M11P_erfcs).
  - assert (k1 = KB) as -> by (destruct k1; simpl in V1; solve [lia|reflexivity]).
    assert (k2 = KB) as -> by (destruct k2; simpl in V2; solve [lia|reflexivity]).
    simpl in V1, V2.
    destruct (Nat.leb_spec Ns p); [|lia]. destruct (Nat.leb_spec Ns q); [|lia].
    assert (Sd : forall n m, (Nat.eqb n m = same_dumbbell Nd p q) ->
       (bb || Nat.eqb n m)%bool = (bb || same_dumbbell Nd p q)%bool) by (intros n m ->; reflexivity).
    destruct (Nat.leb_spec (Ns + Nd) q);
    destruct (Nat.ltb_spec p (Ns + Nd)); destruct (Nat.ltb_spec q (Ns + Nd)); cbn [andb]; try lia;
    (rewrite Sd by (unfold same_dumbbell;
       repeat match goal with |- context [Nat.eqb ?a ?b] => destruct (Nat.eqb_spec a b) end; simpl; reflexivity || lia);
     destruct (bb || same_dumbbell Nd p q)%bool; [wr KB p KB q; take; reflexivity|exact HX0]).
Qed.

(** p = q. *)
Lemma stepP_own_eq st k1 p k2 i j X :
  kvalid Ns Nd k1 p -> kvalid Ns Nd k2 p -> (i < ksize k1)%nat -> (j < ksize k2)%nat ->
  upper_block k1 p k2 p ->
  ent Ns (step st X (p, p)) k1 p k2 p i j = upper_valP k1 p k2 p i j.
Proof.
  intros V1 V2 Hi Hj Hup. unfold step, minfP_step, upper_valP.
  rewrite geom_self. cbn [fst snd] in *. set (r := vsub (x p) (x p)).
  unfold is_sphere, is_dumbbell_bead_1, is_dumbbell_bead_2.
  pose proof tiny_not_0 as Hs.
  destruct (Nat.ltb_spec p Ns) as [Hp|Hp]; cbn [andb].
  - assert (kvalid Ns Nd KU p /\ kvalid Ns Nd KO p /\ kvalid Ns Nd KS p) as (U1 & U2 & U3) by (simpl; auto).
    assert (k1 <> KB) as N1 by (intros ->; simpl in V1; lia).
    assert (k2 <> KB) as N2 by (intros ->; simpl in V2; lia).
    destruct (Req_EM_T (a p) (a p)) as [_|NE]; [|congruence].
    destruct k1, k2; try congruence; try (destruct Hup as [Hup|[Hup _]]; simpl in Hup; (discriminate || lia)); cbn [mixed].
    + wr KO p KS p; miss; wr KU p KS p; miss; wr KU p KO p; miss.
      wr KS p KS p; miss; wr KO p KS p; miss; wr KU p KS p; miss; wr KO p KO p; miss; wr KU p KO p; miss; wr KU p KU p; take; reflexivity.
    + wr KO p KS p; miss; wr KU p KS p; miss; wr KU p KO p; take.
      unfold mopp. rewrite (mget_block Ns _ _ KU p KO p) by side.
      wr KS p KS p; miss; wr KO p KS p; miss; wr KU p KS p; miss; wr KO p KO p; miss; wr KU p KO p; take.
      unfold periodic_pair. rewrite M12P_small by exact Hs. ring.
    + wr KO p KS p; miss; wr KU p KS p; take.
      unfold mopp. rewrite (mget_block Ns _ _ KU p KS p) by side.
      wr KU p KO p; miss.
      wr KS p KS p; miss; wr KO p KS p; miss; wr KU p KS p; take.
      unfold periodic_pair, con_M13P_row. rewrite con_row_condense by (simpl in *; lia).
      rewrite condense_zero by (intros; apply M13P_small; exact Hs). ring.
    + wr KO p KS p; miss; wr KU p KS p; miss; wr KU p KO p; miss.
      wr KS p KS p; miss; wr KO p KS p; miss; wr KU p KS p; miss; wr KO p KO p; take; reflexivity.
    + wr KO p KS p; take. rewrite (mget_block Ns _ _ KO p KS p) by side.
      wr KU p KS p; miss; wr KU p KO p; miss. wr KS p KS p; miss; wr KO p KS p; take.
      unfold periodic_pair, con_M23P_row. rewrite con_row_condense by (simpl in *; lia). reflexivity.
    + wr KO p KS p; miss; wr KU p KS p; miss; wr KU p KO p; miss.
      wr KS p KS p; take. unfold periodic_pair.
      rewrite (cond_E_both (fun k l k' l' => M33P lat k l k' l' r 0 (a p) (a p) (generate_erfcs 0 (lat_lamb lat)) c mu (dst r))) by (simpl in *; lia).
      reflexivity.
  - assert (k1 = KB) as -> by (destruct k1; simpl in V1; solve [lia|reflexivity]).
    assert (k2 = KB) as -> by (destruct k2; simpl in V2; solve [lia|reflexivity]).
    simpl in V1, V2. rewrite !Nat.eqb_refl. unfold same_dumbbell. rewrite Nat.eqb_refl. cbn [orb]. rewrite !orb_true_r.
    destruct (Nat.leb_spec Ns p); [|lia].
    destruct (Nat.leb_spec (Ns + Nd) p);
    destruct (Nat.ltb_spec p (Ns + Nd)); cbn [andb]; try lia;
    (wr KB p KB p; take; reflexivity).
Qed.

(** p > q: the blocks written at the swapped place by the pair (q, p). *)
Lemma stepP_own_gt st k1 p k2 q i j X :
  kvalid Ns Nd k1 p -> kvalid Ns Nd k2 q -> (i < ksize k1)%nat -> (j < ksize k2)%nat ->
  upper_block k1 p k2 q -> (q < p)%nat ->
  ent Ns (step st X (q, p)) k1 p k2 q i j = upper_valP k1 p k2 q i j.
Proof.
  intros V1 V2 Hi Hj Hup Hpq. unfold step, minfP_step, upper_valP.
  assert (Hs : pair_geometry (x p) (x q) (a p) (a q) =
     (vopp (fst (pair_geometry (x q) (x p) (a q) (a p))), snd (pair_geometry (x q) (x p) (a q) (a p))))
    by apply geom_swap.
  rewrite Hs. clear Hs.
  destruct (pair_geometry (x q) (x p) (a q) (a p)) as [r s]. cbn [fst snd] in *.
  assert (Hk : (krank k1 < krank k2)%nat) by (destruct Hup as [?|[? ?]]; lia).
  assert (p < Ns)%nat as Hp by (destruct k1, k2; simpl in *; lia).
  assert (q < Ns)%nat as Hq by lia.
  unfold is_sphere. rewrite (proj2 (Nat.ltb_lt p Ns) Hp), (proj2 (Nat.ltb_lt q Ns) Hq). cbn [andb].
  assert (kvalid Ns Nd KU p /\ kvalid Ns Nd KO p /\ kvalid Ns Nd KS p) as (U1 & U2 & U3) by (simpl; auto).
  assert (kvalid Ns Nd KU q /\ kvalid Ns Nd KO q /\ kvalid Ns Nd KS q) as (W1 & W2 & W3) by (simpl; auto).
  assert (k2 <> KB) as N2 by (intros ->; simpl in V2; lia).
  assert (p <> q) as Npq by lia.
  destruct k1, k2; simpl in Hk; try lia; try congruence; cbn [mixed].
  - destruct (Req_EM_T (a q) (a p)) as [E|NE].
    + wr KO p KS q; miss; wr KU p KS q; miss; wr KU p KO q; take.
      unfold mopp. rewrite (mget_block Ns _ _ KU q KO p) by side.
      wr KS q KS p; miss; wr KO q KS p; miss; wr KU q KS p; miss; wr KO q KO p; miss; wr KU q KO p; take.
      unfold periodic_pair. rewrite M12P_odd, E. reflexivity.
    + wr KO p KS q; miss; wr KU p KS q; miss; wr KU p KO q; take. reflexivity.
  - destruct (Req_EM_T (a q) (a p)) as [E|NE].
    + wr KO p KS q; miss; wr KU p KS q; take.
      unfold mopp. rewrite (mget_block Ns _ _ KU q KS p) by side. wr KU p KO q; miss.
      wr KS q KS p; miss; wr KO q KS p; miss; wr KU q KS p; take.
      unfold periodic_pair, con_M13P_row; rewrite con_row_condense by (simpl in *; lia);
       rewrite <- condense_opp; apply condense_ext; intros k l Hk' Hl.
       rewrite M13P_odd, E. reflexivity.
    + wr KO p KS q; miss; wr KU p KS q; take.
      unfold periodic_pair, con_M13P_row. rewrite con_row_condense by (simpl in *; lia). reflexivity.
  - destruct (Req_EM_T (a q) (a p)) as [E|NE].
    + wr KO p KS q; take. rewrite (mget_block Ns _ _ KO q KS p) by side.
      wr KU p KS q; miss. wr KU p KO q; miss.
      wr KS q KS p; miss; wr KO q KS p; take;
       unfold periodic_pair, con_M23P_row; rewrite con_row_condense by (simpl in *; lia);
       apply condense_ext; intros k l Hk' Hl.
      rewrite M23P_even, E. reflexivity.
    + wr KO p KS q; take. unfold periodic_pair, con_M23P_row. rewrite con_row_condense by (simpl in *; lia). reflexivity.
Qed.

Variable stale : nat -> nat -> R.
Definition rawP : mat :=
  fold_left (fun M kp => step (stale (fst kp)) M (snd kp)) (number 0 (upper_pairs nb)) mzero.

Lemma number_fold (l : list (nat * nat)) k0 i j v a0 (st : (nat -> R) -> mat -> nat * nat -> mat) M :
  NoDup l -> In a0 l -> M i j = 0 ->
  (forall s X, X i j = 0 -> st s X a0 i j = v) ->
  (forall s a X, In a l -> a <> a0 -> st s X a i j = X i j) ->
  fold_left (fun M kp => st (stale (fst kp)) M (snd kp)) (number k0 l) M i j = v.
Proof.
  revert k0 M. induction l as [|h l IH]; intros k0 M ND Hin HM Hv Ho; [destruct Hin|].
  inversion ND as [|? ? Hh NDl]; subst. simpl number. cbn [fold_left fst snd].
  destruct (natpair_dec h a0) as [->|Hne].
  - assert (Rest : forall k M, fold_left (fun M kp => st (stale (fst kp)) M (snd kp)) (number k l) M i j = M i j).
    { assert (Hl : forall b, In b l -> b <> a0) by (intros b Hb ->; contradiction).
      assert (Ho' : forall s b X, In b l -> st s X b i j = X i j).
      { intros s b X Hb. apply Ho; [right; exact Hb|apply Hl; exact Hb]. }
      clear - Ho'. induction l as [|b l IH]; intros k M; simpl; [reflexivity|].
      rewrite IH; [apply Ho'; left; reflexivity|]. intros s b' X Hb. apply Ho'. right; exact Hb. }
    rewrite Rest. apply Hv. exact HM.
  - apply IH; try assumption.
    + destruct Hin as [->|Hin]; [congruence|exact Hin].
    + rewrite Ho; [exact HM|left; reflexivity|exact Hne].
    + intros s b X Hb. apply Ho. right; exact Hb.
Qed.

Lemma rawP_upper k1 p k2 q i j :
  kvalid Ns Nd k1 p -> kvalid Ns Nd k2 q -> (i < ksize k1)%nat -> (j < ksize k2)%nat ->
  upper_block k1 p k2 q -> ent Ns rawP k1 p k2 q i j = upper_valP k1 p k2 q i j.
Proof.
  intros V1 V2 Hi Hj Hup. unfold rawP, ent.
  pose proof (kvalid_nb Ns Nd _ _ V1) as N1. pose proof (kvalid_nb Ns Nd _ _ V2) as N2.
  apply (number_fold (upper_pairs nb) 0 _ _ _ (pair_of p q) step).
  - apply upper_pairs_nodup.
  - unfold pair_of. apply upper_pairs_in. unfold nb. lia.
  - reflexivity.
  - intros s X HX0. fold (ent Ns (step s X (pair_of p q)) k1 p k2 q i j).
    unfold pair_of. destruct (lt_eq_lt_dec p q) as [[Hlt|<-]|Hgt].
    + rewrite Nat.min_l, Nat.max_r by lia. apply stepP_own_lt; assumption.
    + rewrite Nat.min_id, Nat.max_id. apply stepP_own_eq; assumption.
    + rewrite Nat.min_r, Nat.max_l by lia. apply stepP_own_gt; assumption.
  - intros s [u v] X Hin Hne. apply upper_pairs_in in Hin.
    apply stepP_other; try assumption; lia.
Qed.
End Assembly.
