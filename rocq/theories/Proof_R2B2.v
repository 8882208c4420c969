(** Assembly of the near-field matrix. *)
From Coq Require Import Reals Arith Bool List Lia Lra FunctionalExtensionality.
From Verif Require Import Base Model_Pack Model_Mob Model_Layout Model_Minf Model_Close Model_L Model_R2B
  Spec_Layout Spec_Minf Spec_R2B Spec_Calc Proof_Fold Proof_Layout Proof_Calc Proof_Mob Proof_Mob2
  Proof_Minf Proof_Minf2 Proof_L Proof_R2B.
Import ListNotations.
Local Open Scope R_scope.

(** ** Parity and symmetry of the two-body functions *)
Lemma vopp_prod (d : vec) i j : vopp d i * vopp d j = d i * d j.
Proof. unfold vopp. ring. Qed.
Lemma trans_vopp d i j : trans (vopp d) i j = trans d i j.
Proof. unfold trans. rewrite vopp_prod. reflexivity. Qed.
Lemma dev_vopp d i j : dev (vopp d) i j = dev d i j.
Proof. unfold dev. rewrite vopp_prod. reflexivity. Qed.
Lemma trans_sym d i j : trans d i j = trans d j i.
Proof. unfold trans. rewrite delta_sym. ring. Qed.
Lemma dev_sym d i j : dev d i j = dev d j i.
Proof. unfold dev. rewrite delta_sym. unfold Rdiv. ring. Qed.
Lemma condense_scal c f m : condense_idx (fun k l => c * f k l) m = c * condense_idx f m.
Proof. unfold condense_idx. cbn [rsum]. ring. Qed.

(** +1 or -1 under reflection of the direction. *)
Definition parity (k1 k2 : kind) : R := if Nat.eqb (mrank k1 + mrank k2) 1 then -1
  else if Nat.eqb (mrank k1) 2 then (if Nat.eqb (mrank k2) 0 then -1 else 1) else 1.
Lemma two_body_parity sc k1 k2 d a i j :
  two_body sc k1 k2 (vopp d) a i j = parity k1 k2 * two_body sc k1 k2 d a i j.
Proof.
  destruct k1, k2; unfold two_body, parity; cbn [mrank Nat.add Nat.eqb]; try ring;
  rewrite ?vopp_prod, ?trans_vopp; try ring.
  - cbn [rsum]. unfold vopp. ring.
  - cbn [rsum]. unfold vopp. ring.
  - transitivity (4 * PI * a ^ 2 * (-1 * condense_idx (fun k l : nat => sc 5%nat * (dev d k l * d j) +
      sc 6%nat * (d k * trans d l j + d l * trans d k j)) i)).
    + f_equal. rewrite <- condense_scal. apply condense_ext. intros k l _ _.
      rewrite dev_vopp, !trans_vopp. unfold vopp. ring.
    + ring.
  - transitivity (8 * PI * a ^ 3 * (condense_idx (fun k l => sc 7%nat * (d k * rsum 3 (fun m => levi l j m * d m)
                                           + d l * rsum 3 (fun m => levi k j m * d m))) i)); [|ring].
    f_equal. apply condense_ext. intros k l _ _. cbn [rsum]. unfold vopp. ring.
  - rewrite Rmult_1_l.
    f_equal. apply condense_ext. intros k l _ _. apply condense_ext. intros m n _ _.
    rewrite !dev_vopp, !trans_vopp, !vopp_prod. reflexivity.
  - transitivity (4 * PI * a ^ 2 * (-1 * condense_idx (fun k l : nat => sc 5%nat * (dev d k l * d j) +
      sc 6%nat * (d k * trans d l j + d l * trans d k j)) i)).
    + f_equal. rewrite <- condense_scal. apply condense_ext. intros k l _ _.
      rewrite dev_vopp, !trans_vopp. unfold vopp. ring.
    + ring.
Qed.
(** Diagonal kinds are symmetric. *)
Lemma two_body_sym sc k1 k2 d a i j : mrank k1 = mrank k2 ->
  two_body sc k1 k2 d a i j = two_body sc k2 k1 d a j i.
Proof.
  intros H. destruct k1, k2; simpl in H; try discriminate H; unfold two_body;
  try (rewrite (trans_sym d i j), (Rmult_comm (d i)); reflexivity).
  f_equal. rewrite condense_swap. apply condense_ext. intros k l _ _. apply condense_ext. intros m n _ _.
  f_equal; [f_equal|].
  - f_equal. ring.
  - f_equal. rewrite (trans_sym d n l), (trans_sym d m l), (trans_sym d n k), (trans_sym d m k). ring.
  - f_equal. rewrite (trans_sym d m k), (trans_sym d n l), (trans_sym d n k), (trans_sym d m l). ring.
Qed.

(** ** Sums over neighbours *)
Lemma near_fold_shift l (f : nat -> vec -> R -> mat) M i j :
  fold_left (fun S n => madd S (f (fst (fst n)) (vscal (/ snd n) (snd (fst n))) (snd n))) l M i j =
  M i j + fold_right Rplus 0 (map (fun n => f (fst (fst n)) (vscal (/ snd n) (snd (fst n))) (snd n) i j) l).
Proof.
  revert M. induction l as [|n l IH]; intros M; simpl; [ring|]. rewrite IH. unfold madd. ring.
Qed.
Lemma fold_plus_app l l' : fold_right Rplus 0 (l ++ l') = fold_right Rplus 0 l + fold_right Rplus 0 l'.
Proof. induction l as [|x l IH]; simpl; [ring|]. rewrite IH. ring. Qed.

Lemma near_sum_contact pairs p f i j :
  near_sum (nearby pairs p) f i j = contact_sum pairs p (fun q d s => f q d s i j).
Proof.
  unfold near_sum. rewrite near_fold_shift. unfold mzero. rewrite Rplus_0_l.
  unfold nearby, contact_sum. induction pairs as [|t l IH]; [reflexivity|].
  cbn [flat_map map fold_right]. rewrite map_app, fold_plus_app, IH. f_equal. clear IH.
  unfold contact_term.
  destruct (Nat.eqb_spec (cp1 t) (cp2 t)) as [E|E]; cbn [negb]; rewrite ?andb_false_r, ?andb_true_r; [reflexivity|].
  destruct (Nat.eqb_spec (cp1 t) p) as [E1|E1]; destruct (Nat.eqb_spec (cp2 t) p) as [E2|E2];
    cbn [app map fold_right fst snd]; try congruence; try ring.
Qed.

Lemma contact_sum_ext pairs p f g :
  (forall t, In t pairs -> cp1 t <> cp2 t -> cp1 t = p \/ cp2 t = p -> forall q d s, f q d s = g q d s) ->
  contact_sum pairs p f = contact_sum pairs p g.
Proof.
  intros H. unfold contact_sum. f_equal. apply map_ext_in. intros t Ht. unfold contact_term.
  destruct (Nat.eqb_spec (cp1 t) (cp2 t)); [reflexivity|].
  destruct (Nat.eqb_spec (cp1 t) p); [apply (H t); auto|].
  destruct (Nat.eqb_spec (cp2 t) p); [apply (H t); auto|reflexivity].
Qed.

Section Assembly.
Variables (sc : nat -> nat -> R -> nat -> R) (table : list R) (bb : bool) (a : nat -> R) (Ns Nd : nat)
          (pairs : list cpair).
Let nb := (Ns + 2 * Nd)%nat.
Let ix := lam_ix table.
Let write := r2b_write sc table bb a Ns Nd pairs.

Ltac side := first [assumption | reflexivity | (simpl; lia) | (simpl; f_equal; lia)].
Ltac wr k1 p k2 q :=
  first [ rewrite (mset_block Ns Nd _ _ k1 p k2 q) by side
        | rewrite (mset_rows_block Ns Nd _ _ k1 p k2 q) by side ].
Ltac hit := match goal with
  | |- context [same_block_dec ?a ?b ?c ?d ?e ?f ?g ?h] =>
     destruct (same_block_dec a b c d e f g h) as [(?E & ?E & ?E & ?E)|?NE] end.
Ltac miss := hit; [exfalso; congruence|].
Ltac take := hit; [|exfalso; unfold same_block in *; tauto].

Lemma write_other k1 p k2 q i j t X :
  kvalid Ns Nd k1 p -> kvalid Ns Nd k2 q -> (i < ksize k1)%nat -> (j < ksize k2)%nat ->
  upper_block k1 p k2 q -> (cp1 t <= cp2 t < nb)%nat -> (cp1 t, cp2 t) <> pair_of p q ->
  ent Ns (write X t) k1 p k2 q i j = ent Ns X k1 p k2 q i j.
Proof.
  intros V1 V2 Hi Hj Hup Huv Hne. unfold write, r2b_write, nb in *.
  destruct t as [u v dd ss rt]. cbn [cp1 cp2 cp_disp cp_dist cp_ratio] in *.
  assert (Hd : ~ (u = p /\ v = q) /\ ~ (u = q /\ v = p)).
  { unfold pair_of in Hne. split; intros [-> ->]; apply Hne; f_equal; lia. }
  unfold is_sphere, is_dumbbell_bead_1, is_dumbbell_bead_2.
  destruct (Nat.ltb_spec u Ns) as [Hu|Hu]; destruct (Nat.ltb_spec v Ns) as [Hv|Hv];
    cbn [andb]; try lia.
  - assert (kvalid Ns Nd KU u /\ kvalid Ns Nd KO u /\ kvalid Ns Nd KS u) as (U1 & U2 & U3) by (simpl; auto).
    assert (kvalid Ns Nd KU v /\ kvalid Ns Nd KO v /\ kvalid Ns Nd KS v) as (W1 & W2 & W3) by (simpl; auto).
    destruct (Nat.eqb_spec u v).
    + wr KS u KS v; hit; [subst; tauto|]. wr KO u KS v; hit; [subst; tauto|].
      wr KU u KS v; hit; [subst; tauto|]. wr KO u KO v; hit; [subst; tauto|].
      wr KU u KO v; hit; [subst; tauto|]. wr KU u KU v; hit; [subst; tauto|]. reflexivity.
    + destruct (Req_EM_T rt 1);
      (wr KO v KS u; hit; [subst; tauto|]; wr KU v KS u; hit; [subst; tauto|];
       wr KU v KO u; hit; [subst; tauto|];
       wr KS u KS v; hit; [subst; tauto|]; wr KO u KS v; hit; [subst; tauto|];
       wr KU u KS v; hit; [subst; tauto|]; wr KO u KO v; hit; [subst; tauto|];
       wr KU u KO v; hit; [subst; tauto|]; wr KU u KU v; hit; [subst; tauto|]; reflexivity).
  - assert (kvalid Ns Nd KU u /\ kvalid Ns Nd KO u /\ kvalid Ns Nd KS u) as (U1 & U2 & U3) by (simpl; auto).
    assert (kvalid Ns Nd KB v) as W1 by (simpl; lia).
    destruct (Nat.leb_spec Ns v); [|lia].
    destruct (Nat.ltb_spec v (Ns + Nd)); cbn [andb];
    (wr KS u KB v; hit; [subst; tauto|]; wr KO u KB v; hit; [subst; tauto|];
     wr KU u KB v; hit; [subst; tauto|]; reflexivity).
  - assert (kvalid Ns Nd KB u) as U1 by (simpl; lia).
    assert (kvalid Ns Nd KB v) as W1 by (simpl; lia).
    destruct (Nat.leb_spec Ns u); [|lia]. destruct (Nat.leb_spec Ns v); [|lia].
    destruct (Nat.eqb_spec u v);
    destruct (Nat.leb_spec (Ns + Nd) v);
    destruct (Nat.ltb_spec u (Ns + Nd)); destruct (Nat.ltb_spec v (Ns + Nd)); cbn [andb]; try lia;
    try (destruct bb; [|reflexivity]);
    (wr KB u KB v; hit; [subst; tauto|]; reflexivity).
Qed.

(** Self pair. *)
Definition self_sum k1 k2 p i j : R :=
  contact_sum pairs p (fun q d s => self_block sc ix k1 k2 d s (a p) (a q) i j).

Lemma write_self k1 p k2 i j t X :
  kvalid Ns Nd k1 p -> kvalid Ns Nd k2 p -> (i < ksize k1)%nat -> (j < ksize k2)%nat ->
  upper_block k1 p k2 p -> cp1 t = p -> cp2 t = p ->
  ent Ns (write X t) k1 p k2 p i j = self_sum k1 k2 p i j.
Proof.
  intros V1 V2 Hi Hj Hup E1 E2. unfold write, r2b_write, self_sum. rewrite E1, E2.
  unfold is_sphere, is_dumbbell_bead_1, is_dumbbell_bead_2. rewrite Nat.eqb_refl.
  destruct (Nat.ltb_spec p Ns) as [Hp|Hp]; cbn [andb].
  - assert (kvalid Ns Nd KU p /\ kvalid Ns Nd KO p /\ kvalid Ns Nd KS p) as (U1 & U2 & U3) by (simpl; auto).
    assert (k1 <> KB) as N1 by (intros ->; simpl in V1; lia).
    assert (k2 <> KB) as N2 by (intros ->; simpl in V2; lia).
    destruct k1, k2; try congruence; try (destruct Hup as [Hup|[Hup _]]; simpl in Hup; (discriminate || lia)); simpl in Hi, Hj.
    + wr KS p KS p; miss; wr KO p KS p; miss; wr KU p KS p; miss; wr KO p KO p; miss; wr KU p KO p; miss; wr KU p KU p; take.
      rewrite near_sum_contact. apply contact_sum_ext. intros _ _ _ _ q d s. cbv beta. unfold self_block. cbn [mrank Nat.leb].
      apply Af_spec; reflexivity.
    + wr KS p KS p; miss; wr KO p KS p; miss; wr KU p KS p; miss; wr KO p KO p; miss; wr KU p KO p; take.
      rewrite near_sum_contact. apply contact_sum_ext. intros _ _ _ _ q d s. cbv beta. unfold self_block. cbn [mrank Nat.leb].
      apply Bf_spec; [reflexivity|lia|lia].
    + wr KS p KS p; miss; wr KO p KS p; miss; wr KU p KS p; take.
      rewrite near_sum_contact. apply contact_sum_ext. intros _ _ _ _ q d s. cbv beta. unfold self_block. cbn [mrank Nat.leb].
      apply con_Gf_spec; [reflexivity|lia].
    + wr KS p KS p; miss; wr KO p KS p; miss; wr KU p KS p; miss; wr KO p KO p; take.
      rewrite near_sum_contact. apply contact_sum_ext. intros _ _ _ _ q d s. cbv beta. unfold self_block. cbn [mrank Nat.leb].
      apply Cf_spec.
    + wr KS p KS p; miss; wr KO p KS p; take.
      rewrite near_sum_contact. apply contact_sum_ext. intros _ _ _ _ q d s. cbv beta. unfold self_block. cbn [mrank Nat.leb].
      apply con_Hf_spec; lia.
    + wr KS p KS p; take.
      rewrite near_sum_contact. apply contact_sum_ext. intros _ _ _ _ q d s. cbv beta. unfold self_block. cbn [mrank Nat.leb].
      apply con_Mf_spec; lia.
  - assert (k1 = KB) as -> by (destruct k1; simpl in V1; solve [lia|reflexivity]).
    assert (k2 = KB) as -> by (destruct k2; simpl in V2; solve [lia|reflexivity]).
    simpl in V1, V2.
    destruct (Nat.leb_spec Ns p); [|lia].
    destruct (Nat.leb_spec (Ns + Nd) p);
    destruct (Nat.ltb_spec p (Ns + Nd)); cbn [andb]; try lia;
    (wr KB p KB p; take; rewrite near_sum_contact; apply contact_sum_ext; intros _ _ _ _ q d s; cbv beta;
     unfold self_block; cbn [mrank Nat.leb]; apply Af_spec; reflexivity).
Qed.

(** Pair p < q. *)
Definition pair_val k1 k2 p q t i j : R :=
  match k1, k2, bb with
  | KB, KB, false => 0
  | _, _, _ => cross_block sc ix k1 k2 (vscal (/ cp_dist t) (cp_disp t)) (cp_dist t) (a p) (a q) i j
  end.

Lemma write_lt k1 p k2 q i j t X :
  kvalid Ns Nd k1 p -> kvalid Ns Nd k2 q -> (i < ksize k1)%nat -> (j < ksize k2)%nat ->
  upper_block k1 p k2 q -> (p < q)%nat -> cp1 t = p -> cp2 t = q ->
  cp_ratio t = a q / a p -> a p <> 0 -> a q <> 0 -> ent Ns X k1 p k2 q i j = 0 ->
  ent Ns (write X t) k1 p k2 q i j = pair_val k1 k2 p q t i j.
Proof.
  intros V1 V2 Hi Hj Hup Hpq E1 E2 Er Hap Haq HX. unfold write, r2b_write, pair_val. rewrite E1, E2, Er.
  set (d := vscal (/ cp_dist t) (cp_disp t)). set (s := cp_dist t).
  replace (1 / (a q / a p)) with (a p / a q) by (field; auto).
  unfold is_sphere, is_dumbbell_bead_1, is_dumbbell_bead_2.
  assert (Npq : p <> q) by lia.
  rewrite (proj2 (Nat.eqb_neq p q) Npq).
  destruct (Nat.ltb_spec p Ns) as [Hp|Hp]; destruct (Nat.ltb_spec q Ns) as [Hq|Hq];
    cbn [andb]; try lia.
  - assert (kvalid Ns Nd KU p /\ kvalid Ns Nd KO p /\ kvalid Ns Nd KS p) as (U1 & U2 & U3) by (simpl; auto).
    assert (kvalid Ns Nd KU q /\ kvalid Ns Nd KO q /\ kvalid Ns Nd KS q) as (W1 & W2 & W3) by (simpl; auto).
    assert (k1 <> KB) as N1 by (intros ->; simpl in V1; lia).
    assert (k2 <> KB) as N2 by (intros ->; simpl in V2; lia).
    destruct (Req_EM_T (a q / a p) 1).
    1: wr KO q KS p; miss; wr KU q KS p; miss; wr KU q KO p; miss.
    2: wr KO q KS p; miss; wr KU q KS p; miss; wr KU q KO p; miss.
    all: destruct k1, k2; try congruence; try (destruct Hup as [Hup|[Hup _]]; simpl in Hup; (discriminate || lia)); simpl in Hi, Hj.
    all: unfold cross_block; cbn [mrank Nat.leb].
    all: wr KS p KS q; first [miss | take; apply con_Mf_spec; lia | idtac].
    all: wr KO p KS q; first [miss | take; apply con_Hf_spec; lia | idtac].
    all: wr KU p KS q; first [miss | take; apply con_Gf_spec; [reflexivity|lia] | idtac].
    all: wr KO p KO q; first [miss | take; apply Cf_spec | idtac].
    all: wr KU p KO q; first [miss | take; apply Bf_spec; [reflexivity|lia|lia] | idtac].
    all: wr KU p KU q; take; apply Af_spec; reflexivity.
  - assert (kvalid Ns Nd KU p /\ kvalid Ns Nd KO p /\ kvalid Ns Nd KS p) as (U1 & U2 & U3) by (simpl; auto).
    assert (kvalid Ns Nd KB q) as W1 by (destruct k2; simpl in V2 |- *; lia).
    assert (k1 <> KB) as N1 by (intros ->; simpl in V1; lia).
    assert (k2 = KB) as -> by (destruct k2; simpl in V2; solve [lia|reflexivity]).
    destruct (Nat.leb_spec Ns q); [|lia].
    destruct (Nat.ltb_spec q (Ns + Nd)); cbn [andb];
    (destruct k1; try congruence; simpl in Hi, Hj; unfold cross_block; cbn [mrank Nat.leb];
     wr KS p KB q; first [miss | take; apply con_Gf_mat_spec; [reflexivity|lia] | idtac];
     wr KO p KB q; first [miss | take; apply Bf_spec; [reflexivity|lia|lia] | idtac];
     wr KU p KB q; take; apply Af_spec; reflexivity).
  - assert (k1 = KB) as -> by (destruct k1; simpl in V1; solve [lia|reflexivity]).
    assert (k2 = KB) as -> by (destruct k2; simpl in V2; solve [lia|reflexivity]).
    simpl in V1, V2.
    destruct (Nat.leb_spec Ns p); [|lia]. destruct (Nat.leb_spec Ns q); [|lia].
    destruct (Nat.leb_spec (Ns + Nd) q);
    destruct (Nat.ltb_spec p (Ns + Nd)); destruct (Nat.ltb_spec q (Ns + Nd)); cbn [andb]; try lia;
    (destruct bb; [wr KB p KB q; take; apply Af_spec; reflexivity|exact HX]).
Qed.

(** Pair q < p: the blocks at the swapped place. *)
Definition pair_val_swapped k1 k2 p q t i j : R :=
  cross_block sc ix k1 k2 (vopp (vscal (/ cp_dist t) (cp_disp t))) (cp_dist t) (a p) (a q) i j.

Lemma write_gt k1 p k2 q i j t X :
  kvalid Ns Nd k1 p -> kvalid Ns Nd k2 q -> (i < ksize k1)%nat -> (j < ksize k2)%nat ->
  upper_block k1 p k2 q -> (q < p)%nat -> cp1 t = q -> cp2 t = p ->
  cp_ratio t = a p / a q -> a p <> 0 -> a q <> 0 ->
  ent Ns (write X t) k1 p k2 q i j = pair_val_swapped k1 k2 p q t i j.
Proof.
  intros V1 V2 Hi Hj Hup Hpq E1 E2 Er Hap Haq. unfold write, r2b_write, pair_val_swapped. rewrite E1, E2, Er.
  set (d := vscal (/ cp_dist t) (cp_disp t)). set (s := cp_dist t).
  replace (1 / (a p / a q)) with (a q / a p) by (field; auto).
  assert (Hk : (krank k1 < krank k2)%nat) by (destruct Hup as [?|[? ?]]; lia).
  assert (p < Ns)%nat as Hp by (destruct k1, k2; simpl in *; lia).
  assert (q < Ns)%nat as Hq by lia.
  assert (Npq : p <> q) by lia.
  unfold is_sphere. rewrite (proj2 (Nat.ltb_lt p Ns) Hp), (proj2 (Nat.ltb_lt q Ns) Hq). cbn [andb].
  assert (Nqp : q <> p) by lia. rewrite (proj2 (Nat.eqb_neq q p) Nqp).
  assert (kvalid Ns Nd KU p /\ kvalid Ns Nd KO p /\ kvalid Ns Nd KS p) as (U1 & U2 & U3) by (simpl; auto).
  assert (kvalid Ns Nd KU q /\ kvalid Ns Nd KO q /\ kvalid Ns Nd KS q) as (W1 & W2 & W3) by (simpl; auto).
  assert (k2 <> KB) as N2 by (intros ->; simpl in V2; lia).
  assert (Heq : a p / a q = 1 -> a p = a q).
  { intros H. replace (a p) with (a p / a q * a q) by (field; auto). rewrite H. ring. }
  unfold cross_block.
  destruct k1, k2; simpl in Hk; try lia; try congruence; cbn [mrank Nat.leb]; simpl in Hi, Hj;
  rewrite vopp_vopp.
  - destruct (Req_EM_T (a p / a q) 1) as [E|NE].
    + wr KO p KS q; miss; wr KU p KS q; miss; wr KU p KO q; take.
      unfold mopp. rewrite (mget_block Ns _ _ KU q KO p) by side.
      wr KS q KS p; miss; wr KO q KS p; miss; wr KU q KS p; miss; wr KO q KO p; miss; wr KU q KO p; take.
      rewrite (Heq E). fold ix. rewrite (Bf_spec sc KU) by (reflexivity || lia).
      rewrite two_body_parity. unfold parity; simpl. ring.
    + wr KO p KS q; miss; wr KU p KS q; miss; wr KU p KO q; take.
      apply Bf_spec; [reflexivity|lia|lia].
  - destruct (Req_EM_T (a p / a q) 1) as [E|NE].
    + wr KO p KS q; miss; wr KU p KS q; take.
      unfold mopp. rewrite (mget_block Ns _ _ KU q KS p) by side. wr KU p KO q; miss.
      wr KS q KS p; miss; wr KO q KS p; miss; wr KU q KS p; take.
      rewrite (Heq E). fold ix. rewrite (con_Gf_spec sc KU) by (reflexivity || lia).
      rewrite two_body_parity. unfold parity; simpl. ring.
    + wr KO p KS q; miss; wr KU p KS q; take.
      apply con_Gf_spec; [reflexivity|lia].
  - destruct (Req_EM_T (a p / a q) 1) as [E|NE].
    + wr KO p KS q; take. rewrite (mget_block Ns _ _ KO q KS p) by side.
      wr KU p KS q; miss. wr KU p KO q; miss.
      wr KS q KS p; miss; wr KO q KS p; take.
      rewrite (Heq E). fold ix. rewrite (con_Hf_spec sc) by lia.
      rewrite two_body_parity. unfold parity; simpl. ring.
    + wr KO p KS q; take. apply con_Hf_spec; lia.
Qed.
End Assembly.
