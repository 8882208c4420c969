(** The whole near-field matrix. *)
From Coq Require Import Reals Arith Bool List Lia Lra FunctionalExtensionality.
From Verif Require Import Base Model_Pack Model_Mob Model_Layout Model_Minf Model_Close Model_L Model_R2B
  Spec_Layout Spec_Minf Spec_R2B Spec_Calc Proof_Fold Proof_Layout Proof_Calc Proof_Mob Proof_Mob2
  Proof_Minf Proof_Minf2 Proof_L Proof_Minf3 Proof_R2B Proof_R2B2.
Import ListNotations.
Local Open Scope R_scope.

Definition key (t : cpair) : nat * nat := (cp1 t, cp2 t).

Lemma key_inj l t t' : NoDup (map key l) -> In t l -> In t' l -> key t = key t' -> t = t'.
Proof.
  induction l as [|u l IH]; intros Hnd H H' E; [destruct H|].
  simpl in Hnd. inversion Hnd as [|? ? Hu Hl]; subst.
  destruct H as [<-|H], H' as [<-|H']; try reflexivity.
  - exfalso. apply Hu. rewrite E. apply in_map. exact H'.
  - exfalso. apply Hu. rewrite <- E. apply in_map. exact H.
  - apply IH; assumption.
Qed.
Lemma NoDup_of_map {A B} (f : A -> B) l : NoDup (map f l) -> NoDup l.
Proof. apply NoDup_map_inv. Qed.

Lemma sum_zero {A} (f : A -> R) l : (forall t, In t l -> f t = 0) -> fold_right Rplus 0 (map f l) = 0.
Proof.
  induction l as [|u l IH]; intros H; simpl; [reflexivity|].
  rewrite (H u (or_introl eq_refl)), IH; [ring|]. intros t Ht. apply H. right; exact Ht.
Qed.
Lemma sum_single {A} (f : A -> R) l t : NoDup l -> In t l -> (forall t', In t' l -> t' <> t -> f t' = 0) ->
  fold_right Rplus 0 (map f l) = f t.
Proof.
  induction l as [|u l IH]; intros Hnd Hin H; [destruct Hin|].
  inversion Hnd as [|? ? Hu Hl]; subst. simpl. destruct Hin as [->|Hin].
  - rewrite sum_zero; [ring|]. intros t' Ht'. apply H; [right; exact Ht'|]. intros ->. contradiction.
  - rewrite (IH Hl Hin (fun t' Ht' => H t' (or_intror Ht'))).
    rewrite (H u); [ring|left; reflexivity|]. intros ->. contradiction.
Qed.

Lemma fold_step_some sc table bb a Ns Nd pairs l M :
  fold_left (r2b_step sc table bb a Ns Nd pairs) l (Some M) =
  if forallb (lookups_ok table a pairs) l then Some (fold_left (r2b_write sc table bb a Ns Nd pairs) l M) else None.
Proof.
  revert M. induction l as [|t l IH]; intros M; [reflexivity|]. simpl.
  destruct (lookups_ok table a pairs t); cbn [andb]; [apply IH|].
  clear IH. induction l as [|u l IH]; [reflexivity|exact IH].
Qed.

Lemma loop_some sc table bb a Ns Nd pairs :
  generate_R2Bexact_loop sc table bb a Ns Nd pairs =
  if forallb (lookups_ok table a pairs) pairs
  then Some (symmetrise (fold_left (r2b_write sc table bb a Ns Nd pairs) pairs mzero)) else None.
Proof.
  unfold generate_R2Bexact_loop. rewrite fold_step_some.
  destruct (forallb _ _); reflexivity.
Qed.

Lemma symmetrise_sym n M : msym n (symmetrise M).
Proof.
  intros i j _ _. unfold symmetrise.
  destruct (lt_eq_lt_dec i j) as [[H| ->]|H].
  - rewrite (proj2 (Nat.leb_le i j)), (proj2 (Nat.leb_gt j i)), (proj2 (Nat.ltb_ge j i)), (proj2 (Nat.ltb_lt i j)) by lia. ring.
  - reflexivity.
  - rewrite (proj2 (Nat.leb_le j i)), (proj2 (Nat.leb_gt i j)), (proj2 (Nat.ltb_ge i j)), (proj2 (Nat.ltb_lt j i)) by lia. ring.
Qed.

(** Which look-ups fail. *)
Lemma near_found a pairs nb p q d s :
  close_list nb a pairs -> (forall p, (p < nb)%nat -> 0 < a p) ->
  In (q, d, s) (nearby pairs p) ->
  exists t, In t pairs /\ (a q / a p = cp_ratio t \/ a q / a p = 1 / cp_ratio t).
Proof.
  intros (Hnd & Hl & _) Ha H. unfold nearby in H. apply in_flat_map in H. destruct H as (t & Ht & H).
  destruct (Hl t Ht) as [Hlt Hr]. exists t. split; [exact Ht|]. rewrite Hr.
  assert (A1 : 0 < a (cp1 t)) by (apply Ha; lia). assert (A2 : 0 < a (cp2 t)) by (apply Ha; lia).
  apply in_app_iff in H. destruct H as [H|H].
  - destruct (Nat.eqb_spec (cp1 t) p) as [E|]; simpl in H; [|destruct H].
    destruct (Nat.eqb (cp1 t) (cp2 t)); simpl in H; [destruct H|].
    destruct H as [H|[]]. injection H as <- _ _. subst p. left. reflexivity.
  - destruct (Nat.eqb_spec (cp2 t) p) as [E|]; simpl in H; [|destruct H].
    destruct (Nat.eqb (cp1 t) (cp2 t)); simpl in H; [destruct H|].
    destruct H as [H|[]]. injection H as <- _ _. subst p. right. field. lra.
Qed.

Lemma loop_fails_iff sc table bb a Ns Nd pairs nb :
  close_list nb a pairs -> (forall p, (p < nb)%nat -> 0 < a p) ->
  (generate_R2Bexact_loop sc table bb a Ns Nd pairs = None <->
   exists t, In t pairs /\ (lam_index table (cp_ratio t) = None \/ lam_index table (1 / cp_ratio t) = None)).
Proof.
  intros Hc Ha. rewrite loop_some.
  assert (F : forall lam, found table lam = false <-> lam_index table lam = None).
  { intros lam. unfold found. destruct (lam_index table lam); split; congruence. }
  destruct (forallb (lookups_ok table a pairs) pairs) eqn:E.
  - split; [discriminate|]. intros (t & Ht & H). exfalso.
    rewrite forallb_forall in E. specialize (E t Ht). unfold lookups_ok in E.
    apply andb_true_iff in E. destruct E as [E _]. apply andb_true_iff in E. destruct E as [E1 E2].
    destruct H as [H|H]; apply F in H; congruence.
  - split; [intros _|reflexivity].
    assert (G : exists t, In t pairs /\ lookups_ok table a pairs t = false).
    { clear -E. induction pairs as [|t l IH] using list_ind; [discriminate|].
      clear IH. remember (lookups_ok table a (t :: l)) as f. clear Heqf.
      revert E. generalize (t :: l) as l'. induction l' as [|u l' IH]; intros E; [discriminate|].
      simpl in E. destruct (f u) eqn:Eu.
      - destruct (IH E) as (w & Hw & Hf). exists w. split; [right; exact Hw|exact Hf].
      - exists u. split; [left; reflexivity|exact Eu]. }
    destruct G as (t & Ht & H). unfold lookups_ok in H.
    destruct (found table (cp_ratio t)) eqn:F1; [|exists t; split; [exact Ht|left; apply F; exact F1]].
    destruct (found table (1 / cp_ratio t)) eqn:F2; [|exists t; split; [exact Ht|right; apply F; exact F2]].
    cbn [andb] in H. destruct (Nat.eqb (cp1 t) (cp2 t)); [|discriminate].
    assert (G : exists n, In n (nearby pairs (cp1 t)) /\ found table (a (fst (fst n)) / a (cp1 t)) = false).
    { revert H. generalize (nearby pairs (cp1 t)) as l'. induction l' as [|u l' IH]; intros E'; [discriminate|].
      simpl in E'. destruct (found table (a (fst (fst u)) / a (cp1 t))) eqn:Eu.
      - destruct (IH E') as (w & Hw & Hf). exists w. split; [right; exact Hw|exact Hf].
      - exists u. split; [left; reflexivity|exact Eu]. }
    destruct G as ([[q d] s] & Hn & Hf). cbn [fst] in Hf.
    destruct (near_found a pairs nb _ _ _ _ Hc Ha Hn) as (t' & Ht' & [Er|Er]); rewrite Er in Hf;
      exists t'; (split; [exact Ht'|]); [left|right]; apply F; exact Hf.
Qed.

(** ** Contact sums *)
Lemma contact_swap_term p q (f : vec -> R -> R) t :
  contact_term p (fun q' d s => if Nat.eqb q' q then f d s else 0) t =
  contact_term q (fun p' d s => if Nat.eqb p' p then f (vopp d) s else 0) t.
Proof.
  unfold contact_term.
  destruct (Nat.eqb_spec (cp1 t) (cp2 t)) as [E|E]; [reflexivity|].
  assert (H1 : forall c r, vopp (vscal c (vopp r)) = vscal c r).
  { intros c r. apply functional_extensionality. intros i. unfold vopp, vscal. ring. }
  assert (H2 : forall c r, vopp (vscal c r) = vscal c (vopp r)).
  { intros c r. apply functional_extensionality. intros i. unfold vopp, vscal. ring. }
  destruct (Nat.eqb_spec (cp1 t) p) as [E1|E1], (Nat.eqb_spec (cp2 t) q) as [E2|E2],
           (Nat.eqb_spec (cp1 t) q) as [E3|E3], (Nat.eqb_spec (cp2 t) p) as [E4|E4];
    try congruence; try reflexivity; rewrite ?H1, ?H2; reflexivity.
Qed.
Lemma contact_swap pairs p q f :
  contact_sum pairs p (fun q' d s => if Nat.eqb q' q then f d s else 0) =
  contact_sum pairs q (fun p' d s => if Nat.eqb p' p then f (vopp d) s else 0).
Proof. unfold contact_sum. f_equal. apply map_ext. intros t. apply contact_swap_term. Qed.

Lemma contact_none pairs p q f : ~ in_contact pairs p q ->
  contact_sum pairs p (fun q' d s => if Nat.eqb q' q then f d s else 0) = 0.
Proof.
  intros H. apply sum_zero. intros t Ht. unfold contact_term.
  destruct (Nat.eqb_spec (cp1 t) (cp2 t)) as [E|E]; [reflexivity|].
  destruct (Nat.eqb_spec (cp1 t) p) as [E1|E1].
  - destruct (Nat.eqb_spec (cp2 t) q) as [E2|E2]; [|reflexivity].
    exfalso. apply H. exists t. auto.
  - destruct (Nat.eqb_spec (cp2 t) p) as [E2|E2]; [|reflexivity].
    destruct (Nat.eqb_spec (cp1 t) q) as [E3|E3]; [|reflexivity].
    exfalso. apply H. exists t. auto.
Qed.
Lemma contact_one pairs p q f t : NoDup (map key pairs) ->
  (forall t, In t pairs -> (cp1 t <= cp2 t)%nat) -> In t pairs -> p <> q ->
  (cp1 t = p /\ cp2 t = q) \/ (cp1 t = q /\ cp2 t = p) ->
  contact_sum pairs p (fun q' d s => if Nat.eqb q' q then f d s else 0) =
  if Nat.eqb (cp1 t) p then f (vscal (/ cp_dist t) (cp_disp t)) (cp_dist t)
  else f (vscal (/ cp_dist t) (vopp (cp_disp t))) (cp_dist t).
Proof.
  intros Hnd Hle Ht Hpq Hor. unfold contact_sum. rewrite (sum_single _ pairs t).
  - unfold contact_term. destruct Hor as [[-> ->]|[-> ->]].
    + rewrite (proj2 (Nat.eqb_neq p q) Hpq), !Nat.eqb_refl. reflexivity.
    + assert (Hqp : q <> p) by congruence.
      rewrite (proj2 (Nat.eqb_neq q p) Hqp), !Nat.eqb_refl. reflexivity.
  - apply (NoDup_map_inv key). exact Hnd.
  - exact Ht.
  - intros t' Ht' Hne. unfold contact_term.
    destruct (Nat.eqb_spec (cp1 t') (cp2 t')) as [E|E]; [reflexivity|].
    assert (K : key t' <> key t) by (intros K; apply Hne; apply (key_inj pairs); assumption).
    unfold key in K. pose proof (Hle t Ht). pose proof (Hle t' Ht').
    destruct (Nat.eqb_spec (cp1 t') p) as [E1|E1].
    + destruct (Nat.eqb_spec (cp2 t') q) as [E2|E2]; [|reflexivity].
      exfalso. apply K. destruct Hor as [[F1 F2]|[F1 F2]]; f_equal; lia.
    + destruct (Nat.eqb_spec (cp2 t') p) as [E2|E2]; [|reflexivity].
      destruct (Nat.eqb_spec (cp1 t') q) as [E3|E3]; [|reflexivity].
      exfalso. apply K. destruct Hor as [[F1 F2]|[F1 F2]]; f_equal; lia.
Qed.

Section Whole.
Variables (sc : nat -> nat -> R -> nat -> R) (table : list R) (bb : bool) (a : nat -> R) (Ns Nd : nat)
          (pairs : list cpair).
Let nb := (Ns + 2 * Nd)%nat.
Let N := (11 * Ns + 6 * Nd)%nat.
Let ix := lam_ix table.
Hypothesis Hc : close_list nb a pairs.
Hypothesis Ha : forall p, (p < nb)%nat -> 0 < a p.
Let raw := fold_left (r2b_write sc table bb a Ns Nd pairs) pairs mzero.
Let M := symmetrise raw.

Lemma in_contact_dec p q : in_contact pairs p q \/ ~ in_contact pairs p q.
Proof.
  unfold in_contact. clear. induction pairs as [|t l IH].
  - right. intros (t & [] & _).
  - destruct IH as [(u & Hu & H)|IH]; [left; exists u; split; [right; exact Hu|exact H]|].
    destruct (Nat.eq_dec (cp1 t) p), (Nat.eq_dec (cp2 t) q), (Nat.eq_dec (cp1 t) q), (Nat.eq_dec (cp2 t) p);
    first [ left; exists t; split; [left; reflexivity|]; tauto
          | right; intros (u & [<-|Hu] & H); [tauto|]; apply IH; exists u; auto ].
Qed.

Lemma r2b_raw_upper k1 p k2 q i j :
  kvalid Ns Nd k1 p -> kvalid Ns Nd k2 q -> (i < ksize k1)%nat -> (j < ksize k2)%nat ->
  upper_block k1 p k2 q -> ent Ns raw k1 p k2 q i j = bead_resistance sc ix bb a pairs k1 p k2 q i j.
Proof.
  intros V1 V2 Hi Hj Hup. destruct Hc as (Hnd & Hl & Hself).
  pose proof (kvalid_nb Ns Nd _ _ V1) as P1. pose proof (kvalid_nb Ns Nd _ _ V2) as P2.
  assert (Hnd' : NoDup pairs) by (apply (NoDup_map_inv key); exact Hnd).
  assert (Hle : forall t, In t pairs -> (cp1 t <= cp2 t)%nat) by (intros t Ht; destruct (Hl t Ht); lia).
  assert (Hother : forall t0, In t0 pairs -> key t0 = pair_of p q -> forall t X, In t pairs -> t <> t0 ->
     ent Ns (r2b_write sc table bb a Ns Nd pairs X t) k1 p k2 q i j = ent Ns X k1 p k2 q i j).
  { intros t0 Ht0 K t X Ht Hne. apply write_other; try assumption.
    - destruct (Hl t Ht). assumption.
    - intros K'. apply Hne. apply (key_inj pairs); try assumption. rewrite K. exact K'. }
  unfold bead_resistance.
  destruct (Nat.eqb_spec p q) as [<-|Hpq].
  - destruct (Hself p P1) as (t0 & Ht0 & E1 & E2).
    unfold raw, ent. apply (fold_once _ _ _ _ _ 0 _ t0 Hnd' Ht0 eq_refl).
    + intros X _. apply (write_self sc table bb a Ns Nd pairs k1 p k2 i j t0 X); assumption.
    + intros t X Ht Hne. apply (Hother t0 Ht0); try assumption. unfold key, pair_of. rewrite E1, E2. f_equal; lia.
  - destruct (in_contact_dec p q) as [(t0 & Ht0 & Hor)|Hno].
    + assert (K : key t0 = pair_of p q).
      { unfold key, pair_of. pose proof (Hle t0 Ht0). destruct Hor as [[E1 E2]|[E1 E2]]; f_equal; lia. }
      assert (A1 : a p <> 0) by (specialize (Ha p P1); lra). assert (A2 : a q <> 0) by (specialize (Ha q P2); lra).
      destruct (Hl t0 Ht0) as [_ Hr].
      unfold raw, ent. apply (fold_once _ _ _ _ _ 0 _ t0 Hnd' Ht0 eq_refl).
      * intros X HX. destruct Hor as [[E1 E2]|[E1 E2]].
        -- assert (Hlt : (p < q)%nat) by (pose proof (Hle t0 Ht0); lia). rewrite E1, E2 in Hr.
           refine (eq_trans (write_lt sc table bb a Ns Nd pairs k1 p k2 q i j t0 X V1 V2 Hi Hj Hup Hlt E1 E2 Hr A1 A2 HX) _).
           unfold pair_val.
           rewrite (contact_one pairs p q (fun d s => cross_block sc ix k1 k2 d s (a p) (a q) i j) t0) by (try assumption; auto).
           rewrite E1, Nat.eqb_refl. reflexivity.
        -- assert (Hlt : (q < p)%nat) by (pose proof (Hle t0 Ht0); lia). rewrite E1, E2 in Hr.
           refine (eq_trans (write_gt sc table bb a Ns Nd pairs k1 p k2 q i j t0 X V1 V2 Hi Hj Hup Hlt E1 E2 Hr A1 A2) _).
           unfold pair_val_swapped.
           rewrite (contact_one pairs p q (fun d s => cross_block sc ix k1 k2 d s (a p) (a q) i j) t0) by (try assumption; auto).
           rewrite E1. rewrite (proj2 (Nat.eqb_neq q p)) by congruence.
           replace (vopp (vscal (/ cp_dist t0) (cp_disp t0))) with (vscal (/ cp_dist t0) (vopp (cp_disp t0)))
             by (apply functional_extensionality; intros l; unfold vopp, vscal; ring).
           assert (NK : ~ (k1 = KB /\ k2 = KB)).
           { intros [-> ->]. unfold upper_block in Hup. simpl in Hup. lia. }
           destruct k1, k2, bb; try reflexivity; tauto.
      * intros t X Ht Hne. apply (Hother t0 Ht0); assumption.
    + replace (match k1, k2, bb with KB, KB, false => 0 | _, _, _ => contact_sum pairs p (fun q' d s =>
          if Nat.eqb q' q then cross_block sc ix k1 k2 d s (a p) (a q) i j else 0) end) with 0.
      2:{ rewrite (contact_none pairs p q (fun d s => cross_block sc ix k1 k2 d s (a p) (a q) i j) Hno).
          destruct k1, k2, bb; reflexivity. }
      unfold raw, ent. rewrite fold_none; [reflexivity|].
      intros t X Ht. apply (write_other sc table bb a Ns Nd pairs k1 p k2 q i j t X); try assumption.
      * destruct (Hl t Ht). assumption.
      * intros K. apply Hno. exists t. split; [exact Ht|]. unfold pair_of in K. injection K as K1 K2. lia.
Qed.

Lemma r2b_upper k1 p k2 q i j :
  kvalid Ns Nd k1 p -> kvalid Ns Nd k2 q -> (i < ksize k1)%nat -> (j < ksize k2)%nat ->
  (kstart Ns k1 p + i <= kstart Ns k2 q + j)%nat ->
  ent Ns M k1 p k2 q i j = bead_resistance sc ix bb a pairs k1 p k2 q i j.
Proof.
  intros V1 V2 Hi Hj Hle. unfold ent, M, symmetrise.
  rewrite (proj2 (Nat.leb_le _ _) Hle), (proj2 (Nat.ltb_ge _ _) Hle), Rplus_0_r.
  apply r2b_raw_upper; try assumption. unfold upper_block.
  destruct (lt_eq_lt_dec (krank k1) (krank k2)) as [[H|H]|H].
  - left; exact H.
  - right. assert (E : k1 = k2) by (destruct k1, k2; simpl in H; congruence). split; [exact E|].
    destruct (le_lt_dec p q) as [?|Hqp]; [assumption|].
    pose proof (block_order Ns Nd k2 q j k1 p i V2 V1 Hj Hi (or_intror (conj (eq_sym E) Hqp))). lia.
  - pose proof (block_order Ns Nd k2 q j k1 p i V2 V1 Hj Hi (or_introl H)). lia.
Qed.

Lemma self_block_swap k1 k2 d s ap aq i j :
  self_block sc ix k2 k1 d s ap aq j i = self_block sc ix k1 k2 d s ap aq i j.
Proof.
  unfold self_block. destruct (lt_eq_lt_dec (mrank k1) (mrank k2)) as [[H|H]|H].
  - rewrite (proj2 (Nat.leb_le _ _)), (proj2 (Nat.leb_gt _ _)) by lia. reflexivity.
  - rewrite !(proj2 (Nat.leb_le _ _)) by lia. symmetry. apply two_body_sym. exact H.
  - rewrite (proj2 (Nat.leb_gt _ _)), (proj2 (Nat.leb_le _ _)) by lia. reflexivity.
Qed.

Lemma cross_block_swap k1 k2 d s ap aq i j :
  mrank k1 <> mrank k2 \/ reciprocal_scalars sc ix s ap aq ->
  cross_block sc ix k2 k1 (vopp d) s aq ap j i = cross_block sc ix k1 k2 d s ap aq i j.
Proof.
  intros Hor. unfold cross_block. destruct (lt_eq_lt_dec (mrank k1) (mrank k2)) as [[H|H]|H].
  - rewrite (proj2 (Nat.leb_le _ _)), (proj2 (Nat.leb_gt _ _)) by lia. reflexivity.
  - rewrite !(proj2 (Nat.leb_le _ _)) by lia.
    destruct Hor as [Hor|[R1 R3]]; [congruence|].
    rewrite two_body_parity, (two_body_sym _ k2 k1) by congruence.
    assert (parity k2 k1 = 1) as -> by (destruct k1, k2; simpl in H; try discriminate; reflexivity).
    rewrite Rmult_1_l.
    destruct k1, k2; simpl in H; try discriminate; unfold two_body;
    try (pose proof (R1 0%nat ltac:(lia)) as X0; pose proof (R1 1%nat ltac:(lia)) as X1;
         transitivity (6 * PI * ((aq * sc 0%nat 1%nat s (ix (ap / aq))) * (d i * d j) + (aq * sc 1%nat 1%nat s (ix (ap / aq))) * trans d i j));
         [ring|]; rewrite <- X0, <- X1; ring).
    + pose proof (R3 3%nat ltac:(lia)) as X0; pose proof (R3 4%nat ltac:(lia)) as X1.
      transitivity (8 * PI * ((aq ^ 3 * sc 3%nat 1%nat s (ix (ap / aq))) * (d i * d j) + (aq ^ 3 * sc 4%nat 1%nat s (ix (ap / aq))) * trans d i j));
         [ring|]; rewrite <- X0, <- X1; ring.
    + pose proof (R3 8%nat ltac:(lia)) as X0; pose proof (R3 9%nat ltac:(lia)) as X1; pose proof (R3 10%nat ltac:(lia)) as X2.
      assert (G : forall A (T : nat -> nat -> nat -> nat -> R),
        20 / 3 * PI * A * condense_idx (fun k l => condense_idx (fun m n => T k l m n) j) i =
        20 / 3 * PI * condense_idx (fun k l => condense_idx (fun m n => A * T k l m n) j) i).
      { intros A T. unfold condense_idx. cbn [rsum]. ring. }
      rewrite !G. f_equal. apply condense_ext. intros k l _ _. apply condense_ext. intros m n _ _.
      rewrite !Rmult_plus_distr_l, <- !Rmult_assoc, <- X0, <- X1, <- X2. reflexivity.
  - rewrite (proj2 (Nat.leb_gt _ _)), (proj2 (Nat.leb_le _ _)), vopp_vopp by lia. reflexivity.
Qed.

Lemma contact_ext_in p q (f g : vec -> R -> R) :
  (forall t, In t pairs -> in_contact pairs p q -> forall d s, s = cp_dist t -> f d s = g d s) -> p <> q ->
  contact_sum pairs p (fun q' d s => if Nat.eqb q' q then f d s else 0) =
  contact_sum pairs p (fun q' d s => if Nat.eqb q' q then g d s else 0).
Proof.
  intros H Hpq. destruct Hc as (Hnd & Hl & _).
  destruct (in_contact_dec p q) as [Hin|Hno]; [|rewrite !contact_none by exact Hno; reflexivity].
  pose proof Hin as (t & Ht & Hor).
  assert (Hle : forall t, In t pairs -> (cp1 t <= cp2 t)%nat) by (intros u Hu; destruct (Hl u Hu); lia).
  rewrite !(contact_one pairs p q _ t) by assumption.
  rewrite !(H t Ht Hin _ _ eq_refl). reflexivity.
Qed.

Lemma bead_resistance_swap k1 p k2 q i j :
  (mrank k1 <> mrank k2 \/ p = q \/
   forall t, In t pairs -> (cp1 t = p /\ cp2 t = q) \/ (cp1 t = q /\ cp2 t = p) ->
      reciprocal_scalars sc ix (cp_dist t) (a p) (a q)) ->
  bead_resistance sc ix bb a pairs k2 q k1 p j i = bead_resistance sc ix bb a pairs k1 p k2 q i j.
Proof.
  intros Hor. unfold bead_resistance. rewrite (Nat.eqb_sym q p).
  destruct (Nat.eqb_spec p q) as [<-|Hpq].
  - apply contact_sum_ext. intros _ _ _ _ q' d s. apply self_block_swap.
  - assert (E : contact_sum pairs q (fun q' d s => if Nat.eqb q' p then cross_block sc ix k2 k1 d s (a q) (a p) j i else 0)
       = contact_sum pairs p (fun q' d s => if Nat.eqb q' q then cross_block sc ix k1 k2 d s (a p) (a q) i j else 0)).
    { rewrite (contact_swap pairs q p (fun d s => cross_block sc ix k2 k1 d s (a q) (a p) j i)).
      destruct (in_contact_dec p q) as [(t & Ht & Ht')|Hno].
      - destruct Hc as (Hnd & Hl & _).
        assert (Hle : forall t, In t pairs -> (cp1 t <= cp2 t)%nat) by (intros u Hu; destruct (Hl u Hu); lia).
        rewrite (contact_one pairs p q (fun d s => cross_block sc ix k2 k1 (vopp d) s (a q) (a p) j i) t) by assumption.
        rewrite (contact_one pairs p q (fun d s => cross_block sc ix k1 k2 d s (a p) (a q) i j) t) by assumption.
        assert (R' : mrank k1 <> mrank k2 \/ reciprocal_scalars sc ix (cp_dist t) (a p) (a q)).
        { destruct Hor as [?|[?|R']]; [left; assumption|contradiction|right; apply R'; assumption]. }
        rewrite !cross_block_swap by exact R'. reflexivity.
      - rewrite (contact_none pairs p q (fun d s => cross_block sc ix k2 k1 (vopp d) s (a q) (a p) j i) Hno).
        rewrite (contact_none pairs p q (fun d s => cross_block sc ix k1 k2 d s (a p) (a q) i j) Hno). reflexivity. }
    destruct k1, k2, bb; try reflexivity; exact E.
Qed.

Lemma r2b_entry k1 p k2 q i j :
  kvalid Ns Nd k1 p -> kvalid Ns Nd k2 q -> (i < ksize k1)%nat -> (j < ksize k2)%nat ->
  (mrank k1 <> mrank k2 \/ (p <= q)%nat \/
   forall t, In t pairs -> (cp1 t = p /\ cp2 t = q) \/ (cp1 t = q /\ cp2 t = p) ->
      reciprocal_scalars sc ix (cp_dist t) (a p) (a q)) ->
  ent Ns M k1 p k2 q i j = bead_resistance sc ix bb a pairs k1 p k2 q i j.
Proof.
  intros V1 V2 Hi Hj Hor.
  destruct (le_lt_dec (kstart Ns k1 p + i) (kstart Ns k2 q + j)) as [Hle|Hgt].
  { apply r2b_upper; assumption. }
  unfold ent, M. rewrite (symmetrise_sym N raw) by (unfold N; apply block_range; assumption). fold M.
  change (M (kstart Ns k2 q + j)%nat (kstart Ns k1 p + i)%nat) with (ent Ns M k2 q k1 p j i).
  rewrite r2b_upper by (try assumption; lia).
  apply bead_resistance_swap.
  destruct (Nat.eq_dec (mrank k1) (mrank k2)) as [E|E]; [|left; exact E].
  right. destruct Hor as [Hor|[Hor|Hor]]; [congruence| |right; exact Hor].
  left. destruct (Nat.eq_dec p q) as [?|Hpq]; [assumption|exfalso].
  assert (Hlt : (p < q)%nat) by lia.
  destruct k1, k2; simpl in *; try discriminate; lia.
Qed.

(** Beads that are not a close pair. *)
Lemma r2b_far k1 p k2 q i j :
  kvalid Ns Nd k1 p -> kvalid Ns Nd k2 q -> (i < ksize k1)%nat -> (j < ksize k2)%nat ->
  p <> q -> ~ in_contact pairs p q -> ent Ns M k1 p k2 q i j = 0.
Proof.
  intros V1 V2 Hi Hj Hpq Hno.
  rewrite r2b_entry; try assumption.
  - unfold bead_resistance. rewrite (proj2 (Nat.eqb_neq p q) Hpq).
    rewrite (contact_none pairs p q (fun d s => cross_block sc ix k1 k2 d s (a p) (a q) i j) Hno).
    destruct k1, k2, bb; reflexivity.
  - right; right. intros t Ht Ht'. exfalso. apply Hno. exists t. auto.
Qed.
End Whole.
