(** The tables for reciprocal ratios describe the same pairs. *)
From Coq Require Import Reals List Arith Bool Lia Lra.
From Verif Require Import Base Py Model_Pack Model_Mob Model_Table Proof_Table Spec_Layout Spec_Minf Spec_R2B Proof_R2B2 Spec_Scalars.
Import ListNotations.
Local Open Scope R_scope.

Lemma condense_ext2 f g m : (forall k l, f k l = g k l) -> condense_idx f m = condense_idx g m.
Proof. intros H. unfold condense_idx. cbn [rsum]. rewrite !H. reflexivity. Qed.

(** the entry at the reciprocal of a tabulated ratio *)
Lemma general_reciprocal scales XYZ l lam n g : In lam l -> lam <> 0 -> ~ In (1 / lam) l ->
  exists k, (k < length l)%nat /\ nth k l 0 = lam /\
    general_entry scales XYZ l (1 / lam) n g = Ok (XYZ (4 * n + 3 - g)%nat k * minus_in_B_and_G n * scales (1 / lam) n).
Proof.
  intros Hin Hl Hno. unfold general_entry. rewrite (proj2 (mem_false _ _) Hno), inv_inv by exact Hl.
  destruct (position_from_ok l 0 lam Hin) as [k Hk]. unfold position. rewrite Hk.
  apply position_from_spec in Hk. destruct Hk as [Hb Hn]. rewrite Nat.sub_0_r in Hn. exists k. split; [lia|]. split; [exact Hn|reflexivity].
Qed.
Lemma general_direct scales XYZ l lam n g : In lam l ->
  exists k, (k < length l)%nat /\ nth k l 0 = lam /\ general_entry scales XYZ l lam n g = Ok (XYZ (4 * n + g)%nat k).
Proof.
  intros Hin. unfold general_entry. rewrite (proj2 (mem_spec _ _) Hin).
  destruct (position_from_ok l 0 lam Hin) as [k Hk]. unfold position. rewrite Hk.
  apply position_from_spec in Hk. destruct Hk as [Hb Hn]. rewrite Nat.sub_0_r in Hn. exists k. split; [lia|]. split; [exact Hn|reflexivity].
Qed.

(** the index does not depend on the scalar *)
Lemma general_reciprocal_all scales XYZ l lam : In lam l -> lam <> 0 -> ~ In (1 / lam) l ->
  exists k, (k < length l)%nat /\ nth k l 0 = lam /\ forall n g,
    general_entry scales XYZ l (1 / lam) n g = Ok (XYZ (4 * n + 3 - g)%nat k * minus_in_B_and_G n * scales (1 / lam) n).
Proof.
  intros Hin Hl Hno. unfold general_entry. rewrite (proj2 (mem_false _ _) Hno), inv_inv by exact Hl.
  destruct (position_from_ok l 0 lam Hin) as [k Hk]. unfold position. rewrite Hk.
  apply position_from_spec in Hk. destruct Hk as [Hb Hn]. rewrite Nat.sub_0_r in Hn. exists k. split; [lia|]. split; [exact Hn|reflexivity].
Qed.
Lemma general_direct_all scales XYZ l lam : In lam l ->
  exists k, (k < length l)%nat /\ nth k l 0 = lam /\ forall n g, general_entry scales XYZ l lam n g = Ok (XYZ (4 * n + g)%nat k).
Proof.
  intros Hin. unfold general_entry. rewrite (proj2 (mem_spec _ _) Hin).
  destruct (position_from_ok l 0 lam Hin) as [k Hk]. unfold position. rewrite Hk.
  apply position_from_spec in Hk. destruct Hk as [Hb Hn]. rewrite Nat.sub_0_r in Hn. exists k. split; [lia|]. split; [exact Hn|reflexivity].
Qed.

(** seen from the other sphere, whose radius is [lam * a] *)
Lemma two_body_reciprocal (x : nat -> R) lam a k1 k2 d i j : lam <> 0 ->
  two_body (fun n => x n * minus_in_B_and_G n * lam_scales_r (1 / lam) n) k1 k2 (vopp d) (lam * a) i j = two_body x k1 k2 d a i j.
Proof.
  intros Hl. unfold two_body, lam_scales_r, minus_in_B_and_G. cbn [nth].
  destruct k1, k2; try reflexivity; unfold trans, vopp; try (cbn [rsum]; field; exact Hl).
  - rewrite <- !condense_scal. apply condense_ext2. intros k l. unfold dev, trans, vopp. field. exact Hl.
  - rewrite <- !condense_scal. apply condense_ext2. intros k l. cbn [rsum]. field. exact Hl.
  - rewrite <- !condense_scal. apply condense_ext2. intros k l. rewrite <- !condense_scal. apply condense_ext2. intros m n.
    unfold dev, trans, vopp. field. exact Hl.
  - rewrite <- !condense_scal. apply condense_ext2. intros k l. unfold dev, trans, vopp. field. exact Hl.
Qed.

(** The mobility table: dimensional scalars of a pair whose first sphere has
    radius [a], up to a constant for each scalar. *)
Definition m_power (a : R) (n : nat) : R :=
  nth n [1 / a; 1 / a; 1 / a ^ 2; 1 / a ^ 3; 1 / a ^ 3; a; a; 1; a ^ 3; a ^ 3; a ^ 3] 0.
(** 44 scalars with the rows (first sphere) given by [x n gamma], and with the
    rows (second sphere) given by [y n gamma], gamma = 0 for the sphere itself *)
Definition from_first (x : nat -> nat -> R) : nat -> R := fun m => x (m / 4)%nat (m mod 2)%nat.
Definition from_second (y : nat -> nat -> R) : nat -> R := fun m => y (m / 4)%nat (1 - m mod 2)%nat.

Section Same.
Variables (c : nat -> R) (x : nat -> nat -> R) (lam a : R) (d : vec).
Hypothesis Hl : lam <> 0.
Hypothesis Ha : a <> 0.
Let here : nat -> R := from_second (fun n g => c n * x n g * m_power a n).
Let there : nat -> R := from_first (fun n g => c n * (x n g * minus_in_B_and_G n * lam_scales_m (1 / lam) n) * m_power (lam * a) n).

Lemma sc_there n g : (n < 11)%nat -> (g < 2)%nat -> scalar there n 0 g = minus_in_B_and_G n * scalar here n 1 (1 - g).
Proof.
  intros Hn Hg. unfold scalar, here, there, from_first, from_second.
  replace ((4 * n + 2 * 0 + g) / 4)%nat with n by (apply Nat.div_unique with g; lia).
  replace ((4 * n + 2 * 1 + (1 - g)) / 4)%nat with n by (apply Nat.div_unique with (2 + (1 - g))%nat; lia).
  replace ((4 * n + 2 * 0 + g) mod 2)%nat with g by (apply Nat.mod_unique with (2 * n)%nat; lia).
  replace ((4 * n + 2 * 1 + (1 - g)) mod 2)%nat with (1 - g)%nat by (apply Nat.mod_unique with (2 * n + 1)%nat; lia).
  replace (1 - (1 - g))%nat with g by lia.
  do 11 (destruct n as [|n]; [unfold m_power, lam_scales_m, minus_in_B_and_G; cbn [nth]; field; auto|]). lia.
Qed.
Lemma same_tensors g : (g < 2)%nat ->
  (forall i j, tA there (vopp d) 0 g i j = tA here d 1 (1 - g) i j) /\
  (forall i j, tB there (vopp d) 0 g i j = tB here d 1 (1 - g) i j) /\
  (forall i j, tC there (vopp d) 0 g i j = tC here d 1 (1 - g) i j) /\
  (forall i j k, tG there (vopp d) 0 g i j k = tG here d 1 (1 - g) i j k) /\
  (forall i j k, tH there (vopp d) 0 g i j k = tH here d 1 (1 - g) i j k) /\
  (forall i j k l, tM there (vopp d) 0 g i j k l = tM here d 1 (1 - g) i j k l).
Proof.
  intros Hg. repeat split; intros; unfold tA, tB, tC, tG, tH, tM; rewrite !sc_there by (assumption || lia);
  unfold minus_in_B_and_G, vopp; cbn [nth rsum]; field.
Qed.
End Same.

Lemma general_both scales XYZ l lam : In lam l -> lam <> 0 -> ~ In (1 / lam) l ->
  exists k, (k < length l)%nat /\ nth k l 0 = lam /\
    (forall n g, general_entry scales XYZ l lam n g = Ok (XYZ (4 * n + g)%nat k)) /\
    (forall n g, general_entry scales XYZ l (1 / lam) n g = Ok (XYZ (4 * n + 3 - g)%nat k * minus_in_B_and_G n * scales (1 / lam) n)).
Proof.
  intros Hin Hl Hno. unfold general_entry. rewrite (proj2 (mem_false _ _) Hno), (proj2 (mem_spec _ _) Hin), inv_inv by exact Hl.
  destruct (position_from_ok l 0 lam Hin) as [k Hk]. unfold position. rewrite Hk.
  apply position_from_spec in Hk. destruct Hk as [Hb Hn]. rewrite Nat.sub_0_r in Hn. exists k. repeat split; [lia|exact Hn].
Qed.

(** A pair table which obeys the reciprocal theorem gives a general table which
    does. *)
Lemma tables_reciprocal (XYZ : nat -> nat -> R -> R) (table : list R) (sc : nat -> nat -> R -> nat -> R) (ix : R -> nat) s ap aq :
  (forall lam, lam = aq / ap \/ lam = ap / aq -> forall n g, (n < 11)%nat -> (g < 2)%nat ->
     general_entry lam_scales_r (fun m k => XYZ m k s) table lam n g = Ok (sc n g s (ix lam))) ->
  (forall n k, (n < 2 \/ n = 3 \/ n = 4 \/ n = 8 \/ n = 9 \/ n = 10)%nat -> XYZ (4 * n + 1)%nat k s = XYZ (4 * n + 2)%nat k s) ->
  0 < ap -> 0 < aq -> In (aq / ap) table -> (ap = aq \/ ~ In (ap / aq) table) ->
  reciprocal_scalars sc ix s ap aq.
Proof.
  intros Hsc Hsym Hp Hq Hin [Heq|Hno].
  - subst. split; intros n Hn; reflexivity.
  - assert (Hr : aq / ap <> 0) by (unfold Rdiv; apply Rmult_integral_contrapositive_currified; [lra|apply Rinv_neq_0_compat; lra]).
    assert (Er : ap / aq = 1 / (aq / ap)) by (field; lra).
    pose proof Hno as Hno'. rewrite Er in Hno'.
    destruct (general_both lam_scales_r (fun m k => XYZ m k s) table (aq / ap) Hin Hr Hno') as [k [_ [_ [D1 D2]]]].
    assert (S1 : forall n, (n < 11)%nat -> sc n 1%nat s (ix (aq / ap)) = XYZ (4 * n + 1)%nat k s).
    { intros n Hn. pose proof (Hsc _ (or_introl eq_refl) n 1%nat Hn ltac:(lia)) as E. rewrite D1 in E. congruence. }
    assert (S2 : forall n, (n < 11)%nat -> sc n 1%nat s (ix (ap / aq)) = XYZ (4 * n + 2)%nat k s * minus_in_B_and_G n * lam_scales_r (1 / (aq / ap)) n).
    { intros n Hn. pose proof (Hsc _ (or_intror eq_refl) n 1%nat Hn ltac:(lia)) as E. rewrite Er, D2, <- Er in E.
      replace (4 * n + 3 - 1)%nat with (4 * n + 2)%nat in E by lia. rewrite Er in E |- *. congruence. }
    split; intros n Hn; rewrite S1, S2, Hsym by lia; unfold minus_in_B_and_G, lam_scales_r;
    [destruct n as [|[|]]; [| |lia]|destruct Hn as [->|[->|[->|[->| ->]]]]]; cbn [nth]; field; lra.
Qed.
