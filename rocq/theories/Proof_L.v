(** The dumbbell change of variables. *)
From Coq Require Import Reals Arith Bool List Lia Lra.
From Verif Require Import Base Model_Pack Model_Mob Model_Layout Model_Minf Model_L Spec_L.
Import ListNotations.
Local Open Scope R_scope.

Lemma coo_app d1 d2 r1 r2 c1 c2 i j : length r1 = length d1 -> length c1 = length d1 ->
  coo_matrix (d1 ++ d2) (r1 ++ r2) (c1 ++ c2) i j = coo_matrix d1 r1 c1 i j + coo_matrix d2 r2 c2 i j.
Proof.
  revert r1 c1. induction d1 as [|d d1 IH]; intros [|r r1] [|c c1] Hr Hc; try discriminate.
  - simpl. unfold coo_matrix at 2. simpl. ring.
  - simpl in Hr, Hc. unfold coo_matrix in *. simpl. rewrite IH by lia. ring.
Qed.

Lemma coo_seq (d : nat -> R) (r c : nat -> nat) n s i j :
  coo_matrix (map d (seq s n)) (map r (seq s n)) (map c (seq s n)) i j =
  rsum n (fun t => if (Nat.eqb (r (s + t)%nat) i && Nat.eqb (c (s + t)%nat) j)%bool then d (s + t)%nat else 0).
Proof.
  induction n as [|n IH]; [reflexivity|].
  rewrite seq_S, !map_app, coo_app by (rewrite !map_length; reflexivity).
  rewrite IH. simpl rsum. f_equal. unfold coo_matrix. simpl. ring.
Qed.

Lemma repeat_map {A} (x : A) n s : repeat x n = map (fun _ => x) (seq s n).
Proof. revert s. induction n as [|n IH]; intros s; simpl; [reflexivity|]. f_equal. apply IH. Qed.

(** The four groups of entries of L, with weights [o] and [h]. *)
Definition Lclosed (Ns Nd : nat) (h : R) (i j : nat) : R :=
  if Nat.ltb i (11 * Ns) then delta i j
  else if Nat.ltb i (11 * Ns + 3 * Nd) then h * (delta i j + delta (i + 3 * Nd) j)
  else h * (delta i j - delta (i - 3 * Nd) j).

Lemma sum_diag n f i j g : (forall t, (t < n)%nat -> f t = if (Nat.eqb t i && Nat.eqb t j)%bool then g else 0) ->
  rsum n f = if (Nat.ltb i n) then g * delta i j else 0.
Proof.
  intros H. destruct (Nat.ltb_spec i n) as [Hi|Hi].
  - rewrite (rsum_single n i); [|exact Hi|].
    + rewrite H by exact Hi. rewrite Nat.eqb_refl. unfold delta. simpl.
      destruct (Nat.eqb i j); ring.
    + intros t Ht Hne. rewrite H by exact Ht. destruct (Nat.eqb_spec t i); [congruence|reflexivity].
  - apply rsum_zero. intros t Ht. rewrite H by exact Ht. destruct (Nat.eqb_spec t i); [lia|reflexivity].
Qed.

Lemma L_general Ns Nd h i j : (i < 11 * Ns + 6 * Nd)%nat ->
  coo_matrix (repeat 1 (11 * Ns) ++ repeat h (6 * Nd) ++ repeat h (3 * Nd) ++ repeat (- h) (3 * Nd))
    (seq 0 (11 * Ns) ++ seq (11 * Ns) (6 * Nd) ++ map (fun i => i + 11 * Ns)%nat (seq 0 (3 * Nd))
              ++ map (fun i => i + 11 * Ns + 3 * Nd)%nat (seq 0 (3 * Nd)))
    (seq 0 (11 * Ns) ++ seq (11 * Ns) (6 * Nd) ++ map (fun i => i + 11 * Ns + 3 * Nd)%nat (seq 0 (3 * Nd))
              ++ map (fun i => i + 11 * Ns)%nat (seq 0 (3 * Nd))) i j = Lclosed Ns Nd h i j.
Proof.
  intros Hi.
  rewrite !coo_app by (rewrite ?seq_length, ?map_length, ?repeat_length, ?seq_length; reflexivity).
  rewrite (repeat_map 1 _ 0), (repeat_map h (6 * Nd) (11 * Ns)), (repeat_map h (3 * Nd) 0), (repeat_map (- h) _ 0).
  rewrite <- (map_id (seq 0 (11 * Ns))) at 2. rewrite <- (map_id (seq 0 (11 * Ns))) at 3.
  rewrite <- (map_id (seq (11 * Ns) (6 * Nd))) at 2. rewrite <- (map_id (seq (11 * Ns) (6 * Nd))) at 3.
  rewrite !coo_seq. unfold Lclosed.
  assert (E1 : rsum (11 * Ns) (fun t => if (Nat.eqb (0 + t) i && Nat.eqb (0 + t) j)%bool then 1 else 0)
           = if Nat.ltb i (11 * Ns) then 1 * delta i j else 0).
  { apply sum_diag. intros t Ht. reflexivity. }
  rewrite E1. clear E1.
  assert (E2 : rsum (6 * Nd) (fun t => if (Nat.eqb (11 * Ns + t) i && Nat.eqb (11 * Ns + t) j)%bool then h else 0)
           = if Nat.ltb i (11 * Ns) then 0 else h * delta i j).
  { destruct (Nat.ltb_spec i (11 * Ns)) as [H|H].
    - apply rsum_zero. intros t Ht. destruct (Nat.eqb_spec (11 * Ns + t) i); [lia|reflexivity].
    - rewrite (rsum_single _ (i - 11 * Ns)); [|lia|].
      + rewrite (proj2 (Nat.eqb_eq _ _)) by lia. unfold delta.
        replace (11 * Ns + (i - 11 * Ns))%nat with i by lia. simpl. destruct (Nat.eqb i j); ring.
      + intros t Ht Hne. destruct (Nat.eqb_spec (11 * Ns + t) i); [lia|reflexivity]. }
  unfold id. rewrite E2. clear E2.
  assert (E3 : rsum (3 * Nd) (fun t => if (Nat.eqb (0 + t + 11 * Ns) i && Nat.eqb (0 + t + 11 * Ns + 3 * Nd) j)%bool then h else 0)
           = if (Nat.leb (11 * Ns) i && Nat.ltb i (11 * Ns + 3 * Nd))%bool then h * delta (i + 3 * Nd) j else 0).
  { destruct (Nat.leb_spec (11 * Ns) i) as [H|H]; [destruct (Nat.ltb_spec i (11 * Ns + 3 * Nd)) as [H2|H2]|]; cbn [andb].
    - rewrite (rsum_single _ (i - 11 * Ns)); [|lia|].
      + rewrite (proj2 (Nat.eqb_eq _ _)) by lia. unfold delta.
        replace (0 + (i - 11 * Ns) + 11 * Ns + 3 * Nd)%nat with (i + 3 * Nd)%nat by lia. cbn [andb]. destruct (Nat.eqb _ j); ring.
      + intros t Ht Hne. destruct (Nat.eqb_spec (0 + t + 11 * Ns) i); [lia|reflexivity].
    - apply rsum_zero. intros t Ht. destruct (Nat.eqb_spec (0 + t + 11 * Ns) i); [lia|reflexivity].
    - apply rsum_zero. intros t Ht. destruct (Nat.eqb_spec (0 + t + 11 * Ns) i); [lia|reflexivity]. }
  rewrite E3. clear E3.
  assert (E4 : rsum (3 * Nd) (fun t => if (Nat.eqb (0 + t + 11 * Ns + 3 * Nd) i && Nat.eqb (0 + t + 11 * Ns) j)%bool then - h else 0)
           = if Nat.leb (11 * Ns + 3 * Nd) i then - h * delta (i - 3 * Nd) j else 0).
  { destruct (Nat.leb_spec (11 * Ns + 3 * Nd) i) as [H|H].
    - rewrite (rsum_single _ (i - 11 * Ns - 3 * Nd)); [|lia|].
      + rewrite (proj2 (Nat.eqb_eq _ _)) by lia. unfold delta.
        replace (0 + (i - 11 * Ns - 3 * Nd) + 11 * Ns)%nat with (i - 3 * Nd)%nat by lia. cbn [andb]. destruct (Nat.eqb _ j); ring.
      + intros t Ht Hne. destruct (Nat.eqb_spec (0 + t + 11 * Ns + 3 * Nd) i); [lia|reflexivity].
    - apply rsum_zero. intros t Ht. destruct (Nat.eqb_spec (0 + t + 11 * Ns + 3 * Nd) i); [lia|reflexivity]. }
  rewrite E4. clear E4.
  destruct (Nat.ltb_spec i (11 * Ns)); destruct (Nat.leb_spec (11 * Ns) i); try lia; cbn [andb];
  destruct (Nat.ltb_spec i (11 * Ns + 3 * Nd)); destruct (Nat.leb_spec (11 * Ns + 3 * Nd) i); try lia; ring.
Qed.

Lemma minf_L_closed Ns Nd i j : (i < 11 * Ns + 6 * Nd)%nat -> minf_L Ns Nd i j = Lclosed Ns Nd (1 / 2) i j.
Proof.
  intros Hi. unfold minf_L. rewrite seq_app.
  replace (repeat (1 / 2) (9 * Nd)) with (repeat (1 / 2) (6 * Nd) ++ repeat (1 / 2) (3 * Nd)).
  2:{ rewrite <- repeat_app. f_equal. lia. }
  rewrite <- !app_assoc. apply L_general. exact Hi.
Qed.
Lemma r2b_L_closed Ns Nd i j : (i < 11 * Ns + 6 * Nd)%nat -> r2b_L Ns Nd i j = Lclosed Ns Nd 1 i j.
Proof.
  intros Hi. unfold r2b_L. rewrite seq_app.
  replace (repeat 1 (11 * Ns + 9 * Nd)) with (repeat 1 (11 * Ns) ++ repeat 1 (6 * Nd) ++ repeat 1 (3 * Nd)).
  2:{ rewrite <- !repeat_app. f_equal. lia. }
  rewrite <- !app_assoc. apply L_general. exact Hi.
Qed.

(** Action of L and of its transpose on a vector. *)
Definition Lact (Ns Nd : nat) (h : R) (v : vec) : vec := fun i =>
  if Nat.ltb i (11 * Ns) then v i
  else if Nat.ltb i (11 * Ns + 3 * Nd) then h * (v i + v (i + 3 * Nd)%nat)
  else h * (v i - v (i - 3 * Nd)%nat).
Definition Ltact (Ns Nd : nat) (h : R) (v : vec) : vec := fun i =>
  if Nat.ltb i (11 * Ns) then v i
  else if Nat.ltb i (11 * Ns + 3 * Nd) then h * (v i - v (i + 3 * Nd)%nat)
  else h * (v i + v (i - 3 * Nd)%nat).

Lemma Lclosed_act Ns Nd h v i : (i < 11 * Ns + 6 * Nd)%nat ->
  rsum (11 * Ns + 6 * Nd) (fun l => Lclosed Ns Nd h i l * v l) = Lact Ns Nd h v i.
Proof.
  intros Hi. unfold Lclosed, Lact.
  destruct (Nat.ltb_spec i (11 * Ns)); [apply rsum_delta_l; exact Hi|].
  destruct (Nat.ltb_spec i (11 * Ns + 3 * Nd)).
  - rewrite (rsum_ext _ _ (fun l => h * (delta i l * v l) + h * (delta (i + 3 * Nd) l * v l))) by (intros; ring).
    rewrite rsum_plus, !rsum_scal_l, !rsum_delta_l by lia. ring.
  - rewrite (rsum_ext _ _ (fun l => h * (delta i l * v l) - h * (delta (i - 3 * Nd) l * v l))) by (intros; ring).
    rewrite rsum_minus, !rsum_scal_l, !rsum_delta_l by lia. ring.
Qed.

Lemma Lclosed_tact Ns Nd h v i : (i < 11 * Ns + 6 * Nd)%nat ->
  rsum (11 * Ns + 6 * Nd) (fun l => Lclosed Ns Nd h l i * v l) = Ltact Ns Nd h v i.
Proof.
  intros Hi. unfold Ltact.
  destruct (Nat.ltb_spec i (11 * Ns)) as [H1|H1].
  - rewrite (rsum_single _ i); [|exact Hi|].
    + unfold Lclosed. rewrite (proj2 (Nat.ltb_lt _ _) H1), delta_same. ring.
    + intros l Hl Hne. unfold Lclosed.
      destruct (Nat.ltb_spec l (11 * Ns)); [rewrite delta_diff by congruence; ring|].
      destruct (Nat.ltb_spec l (11 * Ns + 3 * Nd)); rewrite !delta_diff by lia; ring.
  - destruct (Nat.ltb_spec i (11 * Ns + 3 * Nd)) as [H2|H2].
    + rewrite (rsum_ext _ _ (fun l => (delta i l * (h * v l)) - delta (i + 3 * Nd) l * (h * v l))).
      * rewrite rsum_minus, !rsum_delta_l by lia. ring.
      * intros l Hl. unfold Lclosed.
        destruct (Nat.ltb_spec l (11 * Ns)); [rewrite !delta_diff by lia; ring|].
        rewrite (delta_sym i l).
        destruct (Nat.ltb_spec l (11 * Ns + 3 * Nd)).
        -- rewrite (delta_diff (l + 3 * Nd)), (delta_diff (i + 3 * Nd)) by lia. ring.
        -- unfold delta. destruct (Nat.eqb_spec (l - 3 * Nd) i), (Nat.eqb_spec (i + 3 * Nd) l); try lia; ring.
    + rewrite (rsum_ext _ _ (fun l => (delta i l * (h * v l)) + delta (i - 3 * Nd) l * (h * v l))).
      * rewrite rsum_plus, !rsum_delta_l by lia. ring.
      * intros l Hl. unfold Lclosed.
        destruct (Nat.ltb_spec l (11 * Ns)); [rewrite !delta_diff by lia; ring|].
        rewrite (delta_sym i l).
        destruct (Nat.ltb_spec l (11 * Ns + 3 * Nd)).
        -- unfold delta. destruct (Nat.eqb_spec (l + 3 * Nd) i), (Nat.eqb_spec (i - 3 * Nd) l); try lia; ring.
        -- rewrite (delta_diff (l - 3 * Nd)), (delta_diff (i - 3 * Nd)) by lia. ring.
Qed.

Section Transform.
Variables (Ns Nd : nat).
Let N := (11 * Ns + 6 * Nd)%nat.
Variables (L : mat) (h : R).
Hypothesis HL : forall i j, (i < N)%nat -> L i j = Lclosed Ns Nd h i j.

Lemma L_mvec v i : (i < N)%nat -> mvec N L v i = Lact Ns Nd h v i.
Proof.
  intros Hi. unfold mvec. rewrite <- Lclosed_act by exact Hi. apply rsum_ext.
  intros l _. rewrite HL by exact Hi. reflexivity.
Qed.
Lemma Lt_mvec v i : (i < N)%nat -> mvec N (mtr L) v i = Ltact Ns Nd h v i.
Proof.
  intros Hi. unfold mvec, mtr. rewrite <- Lclosed_tact by exact Hi. apply rsum_ext.
  intros l Hl. rewrite HL by exact Hl. reflexivity.
Qed.
Lemma LML_mvec M g f i : (i < N)%nat ->
  (forall l, (l < N)%nat -> Ltact Ns Nd h g l = f l) ->
  mvec N (mmul N (mmul N L M) (mtr L)) g i = Lact Ns Nd h (mvec N M f) i.
Proof.
  intros Hi Hf. rewrite mvec_mmul, mvec_mmul.
  rewrite L_mvec by exact Hi.
  assert (E : forall l, (l < N)%nat -> mvec N M (mvec N (mtr L) g) l = mvec N M f l).
  { intros l Hl. apply mvec_ext; [reflexivity|]. intros m Hm. rewrite Lt_mvec by exact Hm. apply Hf. exact Hm. }
  unfold Lact. unfold N in *. destruct (Nat.ltb_spec i (11 * Ns)); [apply E; lia|].
  destruct (Nat.ltb_spec i (11 * Ns + 3 * Nd)); rewrite !E by lia; reflexivity.
Qed.
Lemma LML_entry M i j : (i < N)%nat -> (j < N)%nat ->
  mmul N (mmul N L M) (mtr L) i j = Lact Ns Nd h (fun l => Lact Ns Nd h (fun k => M k l) i) j.
Proof.
  intros Hi Hj. unfold mmul at 1, mtr.
  rewrite (rsum_ext _ _ (fun l => L j l * mmul N L M i l)) by (intros; ring).
  change (rsum N (fun l => L j l * mmul N L M i l)) with (mvec N L (mmul N L M i) j).
  rewrite L_mvec by exact Hj.
  assert (E : forall l, mmul N L M i l = Lact Ns Nd h (fun k => M k l) i).
  { intros l. change (mmul N L M i l) with (mvec N L (fun k => M k l) i). apply L_mvec. exact Hi. }
  unfold Lact at 1. rewrite !E. reflexivity.
Qed.
Lemma LML_sym M : msym N M -> msym N (mmul N (mmul N L M) (mtr L)).
Proof.
  intros HM i j Hi Hj. rewrite mmul_assoc_pt. unfold mmul at 1.
  unfold mmul at 2. rewrite (rsum_ext N (fun l => mmul N L M j l * mtr L l i) (fun l => L i l * mmul N L M j l))
    by (intros; unfold mtr; ring).
  apply rsum_ext. intros l Hl. f_equal. unfold mmul, mtr. apply rsum_ext. intros k Hk.
  rewrite (HM l k) by assumption. ring.
Qed.
End Transform.

Lemma minf_transform_mobility Ns Nd M f i : (i < 11 * Ns + 6 * Nd)%nat ->
  mvec (11 * Ns + 6 * Nd) (minf_transform Ns Nd M) (total_and_difference Ns Nd f) i =
  mean_and_half_difference Ns Nd (mvec (11 * Ns + 6 * Nd) M f) i.
Proof.
  intros Hi. unfold minf_transform.
  rewrite (LML_mvec Ns Nd _ (1 / 2) (minf_L_closed Ns Nd) M _ f) by
   first [exact Hi | (intros l Hl; unfold Ltact, total_and_difference;
    destruct (Nat.ltb_spec l (11 * Ns)); [reflexivity|];
    destruct (Nat.ltb_spec l (11 * Ns + 3 * Nd));
    [destruct (Nat.ltb_spec (l + 3 * Nd) (11 * Ns)); [lia|];
     destruct (Nat.ltb_spec (l + 3 * Nd) (11 * Ns + 3 * Nd)); [lia|];
     replace (l + 3 * Nd - 3 * Nd)%nat with l by lia; lra
    |destruct (Nat.ltb_spec (l - 3 * Nd) (11 * Ns)); [lia|];
     destruct (Nat.ltb_spec (l - 3 * Nd) (11 * Ns + 3 * Nd)); [|lia];
     replace (l - 3 * Nd + 3 * Nd)%nat with l by lia; lra])].
  unfold Lact, mean_and_half_difference.
  destruct (Nat.ltb_spec i (11 * Ns)); [reflexivity|].
  destruct (Nat.ltb_spec i (11 * Ns + 3 * Nd)); lra.
Qed.

Lemma r2b_transform_resistance Ns Nd M u i : (i < 11 * Ns + 6 * Nd)%nat ->
  mvec (11 * Ns + 6 * Nd) (r2b_transform Ns Nd M) (mean_and_half_difference Ns Nd u) i =
  total_and_difference Ns Nd (mvec (11 * Ns + 6 * Nd) M u) i.
Proof.
  intros Hi. unfold r2b_transform.
  rewrite (LML_mvec Ns Nd _ 1 (r2b_L_closed Ns Nd) M _ u) by
   first [exact Hi | (intros l Hl; unfold Ltact, mean_and_half_difference;
    destruct (Nat.ltb_spec l (11 * Ns)); [reflexivity|];
    destruct (Nat.ltb_spec l (11 * Ns + 3 * Nd));
    [destruct (Nat.ltb_spec (l + 3 * Nd) (11 * Ns)); [lia|];
     destruct (Nat.ltb_spec (l + 3 * Nd) (11 * Ns + 3 * Nd)); [lia|];
     replace (l + 3 * Nd - 3 * Nd)%nat with l by lia; lra
    |destruct (Nat.ltb_spec (l - 3 * Nd) (11 * Ns)); [lia|];
     destruct (Nat.ltb_spec (l - 3 * Nd) (11 * Ns + 3 * Nd)); [|lia];
     replace (l - 3 * Nd + 3 * Nd)%nat with l by lia; lra])].
  unfold Lact, total_and_difference.
  destruct (Nat.ltb_spec i (11 * Ns)); [reflexivity|].
  destruct (Nat.ltb_spec i (11 * Ns + 3 * Nd)); lra.
Qed.

Lemma rsum_shift_split Ns Nd (f : nat -> R) :
  rsum (11 * Ns + 6 * Nd) f =
  rsum (11 * Ns) f + rsum (3 * Nd) (fun i => f (11 * Ns + i)%nat + f (11 * Ns + 3 * Nd + i)%nat).
Proof.
  replace (11 * Ns + 6 * Nd)%nat with (11 * Ns + (3 * Nd + 3 * Nd))%nat by lia.
  rewrite rsum_app, rsum_app, rsum_plus.
  rewrite (rsum_ext _ (fun i => f (11 * Ns + (3 * Nd + i))%nat) (fun i => f (11 * Ns + 3 * Nd + i)%nat)) by (intros; f_equal; lia).
  ring.
Qed.

Lemma power_preserved Ns Nd f u :
  dot (11 * Ns + 6 * Nd) (total_and_difference Ns Nd f) (mean_and_half_difference Ns Nd u) =
  dot (11 * Ns + 6 * Nd) f u.
Proof.
  unfold dot. rewrite !rsum_shift_split. f_equal.
  - apply rsum_ext. intros i Hi. unfold total_and_difference, mean_and_half_difference.
    rewrite (proj2 (Nat.ltb_lt _ _) Hi). reflexivity.
  - apply rsum_ext. intros i Hi. unfold total_and_difference, mean_and_half_difference.
    destruct (Nat.ltb_spec (11 * Ns + i) (11 * Ns)); [lia|].
    destruct (Nat.ltb_spec (11 * Ns + i) (11 * Ns + 3 * Nd)); [|lia].
    destruct (Nat.ltb_spec (11 * Ns + 3 * Nd + i) (11 * Ns)); [lia|].
    destruct (Nat.ltb_spec (11 * Ns + 3 * Nd + i) (11 * Ns + 3 * Nd)); [lia|].
    replace (11 * Ns + i + 3 * Nd)%nat with (11 * Ns + 3 * Nd + i)%nat by lia.
    replace (11 * Ns + 3 * Nd + i - 3 * Nd)%nat with (11 * Ns + i)%nat by lia. lra.
Qed.

(** Transforming a bead-level resistance and its inverse gives inverse matrices. *)
Lemma tot_of_half Ns Nd g i : (i < 11 * Ns + 6 * Nd)%nat ->
  total_and_difference Ns Nd (Ltact Ns Nd (1 / 2) g) i = g i.
Proof.
  intros Hi. unfold total_and_difference, Ltact.
  destruct (Nat.ltb_spec i (11 * Ns)); [reflexivity|].
  destruct (Nat.ltb_spec i (11 * Ns + 3 * Nd)).
  - destruct (Nat.ltb_spec (i + 3 * Nd) (11 * Ns)); [lia|].
    destruct (Nat.ltb_spec (i + 3 * Nd) (11 * Ns + 3 * Nd)); [lia|].
    replace (i + 3 * Nd - 3 * Nd)%nat with i by lia. lra.
  - destruct (Nat.ltb_spec (i - 3 * Nd) (11 * Ns)); [lia|].
    destruct (Nat.ltb_spec (i - 3 * Nd) (11 * Ns + 3 * Nd)); [|lia].
    replace (i - 3 * Nd + 3 * Nd)%nat with i by lia. lra.
Qed.
Lemma mean_of_one Ns Nd g i : (i < 11 * Ns + 6 * Nd)%nat ->
  mean_and_half_difference Ns Nd (Ltact Ns Nd 1 g) i = g i.
Proof.
  intros Hi. unfold mean_and_half_difference, Ltact.
  destruct (Nat.ltb_spec i (11 * Ns)); [reflexivity|].
  destruct (Nat.ltb_spec i (11 * Ns + 3 * Nd)).
  - destruct (Nat.ltb_spec (i + 3 * Nd) (11 * Ns)); [lia|].
    destruct (Nat.ltb_spec (i + 3 * Nd) (11 * Ns + 3 * Nd)); [lia|].
    replace (i + 3 * Nd - 3 * Nd)%nat with i by lia. lra.
  - destruct (Nat.ltb_spec (i - 3 * Nd) (11 * Ns)); [lia|].
    destruct (Nat.ltb_spec (i - 3 * Nd) (11 * Ns + 3 * Nd)); [|lia].
    replace (i - 3 * Nd + 3 * Nd)%nat with i by lia. lra.
Qed.

Lemma tot_ext Ns Nd f g i : (i < 11 * Ns + 6 * Nd)%nat ->
  (forall l, (l < 11 * Ns + 6 * Nd)%nat -> f l = g l) ->
  total_and_difference Ns Nd f i = total_and_difference Ns Nd g i.
Proof.
  intros Hi H. unfold total_and_difference.
  destruct (Nat.ltb_spec i (11 * Ns)); [apply H; lia|].
  destruct (Nat.ltb_spec i (11 * Ns + 3 * Nd)); rewrite !H by lia; reflexivity.
Qed.
Lemma mean_ext Ns Nd f g i : (i < 11 * Ns + 6 * Nd)%nat ->
  (forall l, (l < 11 * Ns + 6 * Nd)%nat -> f l = g l) ->
  mean_and_half_difference Ns Nd f i = mean_and_half_difference Ns Nd g i.
Proof.
  intros Hi H. unfold mean_and_half_difference.
  destruct (Nat.ltb_spec i (11 * Ns)); [apply H; lia|].
  destruct (Nat.ltb_spec i (11 * Ns + 3 * Nd)); rewrite !H by lia; reflexivity.
Qed.

Lemma transforms_inverse Ns Nd M R : is_inv (11 * Ns + 6 * Nd) M R ->
  is_inv (11 * Ns + 6 * Nd) (minf_transform Ns Nd M) (r2b_transform Ns Nd R).
Proof.
  set (N := (11 * Ns + 6 * Nd)%nat). intros HI.
  assert (Act1 : forall g i, (i < N)%nat ->
     mvec N (minf_transform Ns Nd M) (mvec N (r2b_transform Ns Nd R) g) i = g i).
  { intros g i Hi.
    set (u := Ltact Ns Nd 1 g).
    transitivity (mvec N (minf_transform Ns Nd M) (total_and_difference Ns Nd (mvec N R u)) i).
    - apply mvec_ext; [reflexivity|]. intros l Hl.
      refine (eq_trans _ (r2b_transform_resistance Ns Nd R u l Hl)). apply mvec_ext; [reflexivity|].
      intros m Hm. symmetry. apply mean_of_one. exact Hm.
    - unfold N. rewrite minf_transform_mobility by exact Hi.
      rewrite <- (mean_of_one Ns Nd g i Hi). apply mean_ext; [exact Hi|].
      intros l Hl. fold N. rewrite <- mvec_mmul.
      rewrite (mvec_ext N _ delta u u l); [apply mvec_delta; exact Hl| |reflexivity].
      intros m Hm. apply HI; assumption. }
  assert (Act2 : forall g i, (i < N)%nat ->
     mvec N (r2b_transform Ns Nd R) (mvec N (minf_transform Ns Nd M) g) i = g i).
  { intros g i Hi.
    set (f := Ltact Ns Nd (1 / 2) g).
    transitivity (mvec N (r2b_transform Ns Nd R) (mean_and_half_difference Ns Nd (mvec N M f)) i).
    - apply mvec_ext; [reflexivity|]. intros l Hl.
      refine (eq_trans _ (minf_transform_mobility Ns Nd M f l Hl)). apply mvec_ext; [reflexivity|].
      intros m Hm. symmetry. apply tot_of_half. exact Hm.
    - unfold N. rewrite r2b_transform_resistance by exact Hi.
      rewrite <- (tot_of_half Ns Nd g i Hi). apply tot_ext; [exact Hi|].
      intros l Hl. fold N. rewrite <- mvec_mmul.
      rewrite (mvec_ext N _ delta f f l); [apply mvec_delta; exact Hl| |reflexivity].
      intros m Hm. apply HI; assumption. }
  intros i j Hi Hj. split.
  - transitivity (mvec N (minf_transform Ns Nd M) (mvec N (r2b_transform Ns Nd R) (fun l => delta l j)) i).
    + unfold mmul, mvec. apply rsum_ext. intros l Hl. f_equal.
      symmetry. apply (rsum_delta_r N j (fun m => r2b_transform Ns Nd R l m)). exact Hj.
    + exact (Act1 (fun l => delta l j) i Hi).
  - transitivity (mvec N (r2b_transform Ns Nd R) (mvec N (minf_transform Ns Nd M) (fun l => delta l j)) i).
    + unfold mmul, mvec. apply rsum_ext. intros l Hl. f_equal.
      symmetry. apply (rsum_delta_r N j (fun m => minf_transform Ns Nd M l m)). exact Hj.
    + exact (Act2 (fun l => delta l j) i Hi).
Qed.
