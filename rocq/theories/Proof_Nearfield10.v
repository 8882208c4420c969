(** The reciprocal theorem for two spheres; the table; truncated sums. *)
From Coq Require Import Reals List Arith ZArith Bool Lra Lia.
From Verif Require Import Base Model_Mob Model_Nearfield Spec_Scalars Spec_Nearfield Proof_Nearfield1 Proof_Nearfield5 Proof_Nearfield9.
Import ListNotations.
Local Open Scope R_scope.

(** ** Reciprocal theorem *)
Section Rec.
Variables (X : nat -> R) (d : vec).
Hypothesis sym : forall n, reciprocal_family n -> scalar X n 0 1 = scalar X n 1 0.
Lemma sc_sym n p q : reciprocal_family n -> (p < 2)%nat -> (q < 2)%nat -> scalar X n p q = scalar X n q p.
Proof. intros Hn Hp Hq. destruct p as [|[|p]], q as [|[|q]]; try lia; try reflexivity; [|symmetry]; apply sym; exact Hn. Qed.
Ltac fm := unfold reciprocal_family; tauto.
Lemma delta_comm i j : delta i j = delta j i.
Proof. unfold delta. rewrite Nat.eqb_sym. reflexivity. Qed.
Lemma tA_sym p q i j : (p < 2)%nat -> (q < 2)%nat -> tA X d p q i j = tA X d q p j i.
Proof.
  intros Hp Hq. unfold tA. rewrite (sc_sym 0 p q), (sc_sym 1 p q) by (try fm; assumption). rewrite (delta_comm i j). ring.
Qed.
Lemma tC_sym p q i j : (p < 2)%nat -> (q < 2)%nat -> tC X d p q i j = tC X d q p j i.
Proof.
  intros Hp Hq. unfold tC. rewrite (sc_sym 3 p q), (sc_sym 4 p q) by (try fm; assumption). rewrite (delta_comm i j). ring.
Qed.
Lemma tM_sym p q i j k l : (p < 2)%nat -> (q < 2)%nat -> tM X d p q i j k l = tM X d q p k l i j.
Proof.
  intros Hp Hq. unfold tM. rewrite (sc_sym 8 p q), (sc_sym 9 p q), (sc_sym 10 p q) by (try fm; assumption).
  rewrite (delta_comm i k), (delta_comm i l), (delta_comm j k), (delta_comm j l). ring.
Qed.

(** exchange of a quadratic form *)
Lemma ex1 (K : nat -> nat -> nat -> nat -> R) (u v : nat -> vec) :
  rsum 2 (fun p => rsum 3 (fun i => rsum 2 (fun q => rsum 3 (fun j => K p q i j * u q j)) * v p i))
  = rsum 2 (fun q => rsum 3 (fun j => rsum 2 (fun p => rsum 3 (fun i => K p q i j * v p i)) * u q j)).
Proof. cbn [rsum]. ring. Qed.
Lemma ex2 (K : nat -> nat -> nat -> nat -> nat -> R) (u : nat -> vec) (v : nat -> mat) :
  rsum 2 (fun p => rsum 3 (fun i => rsum 3 (fun k => rsum 2 (fun q => rsum 3 (fun j => K p q i k j * u q j)) * v p i k)))
  = rsum 2 (fun q => rsum 3 (fun j => rsum 2 (fun p => rsum 3 (fun i => rsum 3 (fun k => K p q i k j * v p i k))) * u q j)).
Proof. cbn [rsum]. ring. Qed.
Lemma ex3 (K : nat -> nat -> nat -> nat -> nat -> nat -> R) (u v : nat -> mat) :
  rsum 2 (fun p => rsum 3 (fun i => rsum 3 (fun k => rsum 2 (fun q => rsum 3 (fun j => rsum 3 (fun l => K p q i k j l * u q j l))) * v p i k)))
  = rsum 2 (fun q => rsum 3 (fun j => rsum 3 (fun l => rsum 2 (fun p => rsum 3 (fun i => rsum 3 (fun k => K p q i k j l * v p i k))) * u q j l))).
Proof. cbn [rsum]. ring. Qed.

Variables (U O F T U' O' F' T' : nat -> vec) (E S E' S' : nat -> mat).
Hypotheses (L : resistance_law X d U O F T E S) (L' : resistance_law X d U' O' F' T' E' S').
Definition pA (u v : nat -> vec) := rsum 2 (fun p => rsum 3 (fun i => rsum 2 (fun q => rsum 3 (fun j => tA X d p q i j * u q j)) * v p i)).
Definition pB (u v : nat -> vec) := rsum 2 (fun p => rsum 3 (fun i => rsum 2 (fun q => rsum 3 (fun j => tB X d p q i j * u q j)) * v p i)).
Definition pC (u v : nat -> vec) := rsum 2 (fun p => rsum 3 (fun i => rsum 2 (fun q => rsum 3 (fun j => tC X d p q i j * u q j)) * v p i)).
Definition pG (u : nat -> vec) (v : nat -> mat) :=
  rsum 2 (fun p => rsum 3 (fun i => rsum 3 (fun k => rsum 2 (fun q => rsum 3 (fun j => tG X d p q i k j * u q j)) * v p i k))).
Definition pH (u : nat -> vec) (v : nat -> mat) :=
  rsum 2 (fun p => rsum 3 (fun i => rsum 3 (fun k => rsum 2 (fun q => rsum 3 (fun j => tH X d p q i k j * u q j)) * v p i k))).
Definition pM (u v : nat -> mat) :=
  rsum 2 (fun p => rsum 3 (fun i => rsum 3 (fun k => rsum 2 (fun q => rsum 3 (fun j => rsum 3 (fun l => tM X d p q i k j l * u q j l))) * v p i k))).
End Rec.

Ltac fm := unfold reciprocal_family; tauto.
Section Rec2.
Variables (X : nat -> R) (d : vec).
Hypothesis sym : forall n, reciprocal_family n -> scalar X n 0 1 = scalar X n 1 0.
Lemma pA_sym u v : pA X d u v = pA X d v u.
Proof.
  unfold pA. rewrite ex1. apply rsum_ext. intros q Hq. apply rsum_ext. intros j Hj. f_equal. apply rsum_ext. intros p Hp. apply rsum_ext.
  intros i Hi. rewrite (tA_sym X d sym p q i j Hp Hq). reflexivity.
Qed.
Lemma pC_sym u v : pC X d u v = pC X d v u.
Proof.
  unfold pC. rewrite ex1. apply rsum_ext. intros q Hq. apply rsum_ext. intros j Hj. f_equal. apply rsum_ext. intros p Hp. apply rsum_ext.
  intros i Hi. rewrite (tC_sym X d sym p q i j Hp Hq). reflexivity.
Qed.
Lemma pM_sym u v : pM X d u v = pM X d v u.
Proof.
  unfold pM. rewrite ex3. apply rsum_ext. intros q Hq. apply rsum_ext. intros j Hj. apply rsum_ext. intros l Hl. f_equal.
  apply rsum_ext. intros p Hp. apply rsum_ext. intros i Hi. apply rsum_ext. intros k Hk. rewrite (tM_sym X d sym p q i k j l Hp Hq). reflexivity.
Qed.
Lemma power_form U O F T E S U' O' E' : resistance_law X d U O F T E S ->
  power F T S U' O' E' = pA X d U U' + pC X d O O' + pM X d E E' + (pB X d U O' + pB X d U' O) + (pG X d U E' + pG X d U' E) + (pH X d O E' + pH X d O' E).
Proof.
  intros (LF & LT & LS).
  assert (HF : rsum 2 (fun p => rsum 3 (fun i => F p i * U' p i)) = pA X d U U' + pB X d U' O + pG X d U' E).
  { unfold pA. unfold pB. rewrite (ex1 (fun p q i j => tB X d p q i j) U' O). unfold pG. rewrite (ex2 (fun p q i k j => tG X d p q i k j) U' E).
    rewrite <- !rsum_plus. apply rsum_ext. intros p Hp. rewrite <- !rsum_plus. apply rsum_ext. intros i Hi. rewrite (LF p i Hp Hi), !rsum_plus. ring. }
  assert (HT : rsum 2 (fun p => rsum 3 (fun i => T p i * O' p i)) = pB X d U O' + pC X d O O' + pH X d O' E).
  { unfold pB, pC. unfold pH. rewrite (ex2 (fun p q i k j => tH X d p q i k j) O' E).
    rewrite <- !rsum_plus. apply rsum_ext. intros p Hp. rewrite <- !rsum_plus. apply rsum_ext. intros i Hi. rewrite (LT p i Hp Hi), !rsum_plus. ring. }
  assert (HS : rsum 2 (fun p => rsum 3 (fun i => rsum 3 (fun j => S p i j * E' p i j))) = pG X d U E' + pH X d O E' + pM X d E E').
  { unfold pG, pH, pM. rewrite <- !rsum_plus. apply rsum_ext. intros p Hp. rewrite <- !rsum_plus. apply rsum_ext. intros i Hi.
    rewrite <- !rsum_plus. apply rsum_ext. intros j Hj. rewrite (LS p i j Hp Hi Hj), !rsum_plus. ring. }
  unfold power. rewrite !rsum_plus, HF, HT, HS. ring.
Qed.
Theorem lorentz U O F T E S U' O' F' T' E' S' : resistance_law X d U O F T E S -> resistance_law X d U' O' F' T' E' S' ->
  power F T S U' O' E' = power F' T' S' U O E.
Proof.
  intros L L'. rewrite (power_form _ _ _ _ _ _ U' O' E' L), (power_form _ _ _ _ _ _ U O E L').
  rewrite (pA_sym U' U), (pC_sym O' O), (pM_sym E' E). ring.
Qed.
End Rec2.

(** ** The table *)
Lemma enumerate_nth {A} (l : list A) d i : (i < length l)%nat -> nth i (enumerate l) (0%nat, d) = (i, nth i l d).
Proof.
  intros H. unfold enumerate. rewrite (combine_nth _ _ i 0%nat d) by apply seq_length. rewrite seq_nth by exact H. reflexivity.
Qed.
Lemma fold_enumerate {A B} (l : list A) (f : B -> nat * A -> B) (t : B) d (I : B -> nat -> Prop) :
  I t 0%nat -> (forall i t, (i < length l)%nat -> I t i -> I (f t (i, nth i l d)) (S i)) -> I (fold_left f (enumerate l) t) (length l).
Proof.
  assert (G : forall l k t, I t k -> (forall i t, (i < length l)%nat -> I t (k + i)%nat -> I (f t ((k + i)%nat, nth i l d)) (S (k + i))) ->
    I (fold_left f (combine (seq k (length l)) l) t) (k + length l)%nat).
  { clear. induction l as [|a l IH]; intros k t H0 HS.
    - cbn. rewrite Nat.add_0_r. exact H0.
    - cbn [length seq combine fold_left]. replace (k + S (length l))%nat with (S k + length l)%nat by lia. apply IH.
      + pose proof (HS 0%nat t ltac:(cbn; lia)) as H. rewrite Nat.add_0_r in H. apply H. exact H0.
      + intros i t' Hi Ht. pose proof (HS (S i) t' ltac:(cbn; lia)) as H. replace (k + S i)%nat with (S k + i)%nat in H by lia. apply H. exact Ht. }
  intros H0 HS. exact (G l 0%nat t H0 HS).
Qed.
Lemma set4_get t i j k l x a b c e : set4 t i j k l x a b c e =
  if (Nat.eqb a i && Nat.eqb b j && Nat.eqb c k && Nat.eqb e l)%bool then x else t a b c e.
Proof. reflexivity. Qed.

(** Entries of column (s, lam) filled up to function [m], of ratio up to
    separation [m], of the table up to ratio [m]. *)
Section Fill.
Variables (fs : list (R -> R -> R)) (sd lams : list R).
Notation want i j n g := (nth (2 * n + g) fs (fun _ _ => 0) (nth i sd 0 - 2) (nth j lams 0)).
Definition filled (t : table4) (j i m : nat) : Prop :=
  forall n g i' j', (g < 2)%nat -> (2 * n + g < length fs)%nat -> (i' < length sd)%nat ->
    ((j' < j)%nat \/ (j' = j /\ (i' < i)%nat) \/ (j' = j /\ i' = i /\ (2 * n + g < m)%nat)) -> t n g i' j' = want i' j' n g.
Lemma fill_ok n g i j : (g < 2)%nat -> (2 * n + g < length fs)%nat -> (i < length sd)%nat -> (j < length lams)%nat ->
  fill_table fs sd lams n g i j = want i j n g.
Proof.
  intros Hg Hn Hi Hj.
  assert (K : filled (fill_table fs sd lams) (length lams) 0 0).
  { unfold fill_table. apply (fold_enumerate lams _ _ 0 (fun t j => filled t j 0 0)).
    - intros n' g' i' j' _ _ _ [H|[[_ H]|[_ [_ H]]]]; lia.
    - intros j' t Hj' Ht.
      assert (K1 : filled (fold_left (fun t '(s_dash_index, s_dash) =>
          fold_left (fun t '(f_index, f) => set4 t (f_index / 2)%nat (f_index mod 2)%nat s_dash_index j' (f (s_dash - 2) (nth j' lams 0))) (enumerate fs) t)
          (enumerate sd) t) j' (length sd) 0).
      { apply (fold_enumerate sd _ _ 0 (fun t i => filled t j' i 0)); [exact Ht|].
        intros i' t' Hi' Ht'.
        assert (K2 : filled (fold_left (fun t '(f_index, f) => set4 t (f_index / 2)%nat (f_index mod 2)%nat i' j' (f (nth i' sd 0 - 2) (nth j' lams 0))) (enumerate fs) t')
            j' i' (length fs)).
        { apply (fold_enumerate fs _ _ (fun _ _ => 0) (fun t m => filled t j' i' m)); [exact Ht'|].
          intros m t'' Hm Ht'' n'' g'' i'' j'' Hg'' Hn'' Hi'' Hc.
          rewrite set4_get. destruct (Nat.eqb_spec n'' (m / 2)), (Nat.eqb_spec g'' (m mod 2)), (Nat.eqb_spec i'' i'), (Nat.eqb_spec j'' j'); cbn [andb];
            try (apply Ht''; try assumption; assert (2 * n'' + g'' <> m \/ i'' <> i' \/ j'' <> j')%nat
              by (pose proof (Nat.div_mod m 2 ltac:(lia)); destruct (Nat.eq_dec (2 * n'' + g'') m) as [Em|]; [|lia];
                  assert (m / 2 = n'')%nat by (rewrite <- Em, Nat.mul_comm, Nat.div_add_l, Nat.div_small by lia; lia);
                  assert (m mod 2 = g'')%nat by (rewrite <- Em, Nat.add_comm, Nat.mul_comm, Nat.mod_add, Nat.mod_small by lia; lia); lia); lia).
          subst. rewrite <- (Nat.div_mod m 2) by lia. reflexivity. }
        intros n'' g'' i'' j'' Hg'' Hn'' Hi'' Hc. apply K2; try assumption. lia. }
      intros n'' g'' i'' j'' Hg'' Hn'' Hi'' Hc. apply K1; try assumption. lia. }
  apply K; try assumption. lia.
Qed.
End Fill.

(** ** Truncated sums *)
Lemma lsum_map {A B} (g : A -> B) (f : B -> R) l : lsum f (map g l) = lsum (fun x => f (g x)) l.
Proof. unfold lsum. rewrite map_map. reflexivity. Qed.
Lemma original_lsum f0 f1 f2 f3 lam ms : original_sum f0 f1 f2 f3 lam ms =
  lsum (fun m => / 2 ^ m * / (1 + lam) ^ m * f0 m lam - f1 lam - 2 * / INR m * f2 lam + 4 * / (INR m * m1 m) * f3 lam) ms.
Proof. reflexivity. Qed.
Lemma sum_even f0 f1 f2 f3 lam K :
  lsum (fun m => / 2 ^ m * / (1 + lam) ^ m * f0 m lam - f1 lam - 2 * / INR m * f2 lam + 4 * / INR m * / INR (m + 2) * f3 lam) (evens (S K))
  = original_sum f0 f1 f2 f3 lam (evens (S K)) + f3 lam + f3 lam * 4 / INR (2 + 2 * K) / INR (2 + 2 * K + 2).
Proof.
  unfold evens. rewrite original_lsum. rewrite !lsum_map. induction K as [|K IH].
  - unfold lsum. cbn [seq map fold_right Nat.mul Nat.add m1 Nat.eqb INR]. unfold m1. cbn [Nat.eqb]. set (u := / 2 ^ _). set (v := / (1 + lam) ^ _). field.
  - rewrite (lsum_last _ 0 (S K)), IH, (lsum_last _ 0 (S K)). cbn [Nat.add]. unfold m1.
    replace (Nat.eqb (2 + 2 * S K) 2) with false by (symmetry; apply Nat.eqb_neq; lia).
    replace (Nat.eqb (S (S (2 * S K))) 2) with false by (symmetry; apply Nat.eqb_neq; lia).
    set (u := / 2 ^ _). set (v := / (1 + lam) ^ _). replace (S K + (S K + 0))%nat with (2 * S K)%nat by lia.
    replace (K + (K + 0))%nat with (2 * K)%nat by lia.
    repeat (rewrite ?plus_INR, ?mult_INR, ?S_INR). change (INR 0) with 0. pose proof (pos_INR K). field. repeat split; lra.
Qed.
Lemma sum_odd f0 f1 f2 f3 lam K :
  lsum (fun m => / 2 ^ m * / (1 + lam) ^ m * f0 m lam - f1 lam - 2 * / INR m * f2 lam + 4 * / INR m * / INR (m + 2) * f3 lam) (odds (S K))
  = original_sum f0 f1 f2 f3 lam (odds (S K)) + 4 * f3 lam + f3 lam * 4 / INR (1 + 2 * K) / INR (1 + 2 * K + 2).
Proof.
  unfold odds. rewrite original_lsum. rewrite !lsum_map. induction K as [|K IH].
  - unfold lsum. cbn [seq map fold_right Nat.mul Nat.add m1 Nat.eqb INR]. unfold m1. cbn [Nat.eqb INR]. set (u := / 2 ^ _). set (v := / (1 + lam) ^ _). field.
  - rewrite (lsum_last _ 0 (S K)), IH, (lsum_last _ 0 (S K)). cbn [Nat.add]. unfold m1.
    replace (Nat.eqb (1 + 2 * S K) 2) with false by (symmetry; apply Nat.eqb_neq; lia).
    replace (Nat.eqb (S (2 * S K)) 2) with false by (symmetry; apply Nat.eqb_neq; lia).
    set (u := / 2 ^ _). set (v := / (1 + lam) ^ _). replace (S K + (S K + 0))%nat with (2 * S K)%nat by lia.
    replace (K + (K + 0))%nat with (2 * K)%nat by lia.
    repeat (rewrite ?plus_INR, ?mult_INR, ?S_INR). change (INR 0) with 0. pose proof (pos_INR K). field. repeat split; lra.
Qed.
Lemma AX11_m1 lam : AX11 lam = 1 - 1 / 4 * G1xa lam + original_sum Fxa G1xa G2xa G3xa lam (evens 50).
Proof.
  unfold AX11, intermediate_sum. change (sumover even 100) with (evens 50). rewrite (sum_even Fxa G1xa G2xa G3xa lam 49). cbv zeta.
  change (2 + 2 * 49)%nat with 100%nat. change (2 + 2 * 49 + 2)%nat with 102%nat. change (100 + 2)%nat with 102%nat. unfold Rdiv. ring.
Qed.
Lemma AY11_m1 lam : AY11 lam = 1 + original_sum Fya Zf G2ya G3ya lam (evens 50).
Proof.
  unfold AY11, intermediate_sum. change (sumover even 100) with (evens 50). rewrite (sum_even Fya Zf G2ya G3ya lam 49). cbv zeta.
  change (2 + 2 * 49)%nat with 100%nat. change (2 + 2 * 49 + 2)%nat with 102%nat. change (100 + 2)%nat with 102%nat. unfold Rdiv. ring.
Qed.
Lemma AY12_m1 lam : AY12 lam = - (2) / (1 + lam) * (2 * G2ya lam * ln 2 + 2 * G3ya lam + original_sum Fya Zf G2ya G3ya lam (odds 50)).
Proof.
  unfold AY12, intermediate_sum. change (sumover odd 100) with (odds 50). rewrite (sum_odd Fya Zf G2ya G3ya lam 49). cbv zeta.
  change (1 + 2 * 49)%nat with 99%nat. change (99 + 2)%nat with 101%nat. change (100 - 1)%nat with 99%nat. change (100 + 1)%nat with 101%nat. unfold Rdiv. ring.
Qed.
