(** The amount of memory. *)
From Coq Require Import Reals List Arith Bool Ascii String ZArith Lia.
From Verif Require Import Py Model_Checkpoint Model_Banner Spec_Banner.
Import ListNotations.
Local Open Scope list_scope.
Local Open Scope char_scope.

Lemma nearest_close num den : (0 < den)%Z -> (2 * Z.abs (nearest num den * den - num) <= den)%Z.
Proof.
  intros H. unfold nearest. pose proof (Z.div_mod num den ltac:(lia)) as E. pose proof (Z.mod_pos_bound num den H) as M.
  set (q := (num / den)%Z) in *. set (r := (num mod den)%Z) in *.
  destruct (2 * r <? den)%Z eqn:A; [apply Z.ltb_lt in A; nia|apply Z.ltb_ge in A].
  destruct (den <? 2 * r)%Z eqn:B; [apply Z.ltb_lt in B; nia|apply Z.ltb_ge in B].
  destruct (Z.even q); nia.
Qed.
Lemma nearest_ge num den a : (0 < den)%Z -> (a * den <= num)%Z -> (a <= nearest num den)%Z.
Proof. intros H L. pose proof (nearest_close num den H). set (x := nearest num den) in *. nia. Qed.
Lemma nearest_le num den a : (0 < den)%Z -> (2 * num < (2 * a + 1) * den)%Z -> (nearest num den <= a)%Z.
Proof. intros H L. pose proof (nearest_close num den H). set (x := nearest num den) in *. nia. Qed.

(** Every figure that can be shown, read back *)
Definition units : list text := map lit [""; "K"; "M"; "G"; "T"; "P"; "E"; "Z"]%string.
Definition figure_text (m : Z) (d k : nat) : text := rjust 7 (short_decimal m d ++ " " :: nth k units [] ++ lit "B").
Definition figure_ok (w d k : nat) (m : Z) : bool :=
  match read_figure (figure_text m d k) with
  | Some (m', d', k') => (m' * 10 ^ Z.of_nat d =? m * 10 ^ Z.of_nat d')%Z && (k' =? k)%nat && (List.length (figure_text m d k) =? w)%nat
  | None => false
  end.
Definition zrange (lo : Z) (n : nat) : list Z := map (fun i => lo + Z.of_nat i)%Z (seq 0 n).
Lemma table2 : forallb (fun k => forallb (figure_ok 7 2 k) (zrange 100 901)) (seq 0 8) = true. Proof. vm_compute. reflexivity. Qed.
Lemma table1 : forallb (fun k => forallb (figure_ok 7 1 k) (zrange 100 901)) (seq 0 8) = true. Proof. vm_compute. reflexivity. Qed.
Lemma table0 : forallb (fun k => forallb (figure_ok 7 0 k) (zrange 100 925)) (seq 0 8) = true. Proof. vm_compute. reflexivity. Qed.
Lemma table_long : forallb (fun k => forallb (figure_ok 8 1 k) (zrange 9995 5)) (seq 1 7) = true. Proof. vm_compute. reflexivity. Qed.
Lemma table_thousand : forallb (fun k => forallb (figure_ok 7 1 k) (zrange 10000 1)) (seq 1 7) = true. Proof. vm_compute. reflexivity. Qed.

Lemma in_zrange lo n m : (lo <= m < lo + Z.of_nat n)%Z -> In m (zrange lo n).
Proof. intros H. unfold zrange. apply in_map_iff. exists (Z.to_nat (m - lo)). split; [lia|]. apply in_seq. lia. Qed.
Lemma table_use w d a b lo n k m : forallb (fun k => forallb (figure_ok w d k) (zrange lo n)) (seq a b) = true ->
  (a <= k < a + b)%nat -> (lo <= m < lo + Z.of_nat n)%Z -> figure_ok w d k m = true.
Proof.
  intros T K M. rewrite forallb_forall in T. specialize (T k ltac:(apply in_seq; lia)).
  rewrite forallb_forall in T. apply T, in_zrange, M.
Qed.

(** The figure is close when its last digit is at most a hundredth *)
Lemma figure_states w d k m n : figure_ok w d k m = true -> (0 <= n)%Z ->
  (2 * Z.abs (m * 1024 ^ Z.of_nat k - n * 10 ^ Z.of_nat d) <= 1024 ^ Z.of_nat k)%Z ->
  (100 * 1024 ^ Z.of_nat k <= n * 10 ^ Z.of_nat d)%Z ->
  states_bytes (figure_text m d k) n /\ List.length (figure_text m d k) = w.
Proof.
  unfold figure_ok. destruct (read_figure (figure_text m d k)) as [[[m' d'] k']|] eqn:E; [|discriminate].
  intros T Hn C L. apply andb_prop in T. destruct T as [T T3]. apply andb_prop in T. destruct T as [T1 T2].
  apply Z.eqb_eq in T1. apply Nat.eqb_eq in T2. apply Nat.eqb_eq in T3. subst k'.
  split; [|exact T3]. exists m', d', k. split; [exact E|].
  pose proof (Z.pow_pos_nonneg 10 (Z.of_nat d) ltac:(lia) ltac:(lia)) as P.
  pose proof (Z.pow_pos_nonneg 10 (Z.of_nat d') ltac:(lia) ltac:(lia)) as P'.
  set (D := (10 ^ Z.of_nat d)%Z) in *. set (D' := (10 ^ Z.of_nat d')%Z) in *. set (K := (1024 ^ Z.of_nat k)%Z) in *.
  apply (Zmult_le_reg_r _ _ D ltac:(lia)).
  replace (200 * Z.abs (m' * K - n * D') * D)%Z with (200 * (D' * Z.abs (m * K - n * D)))%Z.
  - nia.
  - rewrite <- Z.mul_assoc. f_equal.
    transitivity (Z.abs (D' * (m * K - n * D)))%Z; [rewrite Z.abs_mul, (Z.abs_eq D') by lia; reflexivity|].
    transitivity (Z.abs ((m' * K - n * D') * D))%Z; [|rewrite Z.abs_mul, (Z.abs_eq D) by lia; reflexivity].
    f_equal. nia.
Qed.

(** One pass of the loop that ends *)
Definition shown_at (k : nat) (n : Z) : text :=
  rjust 7 (general_format (if (2 * n <? 1999 * 1024 ^ Z.of_nat k)%Z then 3 else 4) n (1024 ^ Z.of_nat k) ++ " " :: nth k units [] ++ lit "B").
Lemma shown_states k n : (k < 8)%nat -> (1024 ^ Z.of_nat k <= n < 1024 * 1024 ^ Z.of_nat k)%Z ->
  states_bytes (shown_at k n) n /\
  ((~ long_at n k /\ List.length (shown_at k n) = 7%nat) \/ (long_at n k /\ List.length (shown_at k n) = 8%nat)).
Proof.
  intros Hk [H1 H2]. pose proof (Z.pow_pos_nonneg 1024 (Z.of_nat k) ltac:(lia) ltac:(lia)) as P.
  assert (G : forall w m d, figure_ok w d k m = true ->
     (2 * Z.abs (m * 1024 ^ Z.of_nat k - n * 10 ^ Z.of_nat d) <= 1024 ^ Z.of_nat k)%Z ->
     (100 * 1024 ^ Z.of_nat k <= n * 10 ^ Z.of_nat d)%Z ->
     states_bytes (figure_text m d k) n /\ List.length (figure_text m d k) = w)
    by (intros; eapply figure_states; eauto; lia).
  unfold shown_at, general_format, long_at. set (D := (1024 ^ Z.of_nat k)%Z) in *.
  replace (n =? 0)%Z with false by (symmetry; apply Z.eqb_neq; lia).
  assert (F : forall d m, rjust 7 (short_decimal m d ++ " " :: nth k units [] ++ lit "B") = figure_text m d k) by reflexivity.
  rewrite F.
  destruct (2 * n <? 1999 * D)%Z eqn:A; [apply Z.ltb_lt in A|apply Z.ltb_ge in A].
  - unfold decimals. destruct (n <? 10 * D)%Z eqn:B; [apply Z.ltb_lt in B|apply Z.ltb_ge in B; destruct (n <? 100 * D)%Z eqn:C;
      [apply Z.ltb_lt in C|apply Z.ltb_ge in C; replace (n <? 1000 * D)%Z with true by (symmetry; apply Z.ltb_lt; lia)]].
    + change (3 - 1)%nat with 2%nat. change (10 ^ Z.of_nat 2)%Z with 100%Z.
      destruct (G 7%nat (nearest (n * 100) D) 2%nat) as [S1 S2].
      * apply (table_use 7 2 0 8 100 901); [exact table2|lia|]. split; [apply nearest_ge; lia|].
        change (100 + Z.of_nat 901)%Z with 1001%Z. assert (nearest (n * 100) D <= 1000)%Z by (apply nearest_le; lia). lia.
      * change (10 ^ Z.of_nat 2)%Z with 100%Z. apply nearest_close. exact P.
      * change (10 ^ Z.of_nat 2)%Z with 100%Z. lia.
      * split; [exact S1|left; split; [lia|exact S2]].
    + change (3 - 2)%nat with 1%nat. change (10 ^ Z.of_nat 1)%Z with 10%Z.
      destruct (G 7%nat (nearest (n * 10) D) 1%nat) as [S1 S2].
      * apply (table_use 7 1 0 8 100 901); [exact table1|lia|]. split; [apply nearest_ge; lia|].
        change (100 + Z.of_nat 901)%Z with 1001%Z. assert (nearest (n * 10) D <= 1000)%Z by (apply nearest_le; lia). lia.
      * change (10 ^ Z.of_nat 1)%Z with 10%Z. apply nearest_close. exact P.
      * change (10 ^ Z.of_nat 1)%Z with 10%Z. lia.
      * split; [exact S1|left; split; [lia|exact S2]].
    + change (3 - 3)%nat with 0%nat. change (10 ^ Z.of_nat 0)%Z with 1%Z.
      destruct (G 7%nat (nearest (n * 1) D) 0%nat) as [S1 S2].
      * apply (table_use 7 0 0 8 100 925); [exact table0|lia|]. split; [apply nearest_ge; lia|].
        change (100 + Z.of_nat 925)%Z with 1025%Z. assert (nearest (n * 1) D <= 999)%Z by (apply nearest_le; lia). lia.
      * change (10 ^ Z.of_nat 0)%Z with 1%Z. apply nearest_close. exact P.
      * change (10 ^ Z.of_nat 0)%Z with 1%Z. lia.
      * split; [exact S1|left; split; [lia|exact S2]].
  - unfold decimals. replace (n <? 10 * D)%Z with false by (symmetry; apply Z.ltb_ge; lia).
    replace (n <? 100 * D)%Z with false by (symmetry; apply Z.ltb_ge; lia).
    destruct (n <? 1000 * D)%Z eqn:C; [apply Z.ltb_lt in C|apply Z.ltb_ge in C].
    + change (4 - 3)%nat with 1%nat. change (10 ^ Z.of_nat 1)%Z with 10%Z.
      assert (K1 : (1 <= k)%nat). { destruct k; [|lia]. exfalso. change (1024 ^ Z.of_nat 0)%Z with 1%Z in D. subst D. lia. }
      assert (L : (9995 <= nearest (n * 10) D)%Z) by (apply nearest_ge; lia).
      assert (U : (nearest (n * 10) D <= 10000)%Z) by (apply nearest_le; lia).
      pose proof (nearest_close (n * 10) D P) as CL.
      destruct (Z.eq_dec (nearest (n * 10) D) 10000) as [E|E].
      * rewrite E in *. destruct (G 7%nat 10000%Z 1%nat) as [S1 S2].
        -- apply (table_use 7 1 1 7 10000 1); [exact table_thousand|lia|lia].
        -- change (10 ^ Z.of_nat 1)%Z with 10%Z. exact CL.
        -- change (10 ^ Z.of_nat 1)%Z with 10%Z. lia.
        -- split; [exact S1|left; split; [|exact S2]]. intros [_ X]. clear - X CL. lia.
      * destruct (G 8%nat (nearest (n * 10) D) 1%nat) as [S1 S2].
        -- apply (table_use 8 1 1 7 9995 5); [exact table_long|lia|lia].
        -- change (10 ^ Z.of_nat 1)%Z with 10%Z. exact CL.
        -- change (10 ^ Z.of_nat 1)%Z with 10%Z. lia.
        -- split; [exact S1|right; split; [|exact S2]]. split; [lia|].
           (* a tie at 9999.5 goes to the even 10000 *)
           assert (N9 : (nearest (n * 10) D <= 9999)%Z) by lia.
           destruct (Z.lt_ge_cases (20 * n) (19999 * D)) as [|T]; [assumption|exfalso].
           assert (Q : nearest (n * 10) D = 10000%Z); [|lia].
           clear - T C P. unfold nearest.
           assert (Q : (n * 10 / D = 9999)%Z) by (symmetry; apply (Z.div_unique_pos _ _ _ (n * 10 - 9999 * D)%Z); lia).
           rewrite Z.mod_eq by lia. rewrite Q.
           replace (2 * (n * 10 - D * 9999) <? D)%Z with false by (symmetry; apply Z.ltb_ge; lia).
           destruct (D <? 2 * (n * 10 - D * 9999))%Z; reflexivity.
    + change (4 - 4)%nat with 0%nat. change (10 ^ Z.of_nat 0)%Z with 1%Z.
      destruct (G 7%nat (nearest (n * 1) D) 0%nat) as [S1 S2].
      * apply (table_use 7 0 0 8 100 925); [exact table0|lia|]. split; [apply nearest_ge; lia|].
        change (100 + Z.of_nat 925)%Z with 1025%Z. assert (nearest (n * 1) D <= 1024)%Z by (apply nearest_le; lia). lia.
      * change (10 ^ Z.of_nat 0)%Z with 1%Z. apply nearest_close. exact P.
      * change (10 ^ Z.of_nat 0)%Z with 1%Z. lia.
      * split; [exact S1|left; split; [lia|exact S2]].
Qed.

(** The loop stops at the unit that fits *)
Lemma loop_stops k n : (k < 8)%nat -> (n < 1024 * 1024 ^ Z.of_nat k)%Z ->
  sizeof_from (skipn k units) n (1024 ^ Z.of_nat k) = shown_at k n.
Proof.
  intros Hk H. unfold shown_at.
  assert (E : skipn k units = nth k units [] :: skipn (S k) units) by (do 8 (destruct k as [|k]; [reflexivity|]); lia).
  rewrite E. cbn [sizeof_from]. apply Z.ltb_lt in H. rewrite H.
  destruct (2 * n <? 1999 * 1024 ^ Z.of_nat k)%Z; reflexivity.
Qed.
Lemma loop_goes k n : (k < 8)%nat -> (1024 * 1024 ^ Z.of_nat k <= n)%Z ->
  sizeof_from (skipn k units) n (1024 ^ Z.of_nat k) = sizeof_from (skipn (S k) units) n (1024 ^ Z.of_nat (S k)).
Proof.
  intros Hk H.
  assert (E : skipn k units = nth k units [] :: skipn (S k) units) by (do 8 (destruct k as [|k]; [reflexivity|]); lia).
  rewrite E at 1. cbn [sizeof_from]. apply Z.ltb_ge in H. rewrite H.
  f_equal. rewrite Nat2Z.inj_succ, Z.pow_succ_r by lia. reflexivity.
Qed.
Lemma sizeof_shown n : (0 < n < 1024 ^ 8)%Z ->
  exists k, (k < 8)%nat /\ (1024 ^ Z.of_nat k <= n < 1024 * 1024 ^ Z.of_nat k)%Z /\ sizeof_fmt n = shown_at k n.
Proof.
  intros [H0 H].
  assert (G : forall j k, (k + j = 8)%nat -> (1024 ^ Z.of_nat k <= n)%Z ->
     exists k', (k' < 8)%nat /\ (1024 ^ Z.of_nat k' <= n < 1024 * 1024 ^ Z.of_nat k')%Z /\
       sizeof_from (skipn k units) n (1024 ^ Z.of_nat k) = shown_at k' n).
  { induction j as [|j IH]; intros k E L.
    - exfalso. replace k with 8%nat in L by lia. change (Z.of_nat 8) with 8%Z in L. lia.
    - destruct (Z.lt_ge_cases n (1024 * 1024 ^ Z.of_nat k)) as [A|A].
      + exists k. split; [lia|]. split; [lia|]. apply loop_stops; [lia|exact A].
      + rewrite loop_goes by lia. apply IH; [lia|]. rewrite Nat2Z.inj_succ, Z.pow_succ_r by lia. exact A. }
  destruct (G 8%nat 0%nat) as [k [K1 [K2 K3]]]; [reflexivity|change (1024 ^ Z.of_nat 0)%Z with 1%Z; lia|].
  exists k. split; [exact K1|]. split; [exact K2|]. exact K3.
Qed.
