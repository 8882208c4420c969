(** The time of finishing. *)
From Coq Require Import Reals List Arith Bool Ascii String ZArith Lia Lra.
From Verif Require Import Py Model_Checkpoint Model_Banner Spec_Finish.
Import ListNotations.
Local Open Scope list_scope.
Local Open Scope char_scope.

(** ** The calendar *)
Lemma month_days_range y m : (28 <= month_days y m <= 31)%Z.
Proof.
  unfold month_days. destruct (m =? 2)%Z; [destruct (leap y); lia|].
  destruct ((m =? 4) || (m =? 6) || (m =? 9) || (m =? 11))%Z; lia.
Qed.
Lemma next_real d : real_date d -> real_date (next_day d).
Proof.
  destruct d as [[y m] k]. unfold real_date, next_day. intros [Y [M K]].
  destruct (k <? month_days y m)%Z eqn:A; [apply Z.ltb_lt in A; lia|].
  destruct (m <? 12)%Z eqn:B; [apply Z.ltb_lt in B|apply Z.ltb_ge in B].
  - pose proof (month_days_range y (m + 1)). lia.
  - pose proof (month_days_range (y + 1) 1). lia.
Qed.
Lemma year_length y : days_before_year (y + 1) = (days_before_year y + 365 + (if leap y then 1 else 0))%Z.
Proof.
  unfold days_before_year, leap. replace (y + 1 - 1)%Z with y by lia.
  assert (D : forall k, (0 < k)%Z -> (y / k = (y - 1) / k + (if y mod k =? 0 then 1 else 0))%Z).
  { intros k Hk. pose proof (Z.div_mod y k ltac:(lia)). pose proof (Z.mod_pos_bound y k Hk).
    destruct (y mod k =? 0)%Z eqn:E.
    - apply Z.eqb_eq in E. enough ((y - 1) / k = y / k - 1)%Z by lia.
      symmetry. apply (Z.div_unique_pos _ _ _ (k - 1)%Z); nia.
    - apply Z.eqb_neq in E. enough ((y - 1) / k = y / k)%Z by lia.
      symmetry. apply (Z.div_unique_pos _ _ _ (y mod k - 1)%Z); nia. }
  rewrite (D 4%Z), (D 100%Z), (D 400%Z) by lia.
  assert (M100 : (y mod 100 =? 0 = true -> y mod 4 =? 0 = true)%Z).
  { intros E. apply Z.eqb_eq in E. apply Z.eqb_eq. pose proof (Z.div_mod y 100 ltac:(lia)).
    replace y with (25 * (y / 100) * 4)%Z by lia. apply Z.mod_mul. lia. }
  assert (M400 : (y mod 400 =? 0 = true -> y mod 100 =? 0 = true)%Z).
  { intros E. apply Z.eqb_eq in E. apply Z.eqb_eq. pose proof (Z.div_mod y 400 ltac:(lia)).
    replace y with (4 * (y / 400) * 100)%Z by lia. apply Z.mod_mul. lia. }
  destruct (y mod 4 =? 0)%Z, (y mod 100 =? 0)%Z, (y mod 400 =? 0)%Z; cbn [andb negb orb];
    try (specialize (M100 eq_refl)); try (specialize (M400 eq_refl)); try discriminate; ring.
Qed.
Lemma month_length y m : (1 <= m < 12)%Z -> days_before_month y (m + 1) = (days_before_month y m + month_days y m)%Z.
Proof.
  intros H. unfold days_before_month, month_days.
  assert (C : (m = 1 \/ m = 2 \/ m = 3 \/ m = 4 \/ m = 5 \/ m = 6 \/ m = 7 \/ m = 8 \/ m = 9 \/ m = 10 \/ m = 11)%Z) by lia.
  repeat (destruct C as [->|C]; [destruct (leap y); reflexivity|]). subst m. destruct (leap y); reflexivity.
Qed.
Lemma year_end y : (days_before_month y 12 + 31 = 365 + (if leap y then 1 else 0))%Z.
Proof. unfold days_before_month. destruct (leap y); reflexivity. Qed.
Lemma next_ordinal d : real_date d -> ordinal (next_day d) = (ordinal d + 1)%Z.
Proof.
  destruct d as [[y m] k]. unfold real_date, next_day. intros [Y [M K]].
  destruct (k <? month_days y m)%Z eqn:A; [unfold ordinal; lia|apply Z.ltb_ge in A].
  assert (E : k = month_days y m) by lia. subst k.
  destruct (m <? 12)%Z eqn:B; [apply Z.ltb_lt in B|apply Z.ltb_ge in B]; unfold ordinal.
  - rewrite month_length by lia. lia.
  - assert (m = 12)%Z by lia. subst m. rewrite year_length. pose proof (year_end y).
    change (month_days y 12) with 31%Z. assert (J : days_before_month (y + 1) 1 = 0%Z) by reflexivity. lia.
Qed.
Lemma iter_real n d : real_date d -> real_date (Nat.iter n next_day d) /\ ordinal (Nat.iter n next_day d) = (ordinal d + Z.of_nat n)%Z.
Proof.
  intros H. induction n as [|n [R O]]; [split; [exact H|cbn; lia]|].
  change (Nat.iter (S n) next_day d) with (next_day (Nat.iter n next_day d)). split; [apply next_real, R|].
  rewrite next_ordinal, O by exact R. lia.
Qed.
Definition year_of (d : date) : Z := fst (fst d).
Lemma iter_year n d : (year_of d <= year_of (Nat.iter n next_day d))%Z.
Proof.
  induction n as [|n IH]; [cbn; lia|]. change (Nat.iter (S n) next_day d) with (next_day (Nat.iter n next_day d)).
  destruct (Nat.iter n next_day d) as [[y m] k]. unfold next_day. cbn [year_of fst] in *.
  destruct (k <? month_days y m)%Z; [exact IH|]. destruct (m <? 12)%Z; cbn [year_of fst]; lia.
Qed.

(** ** Adding *)
Lemma micros_close x : (Rabs (IZR (to_micros x) - x * 1000000) <= 1 / 2)%R.
Proof.
  unfold to_micros. set (z := (x * 1000000 + 1 / 2)%R). pose proof (base_Int_part z) as [B1 B2].
  replace (x * 1000000)%R with (z - 1 / 2)%R by (unfold z; lra).
  destruct (Req_EM_T (IZR (Int_part z)) z) as [E|E].
  - destruct (Z.odd (Int_part z)); [rewrite minus_IZR|]; rewrite E; apply Rabs_le; lra.
  - apply Rabs_le. lra.
Qed.
Lemma micros_nonneg x : (0 <= x)%R -> (0 <= to_micros x)%Z.
Proof.
  intros H. pose proof (micros_close x) as C.
  assert (A : (-1 < IZR (to_micros x))%R).
  { pose proof (Rle_abs (- (IZR (to_micros x) - x * 1000000))) as L. rewrite Rabs_Ropp in L. nra. }
  apply (lt_IZR (-1)) in A. lia.
Qed.
Lemma micros_int k : to_micros (IZR k) = (k * 1000000)%Z.
Proof.
  pose proof (micros_close (IZR k)) as C. replace (IZR k * 1000000)%R with (IZR (k * 1000000)) in C by (rewrite mult_IZR; reflexivity).
  rewrite <- minus_IZR in C. rewrite <- abs_IZR in C.
  assert (A : (IZR (Z.abs (to_micros (IZR k) - k * 1000000)) < 1)%R) by lra. apply lt_IZR in A. lia.
Qed.
Lemma later_real now us t : real_moment now -> (0 <= us)%Z -> later now us = Some t ->
  real_moment t /\ absolute t = (absolute now + us)%Z /\ (m_year now <= m_year t <= 9999)%Z /\
  date_of t = Nat.iter (Z.to_nat (day_count t - day_count now)) next_day (date_of now) /\ (day_count now <= day_count t)%Z.
Proof.
  intros [RD RM] U. unfold later.
  set (tot := (m_micro now + us)%Z). set (n := Z.to_nat (tot / day_micros)).
  destruct (iter_real n (date_of now) RD) as [RR RO]. pose proof (iter_year n (date_of now)) as RY.
  destruct (Nat.iter n next_day (date_of now)) as [[y m] k] eqn:E. cbn [year_of fst] in RY.
  destruct (9999 <? y)%Z eqn:L; [discriminate|]. apply Z.ltb_ge in L. intros Q. injection Q as <-.
  assert (P : (0 < day_micros)%Z) by reflexivity.
  pose proof (Z.div_mod tot day_micros ltac:(lia)) as DM. pose proof (Z.mod_pos_bound tot day_micros P) as MB.
  assert (N : Z.of_nat n = (tot / day_micros)%Z) by (unfold n; rewrite Z2Nat.id; [reflexivity|apply Z.div_pos; unfold tot; lia]).
  assert (DC : (day_count (mkMoment y m k (tot mod day_micros)) = day_count now + Z.of_nat n)%Z) by exact RO.
  split; [split; [exact RR|exact MB]|]. split; [|split; [|split]].
  - unfold absolute. rewrite DC, N. cbn [m_micro]. unfold tot in *. lia.
  - cbn [m_year]. change (year_of (date_of now)) with (m_year now) in RY. lia.
  - rewrite DC. replace (day_count now + Z.of_nat n - day_count now)%Z with (Z.of_nat n) by lia. rewrite Nat2Z.id. symmetry. exact E.
  - rewrite DC. lia.
Qed.

(** ** The text *)
Lemma two_digits_pair : forallb (fun n => if list_eq_dec ascii_dec (two_digits (Z.of_nat n)) (pair_of_digits (Z.of_nat n)) then true else false) (seq 0 100) = true.
Proof. vm_compute. reflexivity. Qed.
Lemma two_digits_spec n : (0 <= n < 100)%Z -> two_digits n = pair_of_digits n.
Proof.
  intros H. pose proof two_digits_pair as T. rewrite forallb_forall in T. specialize (T (Z.to_nat n) ltac:(apply in_seq; lia)).
  rewrite Z2Nat.id in T by lia. destruct (list_eq_dec ascii_dec (two_digits n) (pair_of_digits n)); [assumption|discriminate].
Qed.
Lemma pair_table : forallb (fun n => match pair_of_digits (Z.of_nat n) with [a; b] => (10 * (nat_of_ascii a - 48) + (nat_of_ascii b - 48) =? n)%nat | _ => false end) (seq 0 100) = true.
Proof. vm_compute. reflexivity. Qed.
Lemma pair_inj n m : (0 <= n < 100)%Z -> (0 <= m < 100)%Z -> pair_of_digits n = pair_of_digits m -> n = m.
Proof.
  intros Hn Hm E. pose proof pair_table as T. rewrite forallb_forall in T.
  pose proof (T (Z.to_nat n) ltac:(apply in_seq; lia)) as A. pose proof (T (Z.to_nat m) ltac:(apply in_seq; lia)) as B.
  rewrite Z2Nat.id in A, B by lia. rewrite E in A. unfold pair_of_digits in *. apply Nat.eqb_eq in A, B. lia.
Qed.
Lemma minutes_range t : real_moment t -> (0 <= m_micro t / 60000000 < 1440)%Z.
Proof.
  intros [_ [A B]]. split; [apply Z.div_pos; lia|]. apply Z.div_lt_upper_bound; [lia|]. exact B.
Qed.
Lemma clock_spec t : real_moment t -> clock t = clock_face t.
Proof.
  intros H. pose proof (minutes_range t H) as M. unfold clock, clock_face. set (q := (m_micro t / 60000000)%Z) in *.
  rewrite !two_digits_spec; [reflexivity| |].
  - pose proof (Z.mod_pos_bound q 60 ltac:(lia)). lia.
  - split; [apply Z.div_pos; lia|]. apply Z.div_lt_upper_bound; lia.
Qed.
Lemma date_eqb_spec a b : date_eqb a b = true <-> a = b.
Proof.
  destruct a as [[y m] k], b as [[y' m'] k']. unfold date_eqb. rewrite !andb_true_iff, !Z.eqb_eq. split.
  - intros [[-> ->] ->]. reflexivity.
  - intros E. injection E. auto.
Qed.
Lemma finish_tells now x fl : real_moment now -> (0 <= x)%R ->
  match later now (to_micros x) with
  | None => format_finish_time now x fl = None
  | Some t => exists s, format_finish_time now x fl = Some (fl ++ s) /\ tells now t s
  end.
Proof.
  intros R X. unfold format_finish_time. destruct (later now (to_micros x)) as [t|] eqn:E; [|reflexivity].
  destruct (later_real now _ t R (micros_nonneg x X) E) as [Rt [A [Y [D O]]]].
  rewrite (clock_spec t Rt). unfold tells.
  destruct (date_eqb (date_of t) (date_of now)) eqn:Q.
  - apply date_eqb_spec in Q. eexists. split; [reflexivity|]. left. split; [unfold day_count; rewrite Q; lia|reflexivity].
  - assert (P : (1 <= day_count t - day_count now)%Z).
    { destruct (Z.eq_dec (day_count t) (day_count now)) as [Z|Z]; [|lia]. exfalso.
      rewrite Z, Z.sub_diag in D. cbn in D. assert (date_eqb (date_of t) (date_of now) = true) by (apply date_eqb_spec, D). congruence. }
    fold (day_count t) (day_count now). destruct (day_count t - day_count now <? 7)%Z eqn:L; [apply Z.ltb_lt in L|apply Z.ltb_ge in L].
    + eexists. split; [reflexivity|]. right. left. split; [lia|].
      unfold day_name, weekday. fold (day_count t).
      replace (day_count t + 6)%Z with (day_count t - 1 + 1 * 7)%Z by lia. rewrite Z.mod_add by lia.
      pose proof (Z.mod_pos_bound (day_count t - 1) 7 ltac:(lia)) as B. set (w := ((day_count t - 1) mod 7)%Z) in *.
      exists (nth (Z.to_nat w) week []). split; [|reflexivity]. apply nth_error_nth'. change (List.length week) with 7%nat. lia.
    + eexists. split; [reflexivity|]. right. right. split; [lia|].
      destruct Rt as [RD _]. unfold date_of, real_date in RD. pose proof (month_days_range (m_year t) (m_month t)).
      rewrite (two_digits_spec (m_day t)) by lia. rewrite (two_digits_spec (m_month t)) by lia.
      pose proof (Z.mod_pos_bound (m_year t) 100 ltac:(lia)). rewrite two_digits_spec by lia. reflexivity.
Qed.

(** ** Reading it back *)
Lemma clock_length t : List.length (clock_face t) = 5%nat. Proof. reflexivity. Qed.
Lemma clock_inj t t' : real_moment t -> real_moment t' -> clock_face t = clock_face t' -> (m_micro t / 60000000 = m_micro t' / 60000000)%Z.
Proof.
  intros R R' E. pose proof (minutes_range t R) as M. pose proof (minutes_range t' R') as M'.
  unfold clock_face in E. set (q := (m_micro t / 60000000)%Z) in *. set (q' := (m_micro t' / 60000000)%Z) in *.
  assert (E1 : pair_of_digits (q / 60) = pair_of_digits (q' / 60)) by exact (f_equal (firstn 2) E).
  assert (E2 : pair_of_digits (q mod 60) = pair_of_digits (q' mod 60)) by exact (f_equal (skipn 3) E).
  pose proof (Z.mod_pos_bound q 60 ltac:(lia)). pose proof (Z.mod_pos_bound q' 60 ltac:(lia)).
  apply pair_inj in E1; [|split; [apply Z.div_pos; lia|apply Z.div_lt_upper_bound; lia]|split; [apply Z.div_pos; lia|apply Z.div_lt_upper_bound; lia]].
  apply pair_inj in E2; [|lia|lia]. pose proof (Z.div_mod q 60 ltac:(lia)). pose proof (Z.div_mod q' 60 ltac:(lia)). lia.
Qed.

Lemma week_table : forallb (fun i => forallb (fun j => match nth_error week i, nth_error week j with
    | Some a, Some b => (List.length a =? 3)%nat && (negb (if list_eq_dec ascii_dec a b then true else false) || (i =? j)%nat) | _, _ => false end) (seq 0 7)) (seq 0 7) = true.
Proof. vm_compute. reflexivity. Qed.
Lemma week_name i a : nth_error week i = Some a -> (i < 7)%nat /\ List.length a = 3%nat.
Proof.
  intros H. assert (L : (i < 7)%nat) by (apply (proj1 (nth_error_Some week i)); congruence). split; [exact L|].
  pose proof week_table as T. rewrite forallb_forall in T. specialize (T i ltac:(apply in_seq; lia)).
  rewrite forallb_forall in T. specialize (T i ltac:(apply in_seq; lia)). rewrite H in T. apply andb_prop in T. destruct T as [T _]. apply Nat.eqb_eq, T.
Qed.
Lemma week_inj i j a : nth_error week i = Some a -> nth_error week j = Some a -> i = j.
Proof.
  intros H H'. destruct (week_name i a H) as [L _]. destruct (week_name j a H') as [L' _].
  pose proof week_table as T. rewrite forallb_forall in T. specialize (T i ltac:(apply in_seq; lia)).
  rewrite forallb_forall in T. specialize (T j ltac:(apply in_seq; lia)). rewrite H, H' in T. apply andb_prop in T. destruct T as [_ T].
  destruct (list_eq_dec ascii_dec a a); [|contradiction]. apply Nat.eqb_eq, T.
Qed.
Lemma app_split (a b c d : text) : List.length a = List.length c -> a ++ b = c ++ d -> a = c /\ b = d.
Proof.
  revert c. induction a as [|x a IH]; intros [|y c] L E; try discriminate; [split; [reflexivity|exact E]|].
  injection E as -> E. injection L as L. destruct (IH c L E) as [-> ->]. auto.
Qed.

(** Two moments told by the same text are in the same minute *)
Lemma tells_same now us us' t t' s : real_moment now -> (0 <= us)%Z -> (0 <= us')%Z ->
  later now us = Some t -> later now us' = Some t' ->
  (m_year t < m_year now + 100)%Z -> (m_year t' < m_year now + 100)%Z ->
  tells now t s -> tells now t' s -> minute_count t = minute_count t'.
Proof.
  intros R U U' L L' Y Y' T T'.
  destruct (later_real now us t R U L) as [Rt [_ [Yt [Dt Ot]]]].
  destruct (later_real now us' t' R U' L') as [Rt' [_ [Yt' [Dt' Ot']]]].
  assert (K : day_count t = day_count t' -> clock_face t = clock_face t' -> minute_count t = minute_count t').
  { intros E1 E2. unfold minute_count, absolute. rewrite E1. pose proof (clock_inj t t' Rt Rt' E2) as M.
    change day_micros with (1440 * 60000000)%Z. rewrite !Z.mul_assoc, !(Z.add_comm (_ * _)), !Z.div_add by lia. lia. }
  unfold tells in T, T'.
  destruct T as [[A ->]|[[A [nm [N ->]]]|[A ->]]]; destruct T' as [[B E]|[[B [nm' [N' E]]]|[B E]]];
    try (apply (f_equal (@List.length ascii)) in E; rewrite ?app_length in E;
         repeat match goal with H : nth_error week _ = Some _ |- _ => apply week_name in H; destruct H as [_ H]; rewrite H in E end; discriminate).
  - apply K; [lia|exact E].
  - apply app_split in E; [|rewrite (proj2 (week_name _ _ N)), (proj2 (week_name _ _ N')); reflexivity].
    destruct E as [<- E]. apply app_inv_head in E. apply K; [|exact E].
    pose proof (week_inj _ _ _ N N') as W.
    pose proof (Z.mod_pos_bound (day_count t - 1) 7 ltac:(lia)). pose proof (Z.mod_pos_bound (day_count t' - 1) 7 ltac:(lia)).
    assert (W' : ((day_count t - 1) mod 7 = (day_count t' - 1) mod 7)%Z) by lia.
    pose proof (Z.div_mod (day_count t - 1) 7 ltac:(lia)). pose proof (Z.div_mod (day_count t' - 1) 7 ltac:(lia)). lia.
  - apply app_split in E; [|reflexivity]. destruct E as [E1 E]. apply app_inv_head in E.
    apply app_split in E; [|reflexivity]. destruct E as [E2 E]. apply app_inv_head in E.
    apply app_split in E; [|reflexivity]. destruct E as [E3 E]. apply app_inv_head in E.
    pose proof Rt as [RD _]. pose proof Rt' as [RD' _]. unfold date_of, real_date in RD, RD'.
    pose proof (month_days_range (m_year t) (m_month t)). pose proof (month_days_range (m_year t') (m_month t')).
    apply pair_inj in E1; [|lia|lia]. apply pair_inj in E2; [|lia|lia].
    pose proof (Z.mod_pos_bound (m_year t) 100 ltac:(lia)). pose proof (Z.mod_pos_bound (m_year t') 100 ltac:(lia)).
    apply pair_inj in E3; [|lia|lia].
    pose proof (Z.div_mod (m_year t) 100 ltac:(lia)). pose proof (Z.div_mod (m_year t') 100 ltac:(lia)).
    assert (YY : m_year t = m_year t') by lia.
    apply K; [|exact E]. unfold day_count, date_of. rewrite E1, E2, YY. reflexivity.
Qed.

(** ** After the year 9999 *)
Lemma year_days y m k : real_date (y, m, k) -> (days_before_year y < ordinal (y, m, k) <= days_before_year (y + 1))%Z.
Proof.
  unfold real_date. intros [Y [M K]]. rewrite year_length. unfold ordinal.
  enough (0 <= days_before_month y m /\ days_before_month y m + month_days y m <= 365 + (if leap y then 1 else 0))%Z by lia.
  clear K. unfold days_before_month, month_days.
  assert (C : (m = 1 \/ m = 2 \/ m = 3 \/ m = 4 \/ m = 5 \/ m = 6 \/ m = 7 \/ m = 8 \/ m = 9 \/ m = 10 \/ m = 11 \/ m = 12)%Z) by lia.
  repeat (destruct C as [->|C]; [destruct (leap y); split; vm_compute; discriminate|]). subst m. destruct (leap y); split; vm_compute; discriminate.
Qed.
Lemma years_mono y y' : (y <= y')%Z -> (days_before_year y <= days_before_year y')%Z.
Proof.
  intros H. replace y' with (y + Z.of_nat (Z.to_nat (y' - y)))%Z by lia. induction (Z.to_nat (y' - y)) as [|n IH]; [rewrite Z.add_0_r; lia|].
  replace (y + Z.of_nat (S n))%Z with (y + Z.of_nat n + 1)%Z by lia. rewrite year_length. destruct (leap (y + Z.of_nat n)); lia.
Qed.
Lemma later_none now us t : real_moment now -> (0 <= us)%Z -> later now us = None -> real_moment t ->
  absolute t = (absolute now + us)%Z -> (9999 < m_year t)%Z.
Proof.
  intros [RD RM] U. unfold later.
  set (tot := (m_micro now + us)%Z). set (n := Z.to_nat (tot / day_micros)).
  destruct (iter_real n (date_of now) RD) as [RR RO].
  destruct (Nat.iter n next_day (date_of now)) as [[y m] k] eqn:E.
  destruct (9999 <? y)%Z eqn:L; [|discriminate]. apply Z.ltb_lt in L. intros _ [TD TM] A.
  assert (P : (0 < day_micros)%Z) by reflexivity.
  assert (N : Z.of_nat n = (tot / day_micros)%Z) by (unfold n; rewrite Z2Nat.id; [reflexivity|apply Z.div_pos; unfold tot; lia]).
  assert (Q : day_count t = (day_count now + tot / day_micros)%Z).
  { unfold absolute in A. fold tot in A || idtac.
    assert (B : (m_micro t = tot - day_micros * (day_count t - day_count now))%Z) by (unfold tot; lia).
    assert (C : (tot / day_micros = day_count t - day_count now)%Z) by (symmetry; apply (Z.div_unique_pos _ _ _ (m_micro t)); lia). lia. }
  rewrite N in RO. unfold day_count in Q. rewrite <- RO in Q.
  apply year_days in RR. unfold date_of in Q, TD. apply year_days in TD. rewrite Q in TD.
  destruct (Z.lt_ge_cases 9999 (m_year t)) as [|G]; [assumption|exfalso].
  pose proof (years_mono (m_year t + 1) y ltac:(lia)). lia.
Qed.
