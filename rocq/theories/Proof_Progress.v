(** Progress estimate and durations. *)
From Coq Require Import Reals ZArith List String Ascii Arith Bool Lia Lra.
From Verif Require Import Base Py Model_Mob Model_Close Model_Progress Spec_Progress.
Import ListNotations.
Local Open Scope R_scope.

(** ** Numbers of frames *)
Lemma div_succ n m : (m <> 0)%nat -> (S n / m = n / m + if Nat.eqb (S n mod m) 0 then 1 else 0)%nat.
Proof.
  intros Hm. pose proof (Nat.div_mod n m Hm) as E. pose proof (Nat.mod_upper_bound n m Hm) as B.
  destruct (Nat.eq_dec (n mod m + 1) m) as [H|H].
  - assert (Q : (S n / m = n / m + 1)%nat) by (symmetry; apply (Nat.div_unique _ m _ 0); lia).
    assert (R0 : (S n mod m = 0)%nat) by (symmetry; apply (Nat.mod_unique _ m (n / m + 1)); lia).
    rewrite Q, R0. reflexivity.
  - assert (Q : (S n / m = n / m)%nat) by (symmetry; apply (Nat.div_unique _ m _ (n mod m + 1)); lia).
    assert (R0 : (S n mod m = n mod m + 1)%nat) by (symmetry; apply (Nat.mod_unique _ m (n / m)); lia).
    rewrite Q, R0. destruct (Nat.eqb_spec (n mod m + 1) 0); lia.
Qed.
Lemma multiples f k m : (m <> 0)%nat ->
  (List.length (filter (fun i => Nat.eqb (i mod m) 0) (seq (f + 1) k)) = (f + k) / m - f / m)%nat.
Proof.
  intros Hm. induction k as [|k IH]; [rewrite Nat.add_0_r, Nat.sub_diag; reflexivity|].
  rewrite seq_S, filter_app, app_length, IH. replace (f + S k)%nat with (S (f + k)) by lia.
  rewrite (div_succ (f + k) m Hm). replace (f + 1 + k)%nat with (S (f + k)) by lia.
  assert (f / m <= (f + k) / m)%nat by (apply Nat.div_le_mono; lia). cbn [filter].
  destruct (Nat.eqb (S (f + k) mod m) 0); cbn [List.length]; lia.
Qed.
Lemma filter_length_le {A} (p : A -> bool) l : (List.length (filter p l) <= List.length l)%nat.
Proof. induction l as [|x l IH]; cbn [filter List.length]; [lia|]. destruct (p x); cbn [List.length]; lia. Qed.
Lemma filter_neg {A} (p : A -> bool) l : (List.length (filter (fun x => negb (p x)) l) = List.length l - List.length (filter p l))%nat.
Proof.
  induction l as [|x l IH]; [reflexivity|]. cbn [filter List.length]. pose proof (filter_length_le p l).
  destruct (p x); cbn [negb List.length]; lia.
Qed.

(** ** Averages *)
Lemma total_acc l a : fold_left Rplus l a = a + total l.
Proof.
  unfold total. revert a. induction l as [|x l IH]; intros a; cbn [fold_left]; [ring|].
  rewrite (IH (a + x)), (IH (0 + x)). ring.
Qed.
Lemma total_cons x l : total (x :: l) = x + total l.
Proof. unfold total at 1. cbn [fold_left]. rewrite total_acc. ring. Qed.
Lemma total_const l c : (forall x, In x l -> x = c) -> total l = INR (List.length l) * c.
Proof.
  induction l as [|x l IH]; intros H; [unfold total; simpl; ring|].
  rewrite total_cons, IH by (intros; apply H; right; assumption). rewrite (H x (or_introl eq_refl)).
  cbn [List.length]. rewrite S_INR. ring.
Qed.
Lemma total_bounds l c : (forall x, In x l -> 0 <= x <= c) -> 0 <= total l <= INR (List.length l) * c.
Proof.
  induction l as [|x l IH]; intros H; [unfold total; simpl; lra|].
  rewrite total_cons. cbn [List.length]. rewrite S_INR.
  pose proof (IH (fun y Hy => H y (or_intror Hy))). pose proof (H x (or_introl eq_refl)). lra.
Qed.
Lemma length_pos (x : R) l : 0 < INR (List.length (x :: l)).
Proof. cbn [List.length]. apply lt_0_INR. lia. Qed.
Lemma average_const x l c : (forall y, In y (x :: l) -> y = c) -> average (x :: l) = c.
Proof. intros H. unfold average. rewrite (total_const _ c H). pose proof (length_pos x l). field. lra. Qed.
Lemma average_bounds x l c : (forall y, In y (x :: l) -> 0 <= y <= c) -> 0 <= average (x :: l) <= c.
Proof.
  intros H. unfold average. pose proof (total_bounds _ c H) as [H0 H1]. pose proof (length_pos x l) as P. split.
  - apply Rmult_le_pos; [exact H0|left; apply Rinv_0_lt_compat; exact P].
  - apply Rmult_le_reg_r with (1 := P). unfold Rdiv. rewrite Rmult_assoc, Rinv_l, Rmult_1_r by lra. lra.
Qed.

Lemma pick_spec times m keep frames r : pick times m keep frames = Ok r ->
  r = map (fun i => nth i times 0) (filter keep frames) /\ (forall i, In i frames -> keep i = true -> (i < List.length times)%nat).
Proof.
  revert r. induction frames as [|i t IH]; intros r H; cbn [pick] in H.
  - injection H as <-. split; [reflexivity|intros i []].
  - destruct (Nat.eqb m 0); [discriminate|]. cbn [filter]. destruct (keep i) eqn:K.
    + destruct (nth_error times i) eqn:E; [|discriminate]. destruct (pick times m keep t) as [r'|] eqn:P; [|discriminate].
      cbn [bind] in H. injection H as <-. destruct (IH _ eq_refl) as [-> B]. split.
      * cbn [map]. f_equal. symmetry. apply nth_error_nth. exact E.
      * intros j [<-|Hj] Kj; [apply nth_error_Some; congruence|apply B; assumption].
    + destruct (IH _ H) as [-> B]. split; [reflexivity|]. intros j [<-|Hj] Kj; [congruence|apply B; assumption].
Qed.
Lemma pick_ok times m keep frames : (m <> 0)%nat -> (forall i, In i frames -> (i < List.length times)%nat) ->
  exists r, pick times m keep frames = Ok r.
Proof.
  intros Hm. induction frames as [|i t IH]; intros H; cbn [pick]; [eexists; reflexivity|].
  destruct (Nat.eqb_spec m 0); [contradiction|].
  destruct (IH (fun j Hj => H j (or_intror Hj))) as [r E]. destruct (keep i); [|eexists; exact E].
  destruct (nth_error times i) eqn:N; [rewrite E; eexists; reflexivity|].
  apply nth_error_None in N. specialize (H i (or_introl eq_refl)). lia.
Qed.
Lemma count_spec m keep frames k : count m keep frames = Ok k -> k = List.length (filter keep frames) /\ (m <> 0 \/ frames = [])%nat.
Proof.
  unfold count. destruct frames; [intros H; injection H as <-; split; [reflexivity|right; reflexivity]|].
  destruct (Nat.eqb_spec m 0); [discriminate|]. intros H. injection H as <-. split; [reflexivity|left; assumption].
Qed.
Lemma count_ok m keep frames : (m <> 0)%nat -> count m keep frames = Ok (List.length (filter keep frames)).
Proof. intros Hm. unfold count. destruct frames; [reflexivity|]. destruct (Nat.eqb_spec m 0); [contradiction|reflexivity]. Qed.

(** Frames from [start] to [frameno] which generate, and those which do not. *)
Definition generating (m start i : nat) : bool := (Nat.eqb (i mod m) 0 || Nat.eqb i start)%bool.

Lemma time_left_inv jit times frameno num_frames m start t flags :
  calculate_time_left jit times frameno num_frames m start = Ok (t, flags) ->
  exists longs shorts la flag1,
    longs = map (fun i => nth i times 0) (filter (generating m start) (seq start (frameno + 1 - start))) /\
    shorts = map (fun i => nth i times 0) (filter (fun i => negb (generating m start i)) (seq start (frameno + 1 - start))) /\
    (la, flag1) = (if jit then
      match longs with
      | _ :: (_ :: _) as rest => (average rest, ""%string)
      | [x] => (x, "<"%string)
      | [] => (0, ""%string)
      end
    else match longs with [] => (0, ""%string) | _ => (average longs, ""%string) end) /\
    let sa := match shorts with [] => la | _ => average shorts end in
    let nl := ((Nat.max (frameno + 1) num_frames - 1) / m - frameno / m)%nat in
    let ns := (num_frames - (frameno + 1) - nl)%nat in
    t = (INR ns * sa + INR nl * la) * (103 / 100) /\
    (flags = (flag1 ++ if (Nat.eqb frameno start && Nat.ltb 0 ns)%bool then "<" else ""))%string.
Proof.
  unfold calculate_time_left. cbv zeta.
  destruct (pick times m (fun i => (Nat.eqb (i mod m) 0 || Nat.eqb i start)%bool) _) as [longs|] eqn:PL; [|discriminate].
  cbn [bind]. destruct (if jit then _ else _) as [la flag1] eqn:EL.
  destruct (pick times m (fun i => (negb (Nat.eqb (i mod m) 0) && negb (Nat.eqb i start))%bool) _) as [shorts|] eqn:PS; cbn [bind]; [|discriminate].
  destruct (count m (fun i => Nat.eqb (i mod m) 0) _) as [nl|] eqn:CL; cbn [bind]; [|discriminate].
  destruct (count m (fun i => negb (Nat.eqb (i mod m) 0)) _) as [ns|] eqn:CS; cbn [bind]; [|discriminate]. intros H. injection H as <- <-.
  apply pick_spec in PL. apply pick_spec in PS. apply count_spec in CL. apply count_spec in CS.
  destruct PL as [-> _]. destruct PS as [-> _]. destruct CL as [-> CL]. destruct CS as [-> CS].
  assert (NL : (List.length (filter (fun i => Nat.eqb (i mod m) 0) (seq (frameno + 1) (num_frames - (frameno + 1))))
               = (Nat.max (frameno + 1) num_frames - 1) / m - frameno / m)%nat).
  { destruct CL as [Hm|E].
    - rewrite multiples by exact Hm. f_equal. f_equal. lia.
    - rewrite E. assert (num_frames - (frameno + 1) = 0)%nat by (destruct (num_frames - (frameno + 1))%nat; [reflexivity|discriminate]).
      replace (Nat.max (frameno + 1) num_frames - 1)%nat with frameno by lia. rewrite Nat.sub_diag. reflexivity. }
  rewrite filter_neg, NL, seq_length.
  eexists _, _, la, flag1. split; [reflexivity|]. split; [reflexivity|]. split; [symmetry; exact EL|]. split; [|reflexivity].
  replace (filter (fun i => (negb (Nat.eqb (i mod m) 0) && negb (Nat.eqb i start))%bool) (seq start (frameno + 1 - start)))
      with (filter (fun i => negb (generating m start i)) (seq start (frameno + 1 - start))).
  2: { apply filter_ext. intros i. unfold generating. rewrite negb_orb. reflexivity. }
  reflexivity.
Qed.

Lemma seq_past start frameno i : In i (seq start (frameno + 1 - start)) <-> (start <= i <= frameno)%nat.
Proof. rewrite in_seq. lia. Qed.

Lemma time_left_ok jit times frameno num_frames m start :
  (m <> 0)%nat -> (frameno < List.length times)%nat ->
  exists t flags, calculate_time_left jit times frameno num_frames m start = Ok (t, flags).
Proof.
  intros Hm Hl. unfold calculate_time_left. cbv zeta.
  destruct (pick_ok times m (fun i => (Nat.eqb (i mod m) 0 || Nat.eqb i start)%bool) (seq start (frameno + 1 - start)) Hm) as [r ->].
  { intros i Hi. apply seq_past in Hi. lia. }
  cbn [bind]. destruct (if jit then _ else _) as [la flag1].
  destruct (pick_ok times m (fun i => (negb (Nat.eqb (i mod m) 0) && negb (Nat.eqb i start))%bool) (seq start (frameno + 1 - start)) Hm) as [r' ->].
  { intros i Hi. apply seq_past in Hi. lia. }
  rewrite !count_ok by exact Hm. cbn [bind]. do 2 eexists. reflexivity.
Qed.
Lemma time_left_zero jit times frameno num_frames start :
  (start <= frameno)%nat -> calculate_time_left jit times frameno num_frames 0 start = Raise ZeroDivisionError.
Proof.
  intros H. unfold calculate_time_left. cbv zeta. replace (frameno + 1 - start)%nat with (S (frameno - start)) by lia. reflexivity.
Qed.

Lemma in_times (times : list R) (P : nat -> Prop) (p : nat -> bool) start frameno x :
  In x (map (fun i => nth i times 0) (filter p (seq start (frameno + 1 - start)))) ->
  exists i, (start <= i <= frameno)%nat /\ p i = true /\ x = nth i times 0.
Proof.
  rewrite in_map_iff. intros [i [<- Hi]]. apply filter_In in Hi. destruct Hi as [Hi Hp]. apply seq_past in Hi.
  exists i. auto.
Qed.

Lemma time_left_bounds jit times frameno num_frames m start t flags T :
  (forall i, (start <= i <= frameno)%nat -> 0 <= nth i times 0 <= T) -> 0 <= T ->
  calculate_time_left jit times frameno num_frames m start = Ok (t, flags) ->
  0 <= t <= 103 / 100 * (INR (num_frames - (frameno + 1)) * T).
Proof.
  intros HT T0 H. apply time_left_inv in H. destruct H as [longs [shorts [la [flag1 [EL [ES [ELA [Et _]]]]]]]].
  assert (BL : forall x, In x longs -> 0 <= x <= T).
  { intros x Hx. rewrite EL in Hx. apply (in_times times (fun _ => True)) in Hx. destruct Hx as [i [Hi [_ ->]]]. apply HT. exact Hi. }
  assert (BS : forall x, In x shorts -> 0 <= x <= T).
  { intros x Hx. rewrite ES in Hx. apply (in_times times (fun _ => True)) in Hx. destruct Hx as [i [Hi [_ ->]]]. apply HT. exact Hi. }
  clear EL ES. assert (LA : 0 <= la <= T).
  { destruct jit; destruct longs as [|x [|y l]]; injection ELA as -> _; try lra.
    - apply BL. left. reflexivity.
    - apply average_bounds. intros z Hz. apply BL. right. exact Hz.
    - apply average_bounds. exact BL.
    - apply average_bounds. exact BL. }
  set (sa := match shorts with [] => la | _ => average shorts end) in *.
  assert (SA : 0 <= sa <= T) by (unfold sa; destruct shorts; [exact LA|apply average_bounds; exact BS]).
  set (nl := ((Nat.max (frameno + 1) num_frames - 1) / m - frameno / m)%nat) in *.
  assert (NL : (nl <= num_frames - (frameno + 1))%nat).
  { unfold nl. destruct (Nat.eq_dec m 0) as [->|Hm]; [simpl; lia|].
    destruct (le_lt_dec num_frames (frameno + 1)) as [Hle|Hlt].
    - replace (Nat.max (frameno + 1) num_frames - 1)%nat with frameno by lia. lia.
    - replace (Nat.max (frameno + 1) num_frames - 1)%nat with (frameno + (num_frames - (frameno + 1)))%nat by lia.
      rewrite <- multiples by exact Hm. etransitivity; [apply filter_length_le|]. rewrite seq_length. lia. }
  set (N := (num_frames - (frameno + 1))%nat) in *. rewrite minus_INR in Et by exact NL.
  pose proof (pos_INR nl). pose proof (le_INR _ _ NL). rewrite Et. clear Et.
  assert (0 <= (INR N - INR nl) * sa <= (INR N - INR nl) * T) by (split; [apply Rmult_le_pos; lra|apply Rmult_le_compat_l; lra]).
  assert (0 <= INR nl * la <= INR nl * T) by (split; [apply Rmult_le_pos; lra|apply Rmult_le_compat_l; lra]).
  lra.
Qed.

Lemma time_left_exact jit times frameno num_frames m start t flags L S :
  (start <= frameno)%nat ->
  (forall i, (start <= i <= frameno)%nat -> generating m start i = true ->
     nth i times 0 = L \/ (jit = true /\ i = start /\ exists j, (start < j <= frameno)%nat /\ generating m start j = true)) ->
  (forall i, (start <= i <= frameno)%nat -> generating m start i = false -> nth i times 0 = S) ->
  (exists i, (start <= i <= frameno)%nat /\ generating m start i = false) \/ S = L ->
  calculate_time_left jit times frameno num_frames m start = Ok (t, flags) ->
  let nl := ((Nat.max (frameno + 1) num_frames - 1) / m - frameno / m)%nat in
  let ns := (num_frames - (frameno + 1) - nl)%nat in
  t = 103 / 100 * (INR nl * L + INR ns * S).
Proof.
  intros Hs HL HS HX H. apply time_left_inv in H. destruct H as [longs [shorts [la [flag1 [EL [ES [ELA [Et _]]]]]]]].
  intros nl ns.
  assert (EL' : longs = nth start times 0 :: map (fun i => nth i times 0) (filter (generating m start) (seq (start + 1) (frameno - start)))).
  { rewrite EL. replace (frameno + 1 - start)%nat with (Datatypes.S (frameno - start)) by lia. cbn [seq filter].
    replace (generating m start start) with true by (unfold generating; rewrite Nat.eqb_refl, orb_true_r; reflexivity).
    cbn [map]. rewrite Nat.add_1_r. reflexivity. }
  assert (TL : forall x, In x (map (fun i => nth i times 0) (filter (generating m start) (seq (start + 1) (frameno - start)))) -> x = L).
  { intros x Hx. apply in_map_iff in Hx. destruct Hx as [i [<- Hi]]. apply filter_In in Hi. destruct Hi as [Hi Hg].
    apply in_seq in Hi. destruct (HL i) as [E|[_ [E _]]]; [lia|exact Hg|exact E|lia]. }
  set (rest := map _ _) in EL', TL.
  assert (HE : nth start times 0 = L \/ (jit = true /\ rest <> [])).
  { destruct (HL start) as [E|[J [_ [j [Hj Gj]]]]]; [lia|unfold generating; rewrite Nat.eqb_refl, orb_true_r; reflexivity|left; exact E|].
    right. split; [exact J|]. unfold rest. intros E. apply map_eq_nil in E.
    assert (I : In j (filter (generating m start) (seq (start + 1) (frameno - start)))) by (apply filter_In; rewrite in_seq; split; [lia|exact Gj]).
    rewrite E in I. destruct I. }
  assert (LA : la = L).
  { rewrite EL' in ELA. destruct rest as [|y r] eqn:ER.
    - destruct HE as [E|[_ N]]; [|congruence]. destruct jit; injection ELA as -> _; [exact E|].
      apply average_const. intros z [<-|[]]. exact E.
    - destruct jit; injection ELA as -> _.
      + apply average_const. exact TL.
      + destruct HE as [E|[J _]]; [|discriminate]. apply average_const. intros z [<-|Hz]; [exact E|apply TL; exact Hz]. }
  assert (SS : forall x, In x shorts -> x = S).
  { intros x Hx. rewrite ES in Hx. apply (in_times times (fun _ => True)) in Hx. destruct Hx as [i [Hi [G ->]]]. apply HS; [exact Hi|].
    destruct (generating m start i); [discriminate|reflexivity]. }
  assert (SA : match shorts with [] => la | _ => average shorts end = S).
  { destruct shorts as [|x l] eqn:EQ.
    - destruct HX as [[i [Hi G]]|E]; [exfalso|congruence]. symmetry in ES. apply map_eq_nil in ES.
      assert (I : In i (filter (fun i => negb (generating m start i)) (seq start (frameno + 1 - start)))) by (apply filter_In; rewrite seq_past, G; auto).
      rewrite ES in I. destruct I.
    - apply average_const. exact SS. }
  cbv zeta in Et. rewrite SA, LA in Et. rewrite Et. fold nl. fold ns. ring.
Qed.

(** ** Digits *)
Lemma nat_digit d : (0 <= d < 10)%Z -> Z.of_nat (nat_of_ascii (digit d)) = (48 + d)%Z.
Proof. intros H. unfold digit. rewrite nat_ascii_embedding by lia. lia. Qed.
Lemma read_digit sum number d t : (0 <= d < 10)%Z -> read sum number (String (digit d) t) = read sum (10 * number + d) t.
Proof.
  intros H. cbn [read].
  assert (N : forall c, (nat_of_ascii c < 48 \/ 58 <= nat_of_ascii c)%nat -> Ascii.eqb (digit d) c = false).
  { intros c Hc. apply Ascii.eqb_neq. intros E. pose proof (nat_digit d H) as X. rewrite E in X. lia. }
  rewrite !N by (unfold nat_of_ascii; simpl; lia). rewrite nat_digit by exact H. f_equal. lia.
Qed.
Lemma read_digits fuel : forall n sum t, (0 <= n < 2 ^ Z.of_nat fuel)%Z -> (fuel <> 0)%nat ->
  read sum 0 (digits fuel n t) = read sum n t.
Proof.
  induction fuel as [|f IH]; intros n sum t Hn Hf; [contradiction|]. cbn [digits].
  pose proof (Z.div_mod n 10 ltac:(lia)) as E. pose proof (Z.mod_pos_bound n 10 ltac:(lia)) as B.
  destruct (Z.eqb_spec (n / 10) 0) as [H|H].
  - rewrite read_digit by exact B. f_equal. lia.
  - assert (P : (0 < n / 10)%Z) by (assert (0 <= n / 10)%Z by (apply Z.div_pos; lia); lia).
    rewrite Nat2Z.inj_succ, Z.pow_succ_r in Hn by lia.
    rewrite IH; [rewrite read_digit by exact B; f_equal; lia| |].
    + lia.
    + destruct f; [simpl in Hn; lia|discriminate].
Qed.
Lemma read_decimal sum n t : (0 <= n)%Z -> read sum 0 (decimal n ++ t) = read sum n t.
Proof.
  intros Hn. unfold decimal.
  assert (A : forall fuel n u t, (digits fuel n u ++ t = digits fuel n (u ++ t))%string).
  { induction fuel as [|f IH]; intros m u v; cbn [digits]; [reflexivity|]. destruct (Z.eqb (m / 10) 0); [reflexivity|]. rewrite IH. reflexivity. }
  rewrite A. apply read_digits; [|discriminate]. split; [exact Hn|].
  rewrite Nat2Z.inj_succ, Z2Nat.id by apply Z.log2_nonneg.
  destruct (Z.eq_dec n 0) as [->|]; [reflexivity|]. apply Z.log2_spec. lia.
Qed.
Lemma fill_app c k s t : (fill_with c k s ++ t = fill_with c k (s ++ t))%string.
Proof. induction k as [|k IH]; [reflexivity|]. cbn [fill_with]. cbn [String.append]. rewrite IH. reflexivity. Qed.
Lemma read_blank sum k t : read sum 0 (fill_with " " k t) = read sum 0 t.
Proof. induction k as [|k IH]; [reflexivity|exact IH]. Qed.
Lemma read_zero sum k t : read sum 0 (fill_with "0" k t) = read sum 0 t.
Proof. induction k as [|k IH]; [reflexivity|exact IH]. Qed.
Lemma read_align sum c w n t : c = " "%char \/ c = "0"%char -> (0 <= n)%Z -> read sum 0 (align c w (decimal n) ++ t) = read sum n t.
Proof.
  intros Hc Hn. unfold align. rewrite fill_app.
  destruct Hc as [-> | ->]; [rewrite read_blank|rewrite read_zero]; apply read_decimal; exact Hn.
Qed.
Lemma append_nil s : (s ++ "" = s)%string.
Proof. induction s as [|c s IH]; [reflexivity|]. cbn [String.append]. rewrite IH. reflexivity. Qed.

(** ** Whole parts *)
Lemma floor_bounds x : IZR (Int_part x) <= x < IZR (Int_part x) + 1.
Proof. pose proof (base_Int_part x). lra. Qed.
Lemma floor_unique z x : IZR z <= x < IZR z + 1 -> Int_part x = z.
Proof.
  intros H. pose proof (floor_bounds x) as B.
  assert (IZR z < IZR (Int_part x + 1)) by (rewrite plus_IZR; lra). assert (IZR (Int_part x) < IZR (z + 1)) by (rewrite plus_IZR; lra).
  apply lt_IZR in H0. apply lt_IZR in H1. lia.
Qed.
Lemma floor_IZR z : Int_part (IZR z) = z.
Proof. apply floor_unique. lra. Qed.
Lemma floor_div x k : (0 < k)%Z -> Int_part (x / IZR k) = (Int_part x / k)%Z.
Proof.
  intros Hk. apply floor_unique. pose proof (floor_bounds x) as B. set (z := Int_part x) in *.
  pose proof (Z.div_mod z k ltac:(lia)) as E. pose proof (Z.mod_pos_bound z k Hk) as M. apply IZR_lt in Hk.
  assert (E' : IZR z = IZR k * IZR (z / k) + IZR (z mod k)) by (rewrite <- mult_IZR, <- plus_IZR; f_equal; exact E).
  assert (M0 : 0 <= IZR (z mod k)) by (apply IZR_le; lia). assert (M1 : IZR (z mod k) + 1 <= IZR k) by (rewrite <- plus_IZR; apply IZR_le; lia).
  split.
  - apply Rmult_le_reg_r with (1 := Hk). unfold Rdiv. rewrite Rmult_assoc, Rinv_l by lra. lra.
  - apply Rmult_lt_reg_r with (1 := Hk). unfold Rdiv. rewrite Rmult_assoc, Rinv_l by lra. lra.
Qed.
Lemma floor_rmod x k : (0 < k)%Z -> Int_part (rmod x (IZR k)) = (Int_part x mod k)%Z.
Proof.
  intros Hk. unfold rmod. rewrite floor_div by exact Hk. rewrite <- mult_IZR. apply floor_unique.
  pose proof (floor_bounds x) as B. rewrite Z.mod_eq by lia. rewrite minus_IZR. lra.
Qed.

Lemma floor_nonneg t : 0 <= t -> (0 <= Int_part t)%Z.
Proof.
  intros H. pose proof (floor_bounds t). assert (X : IZR (-1) < IZR (Int_part t)) by lra. apply lt_IZR in X. lia.
Qed.
Lemma format_long t :
  let z := Int_part t in
  let d := (z / 86400)%Z in let h := (z / 3600 mod 24)%Z in let m := (z / 60 mod 60)%Z in let s := (z mod 60)%Z in
  let two c n := align c 2 (decimal n) in
  (86400 <= t -> format_elapsed_time t = (decimal d ++ "d" ++ two " "%char h ++ ":" ++ two "0"%char m ++ ":" ++ two "0"%char s)%string) /\
  (3600 <= t < 86400 -> format_elapsed_time t = (two " "%char h ++ ":" ++ two "0"%char m ++ ":" ++ two "0"%char s)%string) /\
  (60 <= t < 3600 -> format_elapsed_time t = ("   " ++ two " "%char m ++ ":" ++ two "0"%char s)%string).
Proof.
  intros z d h m s two.
  assert (S1 : Int_part (rmod t 60) = s) by (apply (floor_rmod t 60); lia).
  assert (M1 : Int_part (t / 60) = (z / 60)%Z) by (apply (floor_div t 60); lia).
  assert (M2 : shown (rmod (IZR (Int_part (t / 60))) 60) = m).
  { unfold shown. rewrite (floor_rmod _ 60), floor_IZR, M1 by lia. reflexivity. }
  assert (H1 : Int_part (IZR (Int_part (t / 60)) / 60) = (z / 3600)%Z).
  { rewrite (floor_div _ 60), floor_IZR, M1 by lia. rewrite Z.div_div by lia. reflexivity. }
  assert (H2 : shown (rmod (IZR (Int_part (IZR (Int_part (t / 60)) / 60))) 24) = h).
  { unfold shown. rewrite (floor_rmod _ 24), floor_IZR, H1 by lia. reflexivity. }
  assert (D1 : shown (IZR (Int_part (IZR (Int_part (IZR (Int_part (t / 60)) / 60)) / 24))) = d).
  { unfold shown. rewrite floor_IZR. rewrite (floor_div _ 24), floor_IZR, H1 by lia. rewrite Z.div_div by lia. reflexivity. }
  unfold format_elapsed_time, divmod, Rleb. split; [|split]; intros H.
  - destruct (Rle_dec 86400 t); [|lra]. rewrite D1, H2, M2. unfold shown. rewrite S1. reflexivity.
  - destruct (Rle_dec 86400 t); [lra|]. destruct (Rle_dec 3600 t); [|lra].
    assert (E : shown (IZR (Int_part (IZR (Int_part (t / 60)) / 60))) = h).
    { unfold shown. rewrite floor_IZR, H1. unfold h. symmetry. apply Z.mod_small. split; [apply Z.div_pos; [|lia]|apply Z.div_lt_upper_bound; [lia|]].
      - apply floor_nonneg. lra.
      - apply lt_IZR. pose proof (floor_bounds t) as B. fold z in B. change (3600 * 24)%Z with 86400%Z. lra. }
    rewrite E, M2. unfold shown. rewrite S1. reflexivity.
  - destruct (Rle_dec 86400 t); [lra|]. destruct (Rle_dec 3600 t); [lra|]. destruct (Rle_dec 60 t); [|lra].
    rewrite M2. unfold shown. rewrite S1. reflexivity.
Qed.

Lemma format_reads t : 60 <= t -> read 0 0 (format_elapsed_time t) = Int_part t.
Proof.
  intros H. destruct (format_long t) as [FD [FH FM]]. set (z := Int_part t) in *.
  pose proof (floor_nonneg t ltac:(lra)) as Z0. fold z in Z0. pose proof (floor_bounds t) as B. fold z in B.
  assert (Hm : (0 <= z / 60 mod 60)%Z) by (apply Z.mod_pos_bound; lia). assert (Hs : (0 <= z mod 60)%Z) by (apply Z.mod_pos_bound; lia).
  assert (Hh : (0 <= z / 3600 mod 24)%Z) by (apply Z.mod_pos_bound; lia). assert (Hd : (0 <= z / 86400)%Z) by (apply Z.div_pos; lia).
  assert (E3 : (z / 3600 = 24 * (z / 86400) + z / 3600 mod 24)%Z).
  { replace (z / 86400)%Z with (z / 3600 / 24)%Z by (rewrite Z.div_div by lia; reflexivity). apply Z.div_mod. lia. }
  assert (E2 : (z / 60 = 60 * (z / 3600) + z / 60 mod 60)%Z).
  { replace (z / 3600)%Z with (z / 60 / 60)%Z by (rewrite Z.div_div by lia; reflexivity). apply Z.div_mod. lia. }
  assert (E1 : (z = 60 * (z / 60) + z mod 60)%Z) by (apply Z.div_mod; lia).
  destruct (Rle_dec 86400 t) as [H1|H1]; [|destruct (Rle_dec 3600 t) as [H2|H2]].
  - rewrite FD by exact H1. rewrite read_decimal by exact Hd. cbn [String.append read].
    change (Ascii.eqb "d" ":") with false. change (Ascii.eqb "d" "d") with true. cbn iota.
    rewrite read_align by auto. cbn [String.append read]. change (Ascii.eqb ":" ":") with true. cbn iota.
    rewrite read_align by auto. cbn [String.append read]. change (Ascii.eqb ":" ":") with true. cbn iota.
    rewrite <- (append_nil (align "0" 2 (decimal (z mod 60)))). rewrite read_align by auto. cbn [read]. lia.
  - rewrite FH by lra. assert (D0 : (z / 86400 = 0)%Z) by (apply Z.div_small; split; [exact Z0|apply lt_IZR; lra]).
    rewrite read_align by auto. cbn [String.append read]. change (Ascii.eqb ":" ":") with true. cbn iota.
    rewrite read_align by auto. cbn [String.append read]. change (Ascii.eqb ":" ":") with true. cbn iota.
    rewrite <- (append_nil (align "0" 2 (decimal (z mod 60)))). rewrite read_align by auto. cbn [read]. lia.
  - rewrite FM by lra. assert (D0 : (z / 3600 = 0)%Z) by (apply Z.div_small; split; [exact Z0|apply lt_IZR; lra]).
    cbn [String.append].
    change (String " " (String " " (String " " (align " " 2 (decimal (z / 60 mod 60)) ++ String ":" (align "0" 2 (decimal (z mod 60)))))))
      with (fill_with " " 3 (align " " 2 (decimal (z / 60 mod 60)) ++ String ":" (align "0" 2 (decimal (z mod 60)))))%string.
    rewrite read_blank, read_align by auto. cbn [String.append read]. change (Ascii.eqb ":" ":") with true. cbn iota.
    rewrite <- (append_nil (align "0" 2 (decimal (z mod 60)))). rewrite read_align by auto. cbn [read]. lia.
Qed.

Lemma tenths_near x : Rabs (10 * x - IZR (tenths x)) <= 1 / 2.
Proof.
  unfold tenths. pose proof (floor_bounds (10 * x + 1 / 2)) as B. set (k := Int_part _) in *. apply Rabs_le.
  destruct (Req_EM_T _ _) as [E|]; [destruct (Z.odd k); [rewrite minus_IZR|]|]; lra.
Qed.
Lemma tenths_nonneg x : 0 <= x -> (0 <= tenths x)%Z.
Proof.
  intros H. unfold tenths. pose proof (floor_nonneg (10 * x + 1 / 2) ltac:(lra)) as K. set (k := Int_part _) in *.
  destruct (Req_EM_T _ _); [|exact K]. destruct (Z.odd k) eqn:O; [|exact K]. destruct (Z.eq_dec k 0) as [E|]; [rewrite E in O; discriminate|lia].
Qed.
