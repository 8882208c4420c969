(** C42, C44, C47: the table of size ratios and the tables of scalars. *)
From Coq Require Import Reals List Arith Bool Lia Lra Sorted Permutation.
From Verif Require Import Base Py Model_Mob Model_Close Model_Table Proof_Table Spec_Layout Spec_R2B Spec_Scalars Proof_Table2.
Import ListNotations.
Local Open Scope R_scope.

(** ** C42 *)
(** The tabulated ratios and their reciprocals, and nothing else. *)
Theorem C42_members (lam_range : list R) (x : R) :
  In x (lam_range_with_reciprocals lam_range) <-> In x lam_range \/ exists y, In y lam_range /\ x = 1 / y.
Proof. exact (ratios_members lam_range x). Qed.
Print Assumptions C42_members.

Theorem C42_sorted (lam_range : list R) : StronglySorted Rle (lam_range_with_reciprocals lam_range).
Proof. exact (ratios_sorted lam_range). Qed.
Print Assumptions C42_sorted.

(** Distinct ratios stay distinct. *)
Theorem C42_once (lam_range : list R) : NoDup lam_range -> NoDup (lam_range_with_reciprocals lam_range).
Proof. exact (ratios_nodup lam_range). Qed.
Print Assumptions C42_once.

Theorem C42_closed (lam_range : list R) :
  (forall x, In x lam_range -> x <> 0) ->
  forall x, In x (lam_range_with_reciprocals lam_range) -> In (1 / x) (lam_range_with_reciprocals lam_range).
Proof. exact (ratios_closed lam_range). Qed.
Print Assumptions C42_closed.

(** The list by which the tables were generated is the list by which they are
    looked up. *)
Theorem C42_same_as_generator (lam_range : list R) :
  (forall x, In x lam_range -> x <> 0) -> NoDup lam_range ->
  generator_ratios lam_range = lam_range_with_reciprocals lam_range.
Proof. exact (generator_same lam_range). Qed.
Print Assumptions C42_same_as_generator.

Ltac decide_all := repeat match goal with
  | |- context [Req_EM_T ?a ?b] => destruct (Req_EM_T a b); [try (exfalso; lra)|try (exfalso; (congruence || lra))]; cbn
  | |- context [Rleb ?a ?b] => unfold Rleb at 1; destruct (Rle_dec a b); [try (exfalso; lra)|try (exfalso; lra)]; cbn [insert]
  end.
Example C42_example_list : lam_range_with_reciprocals [1; /100; /10] = [/100; /10; 1; 10; 100].
Proof.
  unfold lam_range_with_reciprocals, load_ratios, append_reciprocals, mem. cbn [fold_left existsb].
  replace (1 / 1) with 1 by field. replace (1 / / 100) with 100 by field. replace (1 / / 10) with 10 by field.
  decide_all. cbn [snd sort fold_right insert app].
  decide_all. reflexivity.
Qed.
Example C42_example_hypotheses : (forall x, In x [1; /100; /10] -> x <> 0) /\ NoDup [1; /100; /10].
Proof.
  split.
  - intros x [<-|[<-|[<-|[]]]]; lra.
  - constructor; [intros [H|[H|[]]]; lra|]. constructor; [intros [H|[]]; lra|]. constructor; [intros []|constructor].
Qed.

(** (Finding) With a repeated ratio the two lists differ. *)
Theorem C42_repeated_ratio_refuted :
  exists lam_range, (forall x, In x lam_range -> x <> 0) /\
    length (generator_ratios lam_range) <> length (lam_range_with_reciprocals lam_range).
Proof.
  exists [2; 2]. split; [intros x [<-|[<-|[]]]; lra|].
  unfold generator_ratios, lam_range_with_reciprocals, load_ratios, append_reciprocals, mem. cbn [fold_left existsb filter].
  decide_all. cbn [snd sort fold_right insert app]. decide_all. discriminate.
Qed.
Print Assumptions C42_repeated_ratio_refuted.

(** ** C44 *)
(** The row for each separation, ratio and gamma, at its own place. *)
Theorem C44_rows (s_dash lams : list R) T s w g :
  (s < length s_dash)%nat -> (w < length lams)%nat -> (g < 2)%nat ->
  fill_general s_dash lams T (general_index (length s_dash) s w g)
  = Some (Row (nth s s_dash 0) (nth w lams 0) g (fun n => T n g s w)).
Proof. exact (fill_row s_dash lams T s w g). Qed.
Print Assumptions C44_rows.

(** Distinct places, inside the table, and every place of the table is taken. *)
Theorem C44_bijection (S W : nat) :
  (forall s w g s' w' g', (s < S)%nat -> (s' < S)%nat -> (g < 2)%nat -> (g' < 2)%nat ->
     general_index S s w g = general_index S s' w' g' -> s = s' /\ w = w' /\ g = g') /\
  (forall s w g, (s < S)%nat -> (w < W)%nat -> (g < 2)%nat -> (general_index S s w g < general_rows S W)%nat) /\
  (forall r, (r < general_rows S W)%nat -> exists s w g, (s < S)%nat /\ (w < W)%nat /\ (g < 2)%nat /\ general_index S s w g = r).
Proof.
  split; [intros s w g s' w' g'; exact (general_index_inj S s w g s' w' g')|].
  split; [intros s w g; exact (general_index_bound S W s w g)|exact (general_index_onto S W)].
Qed.
Print Assumptions C44_bijection.

(** No row is left empty, and none lies outside. *)
Theorem C44_full (s_dash lams : list R) T r :
  (fill_general s_dash lams T r <> None <-> (r < length s_dash * length lams * 2)%nat).
Proof.
  split.
  - intros H. destruct (Nat.lt_ge_cases r (length s_dash * length lams * 2)) as [L|L]; [exact L|].
    exfalso. apply H. exact (fill_beyond s_dash lams T r L).
  - intros H. destruct (general_index_onto (length s_dash) (length lams) r H) as [s [w [g [Hs [Hw [Hg <-]]]]]].
    rewrite (fill_row s_dash lams T s w g Hs Hw Hg). discriminate.
Qed.
Print Assumptions C44_full.

Example C44_example : fill_general [2; 3] [1; 10; 100] (fun n g s w => INR (n + g + s + w)) 7
  = Some (Row 3 10 1 (fun n => INR (n + 1 + 1 + 1))).
Proof. exact (fill_row [2; 3] [1; 10; 100] (fun n g s w => INR (n + g + s + w)) 1 1 1 ltac:(simpl; lia) ltac:(simpl; lia) ltac:(lia)). Qed.

(** ** C47 *)
(** A tabulated ratio: scalars of the first sphere of the tabulated pair. *)
Theorem C47_direct XYZ lam_range lam :
  In lam lam_range ->
  exists k, (k < length lam_range)%nat /\ nth k lam_range 0 = lam /\
    forall scales n gamma, general_entry scales XYZ lam_range lam n gamma = Ok (XYZ (4 * n + gamma)%nat k).
Proof.
  intros H. destruct (position_from_ok lam_range 0 lam H) as [k Hk]. exists k.
  pose proof (position_from_spec _ _ _ _ Hk) as [Hb Hn]. rewrite Nat.sub_0_r in Hn. split; [lia|]. split; [exact Hn|].
  intros scales n gamma. unfold general_entry, position. rewrite (proj2 (mem_spec _ _) H), Hk. reflexivity.
Qed.
Print Assumptions C47_direct.

(** The reciprocal of a tabulated ratio: for the pair with radii [a] and
    [lam * a], whose unit vector from the first to the second sphere is [d],
    the entries give the moments on the second sphere per motion of the second
    (gamma = 0) and of the first (gamma = 1), as [two_body] gives them for the
    second sphere from the tabulated pair's scalars _22 and _21. *)
Theorem C47_resistance XYZ lam_range lam :
  In lam lam_range -> lam <> 0 -> ~ In (1 / lam) lam_range ->
  exists k x, (k < length lam_range)%nat /\ nth k lam_range 0 = lam /\
    (forall n gamma, general_entry lam_scales_r XYZ lam_range (1 / lam) n gamma = Ok (x gamma n)) /\
    forall gamma k1 k2 d a i j,
      two_body (x gamma) k1 k2 (vopp d) (lam * a) i j
      = two_body (fun n => XYZ (4 * n + 3 - gamma)%nat k) k1 k2 d a i j.
Proof.
  intros Hin Hl Hno. destruct (general_reciprocal_all lam_scales_r XYZ lam_range lam Hin Hl Hno) as [k [Hk [Hn H]]].
  exists k, (fun g n => XYZ (4 * n + 3 - g)%nat k * minus_in_B_and_G n * lam_scales_r (1 / lam) n).
  repeat split; [exact Hk|exact Hn|exact H|].
  intros g k1 k2 d a i j. exact (two_body_reciprocal (fun n => XYZ (4 * n + 3 - g)%nat k) lam a k1 k2 d i j Hl).
Qed.
Print Assumptions C47_resistance.

(** The same for mobility: the tensors of rows 0 of the relabelled pair are the
    tensors of rows 1 of the tabulated pair. [c] are the constants by which
    mobilities were divided. *)
Theorem C47_mobility xyz lam_range lam :
  In lam lam_range -> lam <> 0 -> ~ In (1 / lam) lam_range ->
  exists k x, (k < length lam_range)%nat /\ nth k lam_range 0 = lam /\
    (forall n gamma, general_entry lam_scales_m xyz lam_range (1 / lam) n gamma = Ok (x n gamma)) /\
    forall c a d gamma, a <> 0 -> (gamma < 2)%nat ->
      let there := from_first (fun n g => c n * x n g * m_power (lam * a) n) in
      let here := from_second (fun n g => c n * xyz (4 * n + 3 - g)%nat k * m_power a n) in
      (forall i j, tA there (vopp d) 0 gamma i j = tA here d 1 (1 - gamma) i j) /\
      (forall i j, tB there (vopp d) 0 gamma i j = tB here d 1 (1 - gamma) i j) /\
      (forall i j, tC there (vopp d) 0 gamma i j = tC here d 1 (1 - gamma) i j) /\
      (forall i j k, tG there (vopp d) 0 gamma i j k = tG here d 1 (1 - gamma) i j k) /\
      (forall i j k, tH there (vopp d) 0 gamma i j k = tH here d 1 (1 - gamma) i j k) /\
      (forall i j k l, tM there (vopp d) 0 gamma i j k l = tM here d 1 (1 - gamma) i j k l).
Proof.
  intros Hin Hl Hno. destruct (general_reciprocal_all lam_scales_m xyz lam_range lam Hin Hl Hno) as [k [Hk [Hn H]]].
  exists k, (fun n g => xyz (4 * n + 3 - g)%nat k * minus_in_B_and_G n * lam_scales_m (1 / lam) n).
  split; [exact Hk|]. split; [exact Hn|]. split; [exact H|].
  intros c a d gamma Ha Hg there here.
  exact (same_tensors c (fun n g => xyz (4 * n + 3 - g)%nat k) lam a d Hl Ha gamma Hg).
Qed.
Print Assumptions C47_mobility.

(** Tables generated from pairs that obey the reciprocal theorem satisfy the
    hypothesis under which the near-field matrix is symmetric (C15). *)
Theorem C47_reciprocal_theorem (XYZ : nat -> nat -> R -> R) (table : list R) (sc : nat -> nat -> R -> nat -> R) (ix : R -> nat) s ap aq :
  (forall lam, lam = aq / ap \/ lam = ap / aq -> forall n g, (n < 11)%nat -> (g < 2)%nat ->
     general_entry lam_scales_r (fun m k => XYZ m k s) table lam n g = Ok (sc n g s (ix lam))) ->
  (forall n k, (n < 2 \/ n = 3 \/ n = 4 \/ n = 8 \/ n = 9 \/ n = 10)%nat -> XYZ (4 * n + 1)%nat k s = XYZ (4 * n + 2)%nat k s) ->
  0 < ap -> 0 < aq -> In (aq / ap) table -> (ap = aq \/ ~ In (ap / aq) table) ->
  reciprocal_scalars sc ix s ap aq.
Proof. exact (tables_reciprocal XYZ table sc ix s ap aq). Qed.
Print Assumptions C47_reciprocal_theorem.

Example C47_example :
  In (/ 10) [1; / 10] /\ / 10 <> 0 /\ ~ In (1 / / 10) [1; / 10] /\
  general_entry lam_scales_r (fun m k => INR (m + 100 * k)) [1; / 10] (1 / / 10) 2 1 = Ok (INR 110 * -1 * 100).
Proof.
  replace (1 / / 10) with 10 by field. split; [right; left; reflexivity|]. split; [lra|].
  split; [intros [H|[H|[]]]; lra|].
  unfold general_entry, mem, position. cbn [existsb position_from]. 
  replace (1 / 10) with (/ 10) by field.
  decide_all. f_equal. unfold minus_in_B_and_G, lam_scales_r. cbn [nth]. f_equal. ring.
Qed.
