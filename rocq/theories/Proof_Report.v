From Coq Require Import Reals List Arith Bool Lia Lra.
From Verif Require Import Base Py Model_Mob Model_Close Model_Place Model_Report Spec_Place Proof_Place Spec_Report.
Import ListNotations.
Local Open Scope R_scope.

Notation "l '.[' i ']'" := (nth i l (v3 0 0 0)) (at level 1, format "l .[ i ]").

Lemma in_entries {A} n (f : nat -> nat -> list A) x : In x (entries n f) <-> exists i j, (i < n)%nat /\ (j < n)%nat /\ In x (f i j).
Proof.
  unfold entries. rewrite in_flat_map. split.
  - intros [i [Hi H]]. apply in_flat_map in H. destruct H as [j [Hj H]]. apply in_seq in Hi, Hj. exists i, j. repeat split; [lia|lia|exact H].
  - intros [i [j [Hi [Hj H]]]]. exists i. split; [apply in_seq; lia|]. apply in_flat_map. exists j. split; [apply in_seq; lia|exact H].
Qed.
Lemma fold_min l : forall x, (fold_left Rmin l x = x \/ In (fold_left Rmin l x) l) /\ fold_left Rmin l x <= x /\ (forall y, In y l -> fold_left Rmin l x <= y).
Proof.
  induction l as [|a l IH]; intros x; cbn [fold_left]; [split; [auto|split; [lra|intros y []]]|].
  destruct (IH (Rmin x a)) as [A [B C]]. pose proof (Rmin_l x a). pose proof (Rmin_r x a). split; [|split; [lra|]].
  - destruct A as [A|A]; [|right; right; exact A]. rewrite A. unfold Rmin. destruct (Rle_dec x a); [left; reflexivity|right; left; reflexivity].
  - intros y [<-|H1]; [lra|exact (C y H1)].
Qed.
Lemma np_min_spec l m : np_min l = Ok m <-> In m l /\ (forall y, In y l -> m <= y).
Proof.
  destruct l as [|x l]; cbn [np_min]; [split; [discriminate|intros [[] _]]|].
  destruct (fold_min l x) as [A [B C]]. split.
  - intros E. injection E as <-. split; [destruct A as [A|A]; [left; symmetry; exact A|right; exact A]|].
    intros y [<-|H]; [exact B|exact (C y H)].
  - intros [I L]. f_equal. apply Rle_antisym.
    + destruct I as [<-|I]; [exact B|exact (C m I)].
    + apply L. destruct A as [A|A]; [left; symmetry; exact A|right; exact A].
Qed.
Lemma dm_dist ps i j : distance_matrix ps i j = dist3 ps.[i] ps.[j].
Proof. unfold distance_matrix. rewrite norm_dist. apply dist_sym. Qed.
Lemma min_spec ps m : min_element_distance ps = Ok m <->
  (exists i j, (i < length ps)%nat /\ (j < length ps)%nat /\ dist3 ps.[i] ps.[j] <> 0 /\ m = dist3 ps.[i] ps.[j]) /\
  (forall i j, (i < length ps)%nat -> (j < length ps)%nat -> dist3 ps.[i] ps.[j] <> 0 -> m <= dist3 ps.[i] ps.[j]).
Proof.
  unfold min_element_distance. rewrite np_min_spec. split; intros [A B]; split.
  - apply in_entries in A. destruct A as [i [j [Hi [Hj A]]]]. cbv zeta in A. rewrite dm_dist in A. destruct (Req_EM_T _ 0) as [E|E]; [destruct A|].
    destruct A as [A|[]]. exists i, j. auto.
  - intros i j Hi Hj N. apply B, in_entries. exists i, j. repeat split; try assumption. cbv zeta. rewrite dm_dist.
    destruct (Req_EM_T _ 0) as [E|E]; [contradiction|left; reflexivity].
  - destruct A as [i [j [Hi [Hj [N ->]]]]]. apply in_entries. exists i, j. repeat split; try assumption. cbv zeta. rewrite dm_dist.
    destruct (Req_EM_T _ 0) as [E|E]; [contradiction|left; reflexivity].
  - intros y Hy. apply in_entries in Hy. destruct Hy as [i [j [Hi [Hj H]]]]. cbv zeta in H. rewrite dm_dist in H.
    destruct (Req_EM_T _ 0) as [E|E]; [destruct H|]. destruct H as [<-|[]]. apply B; assumption.
Qed.
Definition distinct (ps : list vec) : Prop := forall i j, (i < j < length ps)%nat -> 0 < dist3 ps.[i] ps.[j].
Lemma min_closest ps m : distinct ps -> (min_element_distance ps = Ok m <-> closest_distance ps m).
Proof.
  intros D. rewrite min_spec. unfold closest_distance. split; intros [A B]; split.
  - destruct A as [i [j [Hi [Hj [N ->]]]]]. destruct (Nat.lt_trichotomy i j) as [C|[C|C]].
    + exists i, j. split; [lia|reflexivity].
    + subst j. rewrite dist_self in N. congruence.
    + exists j, i. split; [lia|apply dist_sym].
  - intros i j H. apply B; [lia|lia|]. pose proof (D i j H). lra.
  - destruct A as [i [j [H <-]]]. exists i, j. pose proof (D i j H). repeat split; [lia|lia|lra].
  - intros i j Hi Hj N. destruct (Nat.lt_trichotomy i j) as [C|[C|C]].
    + apply B. lia.
    + subst j. rewrite dist_self in N. congruence.
    + rewrite dist_sym. apply B. lia.
Qed.
Lemma some_distance_entries ps : some_distance ps = true <-> exists i j, (i < length ps)%nat /\ (j < length ps)%nat /\ dist3 ps.[i] ps.[j] <> 0.
Proof.
  unfold some_distance. rewrite existsb_exists. split.
  - intros [p [Hp H]]. apply existsb_exists in H. destruct H as [q [Hq H]].
    destruct (In_nth _ _ (v3 0 0 0) Hp) as [i [Hi Ei]]. destruct (In_nth _ _ (v3 0 0 0) Hq) as [j [Hj Ej]].
    exists i, j. repeat split; try assumption. rewrite norm_dist in H. destruct (Req_EM_T _ 0) as [E|N]; [discriminate|].
    rewrite Ei, Ej, dist_sym. exact N.
  - intros [i [j [Hi [Hj N]]]]. exists ps.[i]. split; [apply nth_In; exact Hi|]. apply existsb_exists. exists ps.[j]. split; [apply nth_In; exact Hj|].
    rewrite norm_dist, dist_sym. destruct (Req_EM_T _ 0) as [E|]; [contradiction|reflexivity].
Qed.
(** The model with the report agrees with the model without. *)
Lemma min_exists ps : (exists m, min_element_distance ps = Ok m) <-> some_distance ps = true.
Proof.
  rewrite some_distance_entries. split.
  - intros [m H]. apply min_spec in H. destruct H as [[i [j [Hi [Hj [N _]]]]] _]. exists i, j. auto.
  - intros [i [j [Hi [Hj N]]]]. unfold min_element_distance.
    set (l := entries _ _). assert (I : In (dist3 ps.[i] ps.[j]) l).
    { apply in_entries. exists i, j. repeat split; try assumption. cbv zeta. rewrite dm_dist. destruct (Req_EM_T _ 0); [contradiction|left; reflexivity]. }
    destruct l; [destruct I|]. eexists. reflexivity.
Qed.
Lemma min_raise ps : some_distance ps = false -> min_element_distance ps = Raise ValueError.
Proof.
  intros H. destruct (min_element_distance ps) eqn:E.
  - assert (some_distance ps = true) by (apply min_exists; eexists; exact E). congruence.
  - unfold min_element_distance, np_min in E. destruct (entries _ _); [symmetry; exact E|discriminate].
Qed.

(** ** The closest two *)
Lemma closest_in ps m i : In i (two_closest_elements ps m) <-> (i < length ps)%nat /\ exists j, (j < length ps)%nat /\ dist3 ps.[i] ps.[j] = m.
Proof.
  unfold two_closest_elements. rewrite in_entries. split.
  - intros [i' [j [Hi [Hj H]]]]. rewrite dm_dist in H. destruct (Req_EM_T _ m) as [E|]; [|destruct H]. destruct H as [<-|[]]. split; [exact Hi|]. exists j. auto.
  - intros [Hi [j [Hj E]]]. exists i, j. repeat split; try assumption. rewrite dm_dist. destruct (Req_EM_T _ m); [left; reflexivity|contradiction].
Qed.
Lemma flat_none {A B} (f : A -> list B) l : (forall x, In x l -> f x = []) -> flat_map f l = [].
Proof. induction l as [|a l IH]; intros H; [reflexivity|]. cbn [flat_map]. rewrite (H a (or_introl eq_refl)), IH; [reflexivity|]. intros x Hx. apply H. right. exact Hx. Qed.
Lemma flat_two {B} (f : nat -> list B) i j n : (i < j < n)%nat -> (forall x, x <> i -> x <> j -> f x = []) -> flat_map f (seq 0 n) = f i ++ f j.
Proof.
  intros H N. replace n with ((i + 1) + (n - i - 1))%nat by lia. rewrite seq_app, flat_map_app. f_equal.
  - rewrite seq_app, flat_map_app, (flat_none f (seq 0 i)) by (intros x Hx; apply in_seq in Hx; apply N; lia).
    cbn [seq flat_map]. rewrite app_nil_r. reflexivity.
  - replace (n - i - 1)%nat with ((j - i - 1) + (1 + (n - j - 1)))%nat by lia. rewrite !seq_app, !flat_map_app.
    rewrite (flat_none f (seq (0 + (i + 1)) _)) by (intros x Hx; apply in_seq in Hx; apply N; lia).
    rewrite (flat_none f (seq (0 + (i + 1) + (j - i - 1) + 1) _)) by (intros x Hx; apply in_seq in Hx; apply N; lia).
    cbn [seq flat_map app]. rewrite !app_nil_r. f_equal. lia.
Qed.
Lemma closest_two_unique ps m i j : (i < j < length ps)%nat -> 0 < m -> dist3 ps.[i] ps.[j] = m ->
  (forall a b, (a < b < length ps)%nat -> dist3 ps.[a] ps.[b] = m -> a = i /\ b = j) ->
  two_closest_elements ps m = [i; j].
Proof.
  intros Hij Hm E U.
  assert (V : forall a b, (a < length ps)%nat -> (b < length ps)%nat -> dist3 ps.[a] ps.[b] = m -> (a = i /\ b = j) \/ (a = j /\ b = i)).
  { intros a b Ha Hb Eab. destruct (Nat.lt_trichotomy a b) as [C|[C|C]].
    - left. apply U; [lia|exact Eab].
    - subst b. rewrite dist_self in Eab. lra.
    - right. rewrite dist_sym in Eab. destruct (U b a ltac:(lia) Eab). auto. }
  unfold two_closest_elements, entries.
  set (n := length ps) in *.
  assert (W : forall a b, (if Req_EM_T (distance_matrix ps a b) m then [a] else []) = (if Req_EM_T (dist3 ps.[a] ps.[b]) m then [a] else [])) by (intros; rewrite dm_dist; reflexivity).
  assert (Row : forall a, (a < n)%nat -> flat_map (fun b => if Req_EM_T (distance_matrix ps a b) m then [a] else []) (seq 0 n) = if Nat.eqb a i then [a] else if Nat.eqb a j then [a] else []).
  { intros a Ha. destruct (Nat.eqb_spec a i) as [->|Na]; [|destruct (Nat.eqb_spec a j) as [->|Nb]].
    - replace n with ((j + 1) + (n - j - 1))%nat by lia. rewrite !seq_app, !flat_map_app.
      rewrite (flat_none _ (seq 0 j)), (flat_none _ (seq (0 + (j + 1)) _)).
      + cbn [seq flat_map app]. rewrite W, Nat.add_0_l. destruct (Req_EM_T _ m); [reflexivity|contradiction].
      + intros b Hb. apply in_seq in Hb. rewrite W. destruct (Req_EM_T _ m) as [F|]; [|reflexivity]. destruct (V i b ltac:(lia) ltac:(lia) F); lia.
      + intros b Hb. apply in_seq in Hb. rewrite W. destruct (Req_EM_T _ m) as [F|]; [|reflexivity]. destruct (V i b ltac:(lia) ltac:(lia) F); lia.
    - replace n with ((i + 1) + (n - i - 1))%nat by lia. rewrite !seq_app, !flat_map_app.
      rewrite (flat_none _ (seq 0 i)), (flat_none _ (seq (0 + (i + 1)) _)).
      + cbn [seq flat_map app]. rewrite W, Nat.add_0_l, dist_sym. destruct (Req_EM_T _ m); [reflexivity|contradiction].
      + intros b Hb. apply in_seq in Hb. rewrite W. destruct (Req_EM_T _ m) as [F|]; [|reflexivity]. destruct (V j b ltac:(lia) ltac:(lia) F); lia.
      + intros b Hb. apply in_seq in Hb. rewrite W. destruct (Req_EM_T _ m) as [F|]; [|reflexivity]. destruct (V j b ltac:(lia) ltac:(lia) F); lia.
    - apply flat_none. intros b Hb. apply in_seq in Hb. rewrite W. destruct (Req_EM_T _ m) as [F|]; [|reflexivity]. destruct (V a b ltac:(lia) ltac:(lia) F); lia. }
  assert (G : forall l, (forall a, In a l -> (a < n)%nat) -> flat_map (fun a => flat_map (fun b => if Req_EM_T (distance_matrix ps a b) m then [a] else []) (seq 0 n)) l
              = flat_map (fun a => if Nat.eqb a i then [a] else if Nat.eqb a j then [a] else []) l).
  { induction l as [|a l IH]; intros Hl; [reflexivity|]. cbn [flat_map]. rewrite Row by (apply Hl; left; reflexivity). f_equal. apply IH. intros b Hb. apply Hl. right. exact Hb. }
  rewrite G by (intros a Ha; apply in_seq in Ha; lia).
  rewrite (flat_two _ i j n Hij).
  - rewrite !Nat.eqb_refl. destruct (Nat.eqb j i); reflexivity.
  - intros x Hi Hj. destruct (Nat.eqb_spec x i); [contradiction|]. destruct (Nat.eqb_spec x j); [contradiction|reflexivity].
Qed.

(** ** Fractions *)
Lemma fold_plus l : forall x, fold_left Rplus l x = x + fold_left Rplus l 0.
Proof. induction l as [|a l IH]; intros x; cbn [fold_left]; [lra|]. rewrite IH, (IH (0 + a)). lra. Qed.
Lemma sum_total f c l : c * np_sum (map f l) = total (fun a => c * f a) l.
Proof.
  unfold np_sum. induction l as [|a l IH]; cbn [map fold_left total]; [ring|]. rewrite fold_plus, <- IH. ring.
Qed.
Lemma total_ext f g l : (forall a, f a = g a) -> total f l = total g l.
Proof. intros H. induction l as [|a l IH]; cbn [total]; [reflexivity|]. rewrite H, IH. reflexivity. Qed.
Lemma sum_ball l : 4 / 3 * PI * np_sum (map (fun a => a ^ 3) l) = total ball l.
Proof. apply (sum_total (fun a => a ^ 3)). Qed.
Lemma sum_disc l : PI * np_sum (map (fun a => a * a) l) = total disc l.
Proof. rewrite (sum_total (fun a => a * a)). apply total_ext. intros a. unfold disc. ring. Qed.
Lemma total_pos f l : l <> [] -> (forall a, In a l -> 0 < f a) -> 0 < total f l.
Proof.
  destruct l as [|a l]; [congruence|]. intros _ H. cbn [total]. assert (0 <= total f l).
  { assert (G : forall a, In a l -> 0 < f a) by (intros; apply H; right; assumption). clear H. induction l as [|b l IH]; cbn [total]; [lra|].
    pose proof (G b (or_introl eq_refl)). assert (0 <= total f l) by (apply IH; intros; apply G; right; assumption). lra. }
  pose proof (H a (or_introl eq_refl)). lra.
Qed.
Lemma div_fin x y : y <> 0 -> np_div x y = Fin (x / y).
Proof. intros H. unfold np_div. destruct (Req_EM_T y 0); [contradiction|reflexivity]. Qed.
Lemma div_inf x y : x <> 0 -> y = 0 -> np_div x y = Inf.
Proof. intros H ->. unfold np_div. destruct (Req_EM_T 0 0); [|congruence]. destruct (Req_EM_T x 0); [contradiction|reflexivity]. Qed.

Lemma not_in_free p cs s d : not_in_spheres p cs s d = true <-> free d p (map (fun c => (s, c)) cs).
Proof.
  induction cs as [|c cs IH]; cbn [not_in_spheres map].
  - split; [intros _ ? ? []|reflexivity].
  - unfold Rltb. rewrite norm_dist. destruct (Rlt_dec _ _) as [L|L].
    + split; [discriminate|]. intros F. specialize (F s c (or_introl eq_refl)). unfold apart in F. lra.
    + rewrite IH. split; intros F r q.
      * intros [E|I]; [injection E as <- <-; unfold apart; lra|exact (F r q I)].
      * intros I. apply F. right. exact I.
Qed.

Lemma nth_repeat_in (a d : R) n i : (i < n)%nat -> nth i (repeat a n) d = a.
Proof. revert i. induction n as [|n IH]; intros i H; [lia|]. destruct i; cbn; [reflexivity|apply IH; lia]. Qed.

(** ** Beads *)
Lemma bead_list ds : map (fun d => vadd (fst d) (vscal (1 / 2) (snd d))) ds ++ map (fun d => vsub (fst d) (vscal (1 / 2) (snd d))) ds = all_beads ds.
Proof.
  unfold all_beads. f_equal. apply map_ext. intros d. apply FunctionalExtensionality.functional_extensionality. intros i.
  unfold bead, vsub, vscal. ring.
Qed.
Definition d0 : vec * vec := (v3 0 0 0, v3 0 0 0).
Lemma beads_length ds : length (all_beads ds) = (2 * length ds)%nat.
Proof. unfold all_beads. rewrite app_length, !map_length. lia. Qed.
Lemma beads_nth ds i : (i < 2 * length ds)%nat ->
  (all_beads ds).[i] = if Nat.ltb i (length ds) then bead true (nth i ds d0) else bead false (nth (i - length ds) ds d0).
Proof.
  intros H. unfold all_beads. destruct (Nat.ltb_spec i (length ds)) as [L|L].
  - rewrite app_nth1 by (rewrite map_length; exact L). rewrite (nth_indep _ _ (bead true d0)) by (rewrite map_length; exact L). apply map_nth.
  - rewrite app_nth2 by (rewrite map_length; exact L). rewrite map_length. rewrite (nth_indep _ _ (bead false d0)) by (rewrite map_length; lia). apply (map_nth (bead false)).
Qed.
Lemma beads_distinct ds : (forall i b c j, (i < length ds)%nat -> (j < length ds)%nat -> i <> j -> 0 < dist3 (bead b (nth i ds d0)) (bead c (nth j ds d0))) ->
  (forall i, (i < length ds)%nat -> 0 < dist3 (bead true (nth i ds d0)) (bead false (nth i ds d0))) -> distinct (all_beads ds).
Proof.
  intros A B i j H. rewrite beads_length in H. rewrite !beads_nth by lia.
  destruct (Nat.ltb_spec i (length ds)); destruct (Nat.ltb_spec j (length ds)); [apply A; lia| | lia|apply A; lia].
  destruct (Nat.eq_dec i (j - length ds)) as [<-|N]; [apply B; lia|apply A; lia].
Qed.
