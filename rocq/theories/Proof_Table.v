(** Ratio tables. *)
From Coq Require Import Reals List Arith Bool Lia Lra Sorting.Permutation Sorting.Sorted.
From Verif Require Import Base Py Model_Mob Model_Close Model_Table.
Import ListNotations.
Local Open Scope R_scope.

Lemma mem_spec x l : mem x l = true <-> In x l.
Proof.
  unfold mem. rewrite existsb_exists. split.
  - intros [y [Hy E]]. destruct (Req_EM_T x y); [subst; exact Hy|discriminate].
  - intros H. exists x. split; [exact H|]. destruct (Req_EM_T x x); [reflexivity|contradiction].
Qed.
Lemma mem_false x l : mem x l = false <-> ~ In x l.
Proof. rewrite <- mem_spec. destruct (mem x l); split; intros; congruence. Qed.

(** ** Sorting *)
Lemma insert_perm x l : Permutation (insert x l) (x :: l).
Proof.
  induction l as [|y l IH]; cbn [insert]; [reflexivity|]. destruct (Rleb x y); [reflexivity|].
  rewrite IH. apply perm_swap.
Qed.
Lemma sort_perm l : Permutation (sort l) l.
Proof. induction l as [|x l IH]; [reflexivity|]. cbn [sort fold_right]. rewrite insert_perm. constructor. exact IH. Qed.
Lemma insert_sorted x l : StronglySorted Rle l -> StronglySorted Rle (insert x l).
Proof.
  induction 1 as [|y l S IH F]; cbn [insert]; [constructor; [constructor|constructor]|].
  unfold Rleb. destruct (Rle_dec x y) as [H|H].
  - constructor; [constructor; assumption|]. constructor; [exact H|]. eapply Forall_impl; [|exact F]. intros z Hz. cbv beta in Hz. lra.
  - constructor; [exact IH|]. rewrite Forall_forall in *. intros z Hz.
    apply (Permutation_in _ (insert_perm x l)) in Hz. destruct Hz as [<-|Hz]; [lra|]. apply F. exact Hz.
Qed.
Lemma sort_sorted l : StronglySorted Rle (sort l).
Proof. induction l as [|x l IH]; [constructor|]. apply insert_sorted. exact IH. Qed.
Lemma sorted_unique l m : StronglySorted Rle l -> StronglySorted Rle m -> Permutation l m -> l = m.
Proof.
  intros Sl. revert m. induction Sl as [|x l S IH F]; intros m Sm P; [apply Permutation_nil in P; congruence|].
  destruct Sm as [|y m Sm G]; [apply Permutation_sym, Permutation_nil in P; discriminate|].
  assert (x = y) as <-.
  { rewrite Forall_forall in F, G.
    assert (X : In x (y :: m)) by (apply (Permutation_in _ P); left; reflexivity).
    assert (Y : In y (x :: l)) by (apply (Permutation_in _ (Permutation_sym P)); left; reflexivity).
    destruct X as [X|X]; [auto|]. destruct Y as [Y|Y]; [auto|]. specialize (F y Y). specialize (G x X). lra. }
  f_equal. apply IH; [exact Sm|]. apply Permutation_cons_inv in P. exact P.
Qed.

(** ** Appending the reciprocals *)
Definition add1 (acc : list R) (lam : R) : list R := if mem (1 / lam) acc then acc else acc ++ [1 / lam].
Lemma append_fold l : append_reciprocals l = fold_left add1 l l.
Proof. reflexivity. Qed.
Lemma fold_add1 l acc x : In x (fold_left add1 l acc) <-> In x acc \/ exists y, In y l /\ x = 1 / y.
Proof.
  revert acc. induction l as [|y l IH]; intros acc; cbn [fold_left].
  - split; [auto|]. intros [H|[y [[] _]]]. exact H.
  - rewrite IH. unfold add1. destruct (mem (1 / y) acc) eqn:E.
    + apply mem_spec in E. split.
      * intros [H|[z [Hz ->]]]; [auto|right; exists z; split; [right; exact Hz|reflexivity]].
      * intros [H|[z [[<-|Hz] ->]]]; [auto|auto|right; exists z; auto].
    + rewrite in_app_iff. split.
      * intros [[H|[<-|[]]]|[z [Hz ->]]]; [auto|right; exists y; split; [left; reflexivity|reflexivity]|right; exists z; split; [right; exact Hz|reflexivity]].
      * intros [H|[z [[<-|Hz] ->]]]; [auto|left; right; left; reflexivity|right; exists z; auto].
Qed.
Lemma add1_nodup acc y : NoDup acc -> NoDup (add1 acc y).
Proof.
  intros H. unfold add1. destruct (mem _ _) eqn:E; [exact H|]. apply mem_false in E.
  apply (Permutation_NoDup (Permutation_cons_append acc _)). constructor; assumption.
Qed.
Lemma fold_nodup l acc : NoDup acc -> NoDup (fold_left add1 l acc).
Proof. revert acc. induction l as [|y l IH]; intros acc H; [exact H|]. apply IH, add1_nodup, H. Qed.
Lemma add1_length acc y : (length acc <= length (add1 acc y))%nat.
Proof. unfold add1. destruct (mem _ _); [lia|]. rewrite app_length. simpl. lia. Qed.
Lemma fold_length l acc : (length acc <= length (fold_left add1 l acc))%nat.
Proof. revert acc. induction l as [|y l IH]; intros acc; [apply Nat.le_refl|]. cbn [fold_left]. etransitivity; [apply add1_length|apply IH]. Qed.

Lemma ratios_members l x : In x (lam_range_with_reciprocals l) <-> In x l \/ exists y, In y l /\ x = 1 / y.
Proof.
  unfold lam_range_with_reciprocals, load_ratios. cbn [snd]. rewrite append_fold, <- fold_add1.
  split; apply Permutation_in; [apply sort_perm|apply Permutation_sym, sort_perm].
Qed.
Lemma ratios_sorted l : StronglySorted Rle (lam_range_with_reciprocals l).
Proof. apply sort_sorted. Qed.
Lemma ratios_nodup l : NoDup l -> NoDup (lam_range_with_reciprocals l).
Proof.
  intros H. unfold lam_range_with_reciprocals, load_ratios. cbn [snd]. apply (Permutation_NoDup (Permutation_sym (sort_perm _))).
  rewrite append_fold. apply fold_nodup, H.
Qed.
Lemma inv_inv x : x <> 0 -> 1 / (1 / x) = x.
Proof. intros H. field. exact H. Qed.
Lemma ratios_closed l : (forall x, In x l -> x <> 0) -> forall x, In x (lam_range_with_reciprocals l) -> In (1 / x) (lam_range_with_reciprocals l).
Proof.
  intros N x Hx. apply ratios_members. apply ratios_members in Hx. destruct Hx as [H|[y [H ->]]].
  - right. exists x. auto.
  - left. rewrite inv_inv by (apply N; exact H). exact H.
Qed.
Lemma inv_injective x y : x <> 0 -> y <> 0 -> 1 / x = 1 / y -> x = y.
Proof. intros Hx Hy E. rewrite <- (inv_inv x Hx), <- (inv_inv y Hy), E. reflexivity. Qed.
Lemma map_nodup l : (forall x, In x l -> x <> 0) -> NoDup l -> NoDup (map (fun x => 1 / x) l).
Proof.
  intros N D. induction D as [|x l Hx D IH]; cbn [map]; [constructor|]. constructor.
  - rewrite in_map_iff. intros [y [E Hy]]. apply Hx.
    rewrite <- (inv_injective y x); [exact Hy|apply N; right; exact Hy|apply N; left; reflexivity|exact E].
  - apply IH. intros y Hy. apply N. right. exact Hy.
Qed.
Lemma nodup_app {A} (l m : list A) : NoDup l -> NoDup m -> (forall x, In x l -> ~ In x m) -> NoDup (l ++ m).
Proof.
  intros Dl Dm H. induction Dl as [|x l Hx Dl IH]; [exact Dm|]. cbn [app]. constructor.
  - rewrite in_app_iff. intros [I|I]; [contradiction|]. apply (H x (or_introl eq_refl) I).
  - apply IH. intros y Hy. apply H. right. exact Hy.
Qed.
Lemma generator_members l x : In x (generator_ratios l) <-> In x l \/ exists y, In y l /\ x = 1 / y.
Proof.
  unfold generator_ratios. transitivity (In x (l ++ map (fun l => 1 / l) (filter (fun y => negb (mem (1 / y) l)) l))).
  { split; apply Permutation_in; [apply sort_perm|apply Permutation_sym, sort_perm]. }
  rewrite in_app_iff, in_map_iff. split.
  - intros [H|[y [<- H]]]; [auto|]. apply filter_In in H. right. exists y. tauto.
  - intros [H|[y [H ->]]]; [auto|]. destruct (mem (1 / y) l) eqn:E; [left; apply mem_spec; exact E|].
    right. exists y. split; [reflexivity|]. apply filter_In. rewrite E. auto.
Qed.
Lemma generator_same l : (forall x, In x l -> x <> 0) -> NoDup l -> generator_ratios l = lam_range_with_reciprocals l.
Proof.
  intros N D. apply sorted_unique; [apply sort_sorted|apply ratios_sorted|].
  apply NoDup_Permutation.
  - apply (Permutation_NoDup (Permutation_sym (sort_perm _))). apply nodup_app; [exact D| |].
    + apply map_nodup; [|apply NoDup_filter; exact D]. intros x Hx. apply filter_In in Hx. apply N. tauto.
    + intros x Hx Hm. apply in_map_iff in Hm. destruct Hm as [y [<- Hy]]. apply filter_In in Hy. destruct Hy as [_ Hy].
      apply negb_true_iff, mem_false in Hy. contradiction.
  - apply ratios_nodup, D.
  - intros x. rewrite generator_members, ratios_members. reflexivity.
Qed.

(** ** Rows of the human-readable table *)
Lemma general_index_inj S s w g s' w' g' : (s < S)%nat -> (s' < S)%nat -> (g < 2)%nat -> (g' < 2)%nat ->
  general_index S s w g = general_index S s' w' g' -> s = s' /\ w = w' /\ g = g'.
Proof.
  unfold general_index. intros Hs Hs' Hg Hg' E.
  assert (g = g') by lia. subst g'. assert (E' : (w * S + s = w' * S + s')%nat) by lia.
  assert (w = w').
  { destruct (Nat.lt_trichotomy w w') as [H|[H|H]]; [nia|exact H|nia]. }
  subst. lia.
Qed.
Lemma general_index_bound S W s w g : (s < S)%nat -> (w < W)%nat -> (g < 2)%nat -> (general_index S s w g < general_rows S W)%nat.
Proof. unfold general_index, general_rows. intros. nia. Qed.
Lemma general_index_onto S W r : (r < general_rows S W)%nat ->
  exists s w g, (s < S)%nat /\ (w < W)%nat /\ (g < 2)%nat /\ general_index S s w g = r.
Proof.
  unfold general_rows, general_index. intros H. destruct (Nat.eq_dec S 0) as [->|HS]; [simpl in H; lia|].
  exists (r / 2 mod S)%nat, (r / 2 / S)%nat, (r mod 2)%nat.
  pose proof (Nat.mod_upper_bound (r / 2) S HS). pose proof (Nat.mod_upper_bound r 2 ltac:(lia)).
  pose proof (Nat.div_mod (r / 2) S HS). pose proof (Nat.div_mod r 2 ltac:(lia)).
  assert (r / 2 < S * W)%nat by (apply Nat.div_lt_upper_bound; lia).
  repeat split; [assumption| |assumption|lia]. apply Nat.div_lt_upper_bound; lia.
Qed.

(** A loop of stores: the last store to an index counts. *)
Section Stores.
Context {A B : Type}.
Variables (idx : B -> nat) (val : B -> A).
Definition stores (l : list B) (T : nat -> option A) : nat -> option A := fold_left (fun H b => store H (idx b) (val b)) l T.
Lemma stores_other l : forall T k, (forall b, In b l -> idx b <> k) -> stores l T k = T k.
Proof.
  induction l as [|b l IH]; intros T k H; [reflexivity|]. cbn [stores fold_left]. fold (stores l (store T (idx b) (val b))).
  rewrite IH by (intros; apply H; right; assumption). unfold store.
  destruct (Nat.eqb_spec k (idx b)) as [E|]; [|reflexivity]. exfalso. apply (H b (or_introl eq_refl)). auto.
Qed.
Lemma stores_hit l : forall T b, In b l -> (forall c, In c l -> idx c = idx b -> c = b) -> stores l T (idx b) = Some (val b).
Proof.
  induction l as [|c l IH]; intros T b Hb Hinj; [destruct Hb|]. cbn [stores fold_left]. fold (stores l (store T (idx c) (val c))).
  destruct (in_dec Nat.eq_dec (idx b) (map idx l)) as [I|I].
  - apply in_map_iff in I. destruct I as [b' [E Hb']]. assert (b' = b) by (apply Hinj; [right; exact Hb'|exact E]). subst b'.
    apply IH; [exact Hb'|]. intros d Hd. apply Hinj. right. exact Hd.
  - rewrite stores_other.
    + unfold store. destruct Hb as [<-|Hb]; [rewrite Nat.eqb_refl; reflexivity|]. exfalso. apply I. apply in_map. exact Hb.
    + intros d Hd E. apply I. rewrite <- E. apply in_map. exact Hd.
Qed.
End Stores.

Lemma fold_stores {A B C} (idx : B -> nat) (val : B -> A) (f : C -> list B) (l : list C) T :
  fold_left (fun H c => stores idx val (f c) H) l T = stores idx val (flat_map f l) T.
Proof.
  revert T. induction l as [|c l IH]; intros T; [reflexivity|]. cbn [fold_left flat_map]. rewrite IH.
  unfold stores. rewrite fold_left_app. reflexivity.
Qed.

Definition triples (S W : nat) : list (nat * nat * nat) :=
  flat_map (fun s => flat_map (fun w => map (fun g => (s, w, g)) (seq 0 2)) (seq 0 W)) (seq 0 S).
Lemma in_triples S W s w g : In (s, w, g) (triples S W) <-> (s < S /\ w < W /\ g < 2)%nat.
Proof.
  unfold triples. rewrite in_flat_map. split.
  - intros [s' [Hs H]]. apply in_flat_map in H. destruct H as [w' [Hw H]]. apply in_map_iff in H. destruct H as [g' [E Hg]].
    injection E as -> -> ->. rewrite in_seq in *. lia.
  - intros [Hs [Hw Hg]]. exists s. rewrite in_seq, in_flat_map. split; [lia|]. exists w. rewrite in_seq, in_map_iff. split; [lia|].
    exists g. rewrite in_seq. split; [reflexivity|lia].
Qed.
Lemma fill_stores sd lams T :
  fill_general sd lams T =
  stores (fun b => general_index (length sd) (fst (fst b)) (snd (fst b)) (snd b))
    (fun b => Row (nth (fst (fst b)) sd 0) (nth (snd (fst b)) lams 0) (snd b) (fun n => T n (snd b) (fst (fst b)) (snd (fst b))))
    (triples (length sd) (length lams)) (fun _ => None).
Proof.
  unfold triples. rewrite <- fold_stores. unfold fill_general. 
  assert (E : forall s H, fold_left (fun H w => fold_left (fun H g =>
      store H (general_index (length sd) s w g) (Row (nth s sd 0) (nth w lams 0) g (fun n => T n g s w))) (seq 0 2) H) (seq 0 (length lams)) H
    = stores (fun b => general_index (length sd) (fst (fst b)) (snd (fst b)) (snd b))
      (fun b => Row (nth (fst (fst b)) sd 0) (nth (snd (fst b)) lams 0) (snd b) (fun n => T n (snd b) (fst (fst b)) (snd (fst b))))
      (flat_map (fun w => map (fun g => (s, w, g)) (seq 0 2)) (seq 0 (length lams))) H).
  { intros s H. rewrite <- fold_stores. reflexivity. }
  generalize (fun _ : nat => @None row). induction (seq 0 (length sd)) as [|s l IH]; intros H; [reflexivity|].
  cbn [fold_left]. rewrite IH. f_equal. rewrite E. reflexivity.
Qed.
Lemma fill_row sd lams T s w g : (s < length sd)%nat -> (w < length lams)%nat -> (g < 2)%nat ->
  fill_general sd lams T (general_index (length sd) s w g) = Some (Row (nth s sd 0) (nth w lams 0) g (fun n => T n g s w)).
Proof.
  intros Hs Hw Hg. rewrite fill_stores.
  refine (stores_hit (fun b => general_index (length sd) (fst (fst b)) (snd (fst b)) (snd b))
    (fun b => Row (nth (fst (fst b)) sd 0) (nth (snd (fst b)) lams 0) (snd b) (fun n => T n (snd b) (fst (fst b)) (snd (fst b))))
    (triples (length sd) (length lams)) (fun _ => None) (s, w, g) _ _).
  - apply in_triples. auto.
  - intros [[s' w'] g'] Hc E. apply in_triples in Hc. cbn [fst snd] in E.
    apply general_index_inj in E; [|lia..]. destruct E as [-> [-> ->]]. reflexivity.
Qed.
Lemma fill_beyond sd lams T r : (general_rows (length sd) (length lams) <= r)%nat -> fill_general sd lams T r = None.
Proof.
  intros H. rewrite fill_stores. rewrite stores_other; [reflexivity|].
  intros [[s w] g] Hb. apply in_triples in Hb. cbn [fst snd].
  pose proof (general_index_bound (length sd) (length lams) s w g). lia.
Qed.

(** ** Positions *)
Lemma position_from_spec l : forall k x i, position_from k l x = Ok i -> (k <= i < k + length l)%nat /\ nth (i - k) l 0 = x.
Proof.
  induction l as [|y l IH]; intros k x i H; cbn [position_from] in H; [discriminate|].
  destruct (Req_EM_T y x) as [->|].
  - injection H as <-. rewrite Nat.sub_diag. simpl. split; [lia|reflexivity].
  - apply IH in H. destruct H as [H E]. simpl length. split; [lia|]. replace (i - k)%nat with (S (i - S k)) by lia. exact E.
Qed.
Lemma position_from_ok l : forall k x, In x l -> exists i, position_from k l x = Ok i.
Proof.
  induction l as [|y l IH]; intros k x []; cbn [position_from].
  - destruct (Req_EM_T y x); [eexists; reflexivity|contradiction].
  - destruct (Req_EM_T y x); [eexists; reflexivity|]. apply IH. assumption.
Qed.
