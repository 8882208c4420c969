(** Lemmas on packing, splitting and exchanging for [generate_output]. *)
From Coq Require Import Reals List Arith Bool Lia Lra.
From Verif Require Import Base Py Model_Pack Spec_Pack Proof_Pack Model_Convert Spec_Convert Proof_Convert Model_Output Spec_Output.
Import ListNotations.
Local Open Scope R_scope.

(** ** Given rows *)
Lemma given_map {A} e (l : list A) : given e (map Some l) = Ok l.
Proof. induction l as [|x l IH]; simpl; [reflexivity|]. rewrite IH. reflexivity. Qed.

Lemma all_given_rows n w l : all_given n w l -> exists l', l = map Some l' /\ shaped n w l'.
Proof.
  intros [<- H]. induction l as [|o l IH].
  - exists []. split; [reflexivity|]. split; [reflexivity|intros r []].
  - destruct (H o (or_introl eq_refl)) as (r & -> & Hr).
    destruct IH as (l' & -> & Hl & Hrows). { intros; apply H; right; assumption. }
    exists (r :: l'). split; [reflexivity|]. split; [simpl; lia|].
    intros r' [<-|Hin]; auto.
Qed.

Lemma all_given33_rows n l : all_given33 n l ->
  exists l', l = map Some l' /\ length l' = n /\ (forall m, In m l' -> is33 m).
Proof.
  intros [<- H]. induction l as [|o l IH].
  - exists []. split; [reflexivity|]. split; [reflexivity|intros r []].
  - destruct (H o (or_introl eq_refl)) as (r & -> & Hr).
    destruct IH as (l' & -> & Hl & Hrows). { intros; apply H; right; assumption. }
    exists (r :: l'). split; [reflexivity|]. split; [simpl; lia|].
    intros r' [<-|Hin]; auto.
Qed.

Lemma nth_error_some_rows k : forall (u : list (option (list R))),
  length u = k -> (forall i, (i < k)%nat -> exists r, nth_error u i = Some (Some r) /\ length r = 3%nat) ->
  exists u1, u = map Some u1 /\ shaped k 3 u1.
Proof.
  intros u Hl H. apply all_given_rows. split; [exact Hl|].
  intros o Ho. apply In_nth_error in Ho. destruct Ho as [i Hi].
  assert (i < k)%nat by (rewrite <- Hl; apply nth_error_Some; congruence).
  destruct (H i H0) as (r & E & Hr). rewrite Hi in E. injection E as ->. exists r. split; auto.
Qed.

Lemma nth_error_lslice {A} (l : list A) lo hi i : (i < hi - lo)%nat ->
  nth_error (lslice l lo hi) i = nth_error l (lo + i).
Proof.
  intros Hi. unfold lslice. revert l hi Hi. induction lo as [|lo IH]; intros l hi Hi.
  - rewrite Nat.sub_0_r in *. simpl. revert l i Hi. induction hi as [|hi IHh]; intros l i Hi; [lia|].
    destruct l as [|x l]; [reflexivity|]. destruct i as [|i]; [reflexivity|]. simpl. apply IHh. lia.
  - destruct l as [|x l]. { simpl. rewrite firstn_nil. destruct i; reflexivity. }
    simpl. destruct hi as [|hi]; [lia|]. simpl. apply IH. simpl in Hi. exact Hi.
Qed.

Lemma lslice_length {A} (l : list A) lo hi : (hi <= length l)%nat -> length (lslice l lo hi) = (hi - lo)%nat.
Proof. intros H. unfold lslice. rewrite firstn_length, skipn_length. lia. Qed.

Lemma split_given_rows n k u f : split_given n k u f ->
  exists u1 f2, lslice u 0 k = map Some u1 /\ shaped k 3 u1 /\ lslice f k n = map Some f2 /\ shaped (n - k) 3 f2.
Proof.
  intros (Hk & Hu & Hf & H1 & H2).
  destruct (nth_error_some_rows k (lslice u 0 k)) as (u1 & E1 & S1).
  { rewrite lslice_length; lia. }
  { intros i Hi. rewrite nth_error_lslice by lia. apply H1. exact Hi. }
  destruct (nth_error_some_rows (n - k) (lslice f k n)) as (f2 & E2 & S2).
  { rewrite lslice_length; lia. }
  { intros i Hi. rewrite nth_error_lslice by lia. apply H2. lia. }
  exists u1, f2. auto.
Qed.

Lemma count_none_app {A} (a b : list (option A)) : count_none (a ++ b) = (count_none a + count_none b)%nat.
Proof. unfold count_none. rewrite filter_app, app_length. reflexivity. Qed.
Lemma count_none_some {A} (a : list A) : count_none (map Some a) = 0%nat.
Proof. induction a; simpl; auto. Qed.
Lemma count_none_none {A} k : count_none (repeat (@None A) k) = k.
Proof. unfold count_none. induction k; simpl; auto. Qed.

Lemma lslice_split {A} (l : list A) k n : length l = n -> (k <= n)%nat -> l = lslice l 0 k ++ lslice l k n.
Proof.
  intros <- Hk. unfold lslice. rewrite Nat.sub_0_r. simpl.
  rewrite (firstn_all2 (skipn k l)) by (rewrite skipn_length; lia). symmetry. apply firstn_skipn.
Qed.

Lemma all_none_repeat (l : list (option (list R))) m :
  length l = m -> (forall i, (i < m)%nat -> nth_error l i = Some None) -> l = repeat None m.
Proof.
  revert m. induction l as [|x l IH]; intros m Hl H; destruct m as [|m]; try discriminate Hl; [reflexivity|].
  simpl. f_equal.
  - specialize (H 0%nat ltac:(lia)). simpl in H. congruence.
  - apply IH; [simpl in Hl; lia|]. intros i Hi. apply (H (S i)). lia.
Qed.

Lemma nfix_count n k u f : split_given n k u f -> rest_missing n k u -> (n - count_none u)%nat = k.
Proof.
  intros Hs Hr. destruct (split_given_rows n k u f Hs) as (u1 & _ & E1 & _).
  destruct Hs as (Hk & Hu & _).
  rewrite (lslice_split u k n Hu Hk), count_none_app, E1, count_none_some.
  rewrite (all_none_repeat (lslice u k n) (n - k)).
  - rewrite count_none_none. lia.
  - rewrite lslice_length; lia.
  - intros i Hi. rewrite nth_error_lslice by lia. apply Hr. lia.
Qed.

Lemma split_out_eq {A} n k (a b : list (option A)) : (k <= n)%nat -> length a = n -> length b = n ->
  split_out n k a b = lslice a 0 k ++ lslice b k n.
Proof.
  intros Hk Ha Hb. unfold split_out, set_slice. simpl.
  rewrite (Nat.max_r k n) by exact Hk.
  assert (La : length (lslice a 0 k) = k) by (rewrite lslice_length; lia).
  rewrite firstn_app, La, Nat.sub_diag. simpl. rewrite app_nil_r, (firstn_all2 (lslice a 0 k)) by lia.
  rewrite skipn_app, La. rewrite (skipn_all2 (lslice a 0 k)) by lia. simpl.
  rewrite (skipn_all2 (skipn k (repeat None n))) by (rewrite skipn_length, repeat_length; lia).
  rewrite app_nil_r. reflexivity.
Qed.

(** ** Shapes of parts *)
Lemma In_firstn {A} k : forall (l : list A) x, In x (firstn k l) -> In x l.
Proof.
  intros l x H. rewrite <- (firstn_skipn k l). apply in_or_app. left. exact H.
Qed.
Lemma In_skipn {A} k : forall (l : list A) x, In x (skipn k l) -> In x l.
Proof.
  intros l x H. rewrite <- (firstn_skipn k l). apply in_or_app. right. exact H.
Qed.
Lemma shaped_lo n k w l : (k <= n)%nat -> shaped n w l -> shaped k w (firstn k l).
Proof.
  intros Hk [Hl Hr]. split; [rewrite firstn_length; lia|]. intros r H. apply Hr. eapply In_firstn; eassumption.
Qed.
Lemma shaped_hi n k w l : (k <= n)%nat -> shaped n w l -> shaped (n - k) w (skipn k l).
Proof.
  intros Hk [Hl Hr]. split; [rewrite skipn_length; lia|]. intros r H. apply Hr. eapply In_skipn; eassumption.
Qed.
Lemma shaped_app n m w a b : shaped n w a -> shaped m w b -> shaped (n + m) w (a ++ b).
Proof.
  intros [H1 H2] [H3 H4]. split; [rewrite app_length; lia|].
  intros r H. apply in_app_or in H. destruct H; auto.
Qed.
Lemma lslice_map_some {A} (l : list A) lo hi : lslice (map Some l) lo hi = map Some (lslice l lo hi).
Proof. unfold lslice. rewrite skipn_map, firstn_map. reflexivity. Qed.

(** ** Packing with arbitrary 3x3 tensors *)
Lemma is33_form m : is33 m -> exists a b c d e f g h i, m = [[a;b;c];[d;e;f];[g;h;i]].
Proof.
  intros [Hl Hr].
  destruct m as [|r0 [|r1 [|r2 [|? ?]]]]; try discriminate Hl.
  pose proof (Hr r0 (or_introl eq_refl)) as H0.
  pose proof (Hr r1 (or_intror (or_introl eq_refl))) as H1.
  pose proof (Hr r2 (or_intror (or_intror (or_introl eq_refl)))) as H2.
  destruct r0 as [|a [|b [|c [|? ?]]]]; try discriminate H0.
  destruct r1 as [|d [|e [|f [|? ?]]]]; try discriminate H1.
  destruct r2 as [|g [|h [|i [|? ?]]]]; try discriminate H2.
  do 9 eexists. reflexivity.
Qed.

Lemma condense1_five m : is33 m -> condense1 m = five m.
Proof.
  intros H. destruct (is33_form m H) as (a & b & c & d & e & f & g & h & i & ->).
  unfold condense1, condense_entry, contraction, get2, five, hs3p1, hs3m1, s2, s3; simpl.
  repeat (apply f_equal2; [field|]). reflexivity.
Qed.

Lemma condense_flat_five n s : length s = n -> (forall m, In m s -> is33 m) ->
  condense_and_flatten s n = Ok (flat_map five s).
Proof.
  intros Hl Hs. unfold condense_and_flatten.
  replace (Nat.leb n (length s) && forallb shape33 (firstn n s))%bool with true.
  2:{ symmetry. rewrite <- Hl, firstn_all, Nat.leb_refl. simpl. apply forallb_forall.
      intros t Ht. apply is33_shape33, Hs, Ht. }
  f_equal. rewrite !flat_map_concat_map. f_equal.
  rewrite <- Hl.
  transitivity (map condense1 s).
  - rewrite <- (map_nth_seq_all condense1 s []). apply map_ext. intros i.
    unfold condense1. apply map_ext. intros j. apply condense_flat_entry_eq.
  - apply map_ext_in. intros m Hm. apply condense1_five, Hs, Hm.
Qed.

Lemma construct_grand Ns Nd f t s fb dfb :
  shaped Ns 3 f -> shaped Ns 3 t -> length s = Ns -> (forall m, In m s -> is33 m) ->
  shaped Nd 3 fb -> shaped Nd 3 dfb ->
  construct_force_vector_from_fts Ns Nd f t s fb dfb = Ok (grand f t s fb dfb).
Proof.
  intros Hf Ht Hs1 Hs2 Hfb Hdfb. unfold construct_force_vector_from_fts, grand.
  rewrite (condense_flat_five Ns s Hs1 Hs2). cbn [bind].
  assert (nil_of : forall (l : list (list R)) w, shaped 0 w l -> l = []).
  { intros l w [Hl _]. destruct l; [reflexivity|discriminate Hl]. }
  destruct Ns as [|Ns], Nd as [|Nd]; f_equal.
  - rewrite (nil_of f 3%nat), (nil_of t 3%nat), (nil_of fb 3%nat), (nil_of dfb 3%nat) by assumption.
    destruct s; [reflexivity|discriminate Hs1].
  - rewrite (nil_of f 3%nat), (nil_of t 3%nat) by assumption.
    destruct s; [reflexivity|discriminate Hs1].
  - rewrite (nil_of fb 3%nat), (nil_of dfb 3%nat) by assumption. simpl. rewrite !app_nil_r. reflexivity.
Qed.

Lemma force_vector_ok e Ns Nd f t s fb dfb :
  shaped Ns 3 f -> shaped Ns 3 t -> length s = Ns -> (forall m, In m s -> is33 m) ->
  shaped Nd 3 fb -> shaped Nd 3 dfb ->
  force_vector e Ns Nd (map Some f) (map Some t) (map Some s) (map Some fb) (map Some dfb)
  = Ok (grand f t s fb dfb).
Proof.
  intros. unfold force_vector. rewrite !given_map. cbn [bind].
  rewrite condense_flat_five by assumption. apply construct_grand; assumption.
Qed.

Lemma flat_five_length s : length (flat_map five s) = (length s * 5)%nat.
Proof. induction s as [|m s IH]; [reflexivity|]. cbn [flat_map]. rewrite app_length, IH. reflexivity. Qed.

Lemma grand_length Ns Nd f t s fb dfb :
  shaped Ns 3 f -> shaped Ns 3 t -> length s = Ns -> shaped Nd 3 fb -> shaped Nd 3 dfb ->
  length (grand f t s fb dfb) = (11 * Ns + 6 * Nd)%nat.
Proof.
  intros Hf Ht Hs Hfb Hdfb. unfold grand. rewrite !app_length, flat_five_length.
  rewrite (shaped_len _ _ _ Hf), (shaped_len _ _ _ Ht), (shaped_len _ _ _ Hfb), (shaped_len _ _ _ Hdfb). lia.
Qed.

(** ** Unpacking *)
Lemma chunks_shaped {A} n w : forall l : list A, length l = (n * w)%nat ->
  length (chunks n w l) = n /\ (forall r, In r (chunks n w l) -> length r = w) /\ concat (chunks n w l) = l.
Proof.
  induction n as [|n IH]; intros l Hl; simpl in *.
  - destruct l; [|discriminate Hl]. split; [reflexivity|]. split; [intros r []|reflexivity].
  - destruct (IH (skipn w l)) as (H1 & H2 & H3). { rewrite skipn_length. lia. }
    split; [lia|]. split.
    + intros r [<-|Hr]; [rewrite firstn_length; lia|auto].
    + rewrite H3. apply firstn_skipn.
Qed.

Lemma five_uncondense c : length c = 5%nat -> five (uncondense1 c) = c.
Proof.
  intros H. rewrite <- condense1_five by apply (uncondense1_sym_traceless c).
  apply condense1_uncondense1. exact H.
Qed.

Lemma flat_five_uncondense n c : shaped n 5 c -> flat_map five (map uncondense1 c) = concat c.
Proof.
  intros [_ H]. induction c as [|x c IH]; [reflexivity|]. simpl map. cbn [flat_map concat].
  rewrite five_uncondense by (apply H; left; reflexivity).
  rewrite IH by (intros; apply H; right; assumption). reflexivity.
Qed.

Lemma skipn_skipn {A} x : forall y (l : list A), skipn x (skipn y l) = skipn (x + y) l.
Proof.
  intros y. induction y as [|y IH]; intros l.
  - rewrite Nat.add_0_r. reflexivity.
  - rewrite Nat.add_succ_r. destruct l as [|a l]; simpl; [destruct x; reflexivity|apply IH].
Qed.

Lemma unpack_blocks Ns Nd v : length v = (11 * Ns + 6 * Nd)%nat ->
  exists u o e ub hdu,
    deconstruct_velocity_vector_for_fts Ns Nd v = Ok (u, o, e, ub, hdu) /\
    shaped Ns 3 u /\ shaped Ns 3 o /\ shaped_st Ns e /\ shaped Nd 3 ub /\ shaped Nd 3 hdu /\
    v = grand u o e ub hdu.
Proof.
  intros Hl.
  destruct (chunks_shaped Ns 3 (lslice v 0 (3 * Ns))) as (U1 & U2 & U3). { rewrite lslice_length; lia. }
  destruct (chunks_shaped Ns 3 (lslice v (3 * Ns) (6 * Ns))) as (O1 & O2 & O3). { rewrite lslice_length; lia. }
  destruct (chunks_shaped Ns 5 (lslice v (6 * Ns) (11 * Ns))) as (E1 & E2 & E3). { rewrite lslice_length; lia. }
  destruct (chunks_shaped Nd 3 (lslice v (11 * Ns) (11 * Ns + 3 * Nd))) as (B1 & B2 & B3). { rewrite lslice_length; lia. }
  destruct (chunks_shaped Nd 3 (lslice v (11 * Ns + 3 * Nd) (11 * Ns + 6 * Nd))) as (D1 & D2 & D3). { rewrite lslice_length; lia. }
  set (u := chunks Ns 3 (lslice v 0 (3 * Ns))) in *.
  set (o := chunks Ns 3 (lslice v (3 * Ns) (6 * Ns))) in *.
  set (c := chunks Ns 5 (lslice v (6 * Ns) (11 * Ns))) in *.
  set (ub := chunks Nd 3 (lslice v (11 * Ns) (11 * Ns + 3 * Nd))) in *.
  set (hdu := chunks Nd 3 (lslice v (11 * Ns + 3 * Nd) (11 * Ns + 6 * Nd))) in *.
  exists u, o, (map uncondense1 c), ub, hdu.
  assert (Hc : shaped Ns 5 c) by (split; assumption).
  split; [|split; [split; assumption|split; [split; assumption|split; [|split; [split; assumption|split; [split; assumption|]]]]]].
  - unfold deconstruct_velocity_vector_for_fts, reshape.
    rewrite !lslice_length by lia.
    replace (Nat.eqb (3 * Ns - 0) (Ns * 3)) with true by (symmetry; apply Nat.eqb_eq; lia). cbn [bind].
    replace (Nat.eqb (6 * Ns - 3 * Ns) (Ns * 3)) with true by (symmetry; apply Nat.eqb_eq; lia). cbn [bind].
    replace (Nat.eqb (11 * Ns - 6 * Ns) (Ns * 5)) with true by (symmetry; apply Nat.eqb_eq; lia). cbn [bind].
    replace (Nat.eqb (11 * Ns + 3 * Nd - 11 * Ns) (Nd * 3)) with true by (symmetry; apply Nat.eqb_eq; lia). cbn [bind].
    replace (Nat.eqb (11 * Ns + 6 * Nd - (11 * Ns + 3 * Nd)) (Nd * 3)) with true by (symmetry; apply Nat.eqb_eq; lia). cbn [bind].
    fold c u o ub hdu. rewrite (uncondense_ok Ns c Hc). reflexivity.
  - split; [rewrite map_length; exact E1|]. intros t Ht. apply in_map_iff in Ht. destruct Ht as [x [<- _]].
    apply uncondense1_sym_traceless.
  - unfold grand. rewrite (flat_five_uncondense Ns c Hc), U3, O3, E3, B3, D3.
    clear -Hl. unfold lslice. rewrite Nat.sub_0_r. cbn [skipn].
    rewrite <- (firstn_skipn (3 * Ns) v) at 1. f_equal.
    rewrite <- (firstn_skipn (6 * Ns - 3 * Ns) (skipn (3 * Ns) v)) at 1. f_equal.
    rewrite skipn_skipn. replace (6 * Ns - 3 * Ns + 3 * Ns)%nat with (6 * Ns)%nat by lia.
    rewrite <- (firstn_skipn (11 * Ns - 6 * Ns) (skipn (6 * Ns) v)) at 1. f_equal.
    rewrite skipn_skipn. replace (11 * Ns - 6 * Ns + 6 * Ns)%nat with (11 * Ns)%nat by lia.
    rewrite <- (firstn_skipn (11 * Ns + 3 * Nd - 11 * Ns) (skipn (11 * Ns) v)) at 1. f_equal.
    rewrite skipn_skipn. replace (11 * Ns + 3 * Nd - 11 * Ns + 11 * Ns)%nat with (11 * Ns + 3 * Nd)%nat by lia.
    rewrite firstn_all2; [reflexivity|]. rewrite skipn_length. lia.
Qed.

(** ** Exchanging components, on lists *)
Fixpoint lexch (s : nat -> bool) (off : nat) (x y : list R) : list R :=
  match x, y with
  | a :: x', b :: y' => (if s off then b else a) :: lexch s (S off) x' y'
  | _, _ => []
  end.

Lemma lexch_length s : forall x y off, length x = length y -> length (lexch s off x y) = length x.
Proof. induction x as [|a x IH]; intros [|b y] off H; simpl in *; try lia. rewrite IH; lia. Qed.

Lemma lexch_app s : forall x1 y1 x2 y2 off, length x1 = length y1 ->
  lexch s off (x1 ++ x2) (y1 ++ y2) = lexch s off x1 y1 ++ lexch s (off + length x1) x2 y2.
Proof.
  induction x1 as [|a x1 IH]; intros [|b y1] x2 y2 off H; simpl in *; try lia.
  - rewrite Nat.add_0_r. reflexivity.
  - rewrite IH by lia. rewrite Nat.add_succ_r. reflexivity.
Qed.

Lemma lexch_true s : forall x y off, length x = length y ->
  (forall i, (off <= i < off + length x)%nat -> s i = true) -> lexch s off x y = y.
Proof.
  induction x as [|a x IH]; intros [|b y] off H Hs; simpl in *; try lia; [reflexivity|].
  rewrite (Hs off) by lia. rewrite IH; [reflexivity|lia|]. intros i Hi. apply Hs. lia.
Qed.
Lemma lexch_false s : forall x y off, length x = length y ->
  (forall i, (off <= i < off + length x)%nat -> s i = false) -> lexch s off x y = x.
Proof.
  induction x as [|a x IH]; intros [|b y] off H Hs; simpl in *; try lia; [reflexivity|].
  rewrite (Hs off) by lia. rewrite IH; [reflexivity|lia|]. intros i Hi. apply Hs. lia.
Qed.

Lemma lexch_nth s : forall x y off i, length x = length y -> (i < length x)%nat ->
  nth i (lexch s off x y) 0 = if s (off + i)%nat then nth i y 0 else nth i x 0.
Proof.
  induction x as [|a x IH]; intros [|b y] off i H Hi; simpl in *; try lia.
  destruct i as [|i]; [rewrite Nat.add_0_r; reflexivity|].
  rewrite IH by lia. rewrite Nat.add_succ_r. reflexivity.
Qed.

Lemma linrel_ext n A x x' y y' :
  (forall i, (i < n)%nat -> x i = x' i) -> (forall i, (i < n)%nat -> y i = y' i) ->
  linrel n A x y -> linrel n A x' y'.
Proof.
  intros Hx Hy H i Hi. rewrite <- Hy by exact Hi. rewrite (H i Hi).
  apply rsum_ext. intros j Hj. rewrite Hx by exact Hj. reflexivity.
Qed.

Lemma exchange_solution n s A A' v b :
  same_problem n s A A' -> length v = n -> length b = n ->
  linrel n A' (lvec v) (lvec b) ->
  linrel n A (lvec (lexch s 0 v b)) (lvec (lexch s 0 b v)).
Proof.
  intros Hsp Hv Hb H. apply Hsp.
  revert H. apply linrel_ext; intros i Hi; unfold exch, lvec;
    rewrite !lexch_nth by lia; simpl; destruct (s i); reflexivity.
Qed.

(** ** [keeps] *)
Lemma keeps_all {A} n (l : list A) : length l = n -> keeps 0 n (map Some l) l.
Proof.
  intros Hl i Hi. rewrite nth_error_map.
  destruct (nth_error l i) eqn:E; [reflexivity|]. apply nth_error_None in E. lia.
Qed.

Lemma keeps_lo n k (u : list (option (list R))) u1 w : (k <= n)%nat -> length u = n -> length u1 = k ->
  lslice u 0 k = map Some u1 -> keeps 0 k u (u1 ++ w).
Proof.
  intros Hk Hu H1 E i Hi. rewrite nth_error_app1 by lia.
  change (nth_error u i) with (nth_error u (0 + i)%nat).
  rewrite <- (nth_error_lslice u 0 k i) by lia. rewrite E, nth_error_map.
  destruct (nth_error u1 i) eqn:E1; [reflexivity|]. apply nth_error_None in E1. lia.
Qed.
Lemma keeps_hi n k (f : list (option (list R))) f2 w : (k <= n)%nat -> length f = n -> length w = k -> length f2 = (n - k)%nat ->
  lslice f k n = map Some f2 -> keeps k n f (w ++ f2).
Proof.
  intros Hk Hf Hw H2 E i Hi. rewrite nth_error_app2 by lia.
  replace i with (k + (i - k))%nat at 1 by lia.
  rewrite <- (nth_error_lslice f k n (i - k)) by lia. rewrite E, nth_error_map, Hw.
  destruct (nth_error f2 (i - k)) eqn:E1; [reflexivity|]. apply nth_error_None in E1. lia.
Qed.
