(** C59: splitting the names, the search, the name of a continued run. *)
From Coq Require Import Reals List Arith Bool Ascii String ZArith Lia Lra Permutation.
From Verif Require Import Py Model_Checkpoint Spec_Checkpoint Proof_Checkpoint.
Import ListNotations.
Local Open Scope list_scope.

Lemma split_nonempty c s : split c s <> [].
Proof. destruct s as [|a r]; simpl; [discriminate|]. destruct (Ascii.eqb a c); [discriminate|]. destruct (split c r); discriminate. Qed.
Lemma split_at c a b : ~ In c a -> split c (a ++ c :: b) = a :: split c b.
Proof.
  induction a as [|x a IH]; intros N; cbn [app split].
  - rewrite Ascii.eqb_refl. reflexivity.
  - rewrite (proj2 (Ascii.eqb_neq x c)) by (intro E; apply N; left; exact E).
    rewrite IH by (intro I; apply N; right; exact I). reflexivity.
Qed.

(** ** The text of a timestep *)
Definition plain (a : ascii) (s : text) : Prop := ~ In a s.
Lemma plain_app a s t : plain a s -> plain a t -> plain a (s ++ t).
Proof. intros A B I. apply in_app_or in I. destruct I; [apply A|apply B]; assumption. Qed.
Lemma plain_cons a b s : b <> a -> plain a s -> plain a (b :: s).
Proof. intros A B [E|I]; [apply A; exact E|apply B; exact I]. Qed.
Lemma plain_nil a : plain a []. Proof. intros []. Qed.
Lemma plain_digits a ds : Forall (fun d => (d < 10)%nat) ds -> is_digit a = false -> plain a (map digit ds).
Proof. intros F A. apply digits_not; assumption. Qed.

(** Either there is no dash and no trailing 'e', or there is just one dash, after
    an 'e'. *)
Definition shape (s : text) : Prop :=
  (plain "-" s /\ exists s' x, s = s' ++ [x] /\ x <> "e"%char) \/
  (exists a b, s = a ++ "e"%char :: "-"%char :: b /\ plain "-" a /\ plain "-" b).

Lemma digits_last ds : decimal ds -> exists s' x, map digit ds = s' ++ [x] /\ x <> "e"%char.
Proof.
  intros [N F]. destruct (exists_last N) as [ds' [d ->]]. apply Forall_app in F. destruct F as [_ F]. inversion F; subst.
  exists (map digit ds'), (digit d). rewrite map_app. split; [reflexivity|]. apply not_digit_neq; [assumption|reflexivity].
Qed.
Lemma last_app (s t : text) : (exists s' x, t = s' ++ [x] /\ x <> "e"%char) -> exists s' x, s ++ t = s' ++ [x] /\ x <> "e"%char.
Proof. intros [s' [x [-> H]]]. exists (s ++ s'), x. rewrite app_assoc. auto. Qed.

Lemma timestep_shape t : tstep_ok t -> shape (str_timestep t) /\ plain "p" (str_timestep t).
Proof.
  destruct t as [n|ds p]; intros H.
  - simpl in H. cbn [str_timestep]. destruct (str_digits n H) as [ds [-> [B _]]]. split.
    + left. split; [apply plain_digits; [apply B|reflexivity]|apply digits_last, B].
    + apply plain_digits; [apply B|reflexivity].
  - pose proof H as HD. destruct H as [N F]. cbn [str_timestep]. unfold repr_float.
    assert (PD : forall a ks, Forall (fun d => (d < 10)%nat) ks -> is_digit a = false -> plain a (map digit ks))
      by (intros; apply plain_digits; assumption).
    assert (FS : forall k, Forall (fun d => (d < 10)%nat) (firstn k ds) /\ Forall (fun d => (d < 10)%nat) (skipn k ds)).
    { intros k. rewrite <- (firstn_skipn k ds) in F. apply Forall_app in F. exact F. }
    destruct ((-4 <? p) && (p <=? 16))%Z.
    + destruct (p <=? 0)%Z eqn:P0; [|destruct (p <? Z.of_nat (List.length ds))%Z eqn:Pn].
      * rewrite zeros_digits. split; [left; split|].
        -- repeat apply plain_app; [|apply PD; [apply zeros_ok|reflexivity]|apply PD; [exact F|reflexivity]].
           repeat apply plain_cons; try discriminate. apply plain_nil.
        -- apply last_app, last_app, digits_last, HD.
        -- repeat apply plain_app; [|apply PD; [apply zeros_ok|reflexivity]|apply PD; [exact F|reflexivity]].
           repeat apply plain_cons; try discriminate. apply plain_nil.
      * apply Z.ltb_lt in Pn. apply Z.leb_gt in P0. rewrite firstn_map, skipn_map. split; [left; split|].
        -- apply plain_app; [apply PD; [apply FS|reflexivity]|]. apply plain_cons; [discriminate|]. apply PD; [apply FS|reflexivity].
        -- apply last_app. change ("."%char :: map digit (skipn (Z.to_nat p) ds)) with (["."%char] ++ map digit (skipn (Z.to_nat p) ds)).
           apply last_app, digits_last. split; [|apply FS]. intro E. apply (f_equal (@List.length nat)) in E. rewrite skipn_length in E. simpl in E. lia.
        -- apply plain_app; [apply PD; [apply FS|reflexivity]|]. apply plain_cons; [discriminate|]. apply PD; [apply FS|reflexivity].
      * rewrite zeros_digits. split; [left; split|].
        -- repeat apply plain_app; [apply PD; [exact F|reflexivity]|apply PD; [apply zeros_ok|reflexivity]|].
           repeat apply plain_cons; try discriminate. apply plain_nil.
        -- apply last_app, last_app. exists ["."%char], "0"%char. split; [reflexivity|discriminate].
        -- repeat apply plain_app; [apply PD; [exact F|reflexivity]|apply PD; [apply zeros_ok|reflexivity]|].
           repeat apply plain_cons; try discriminate. apply plain_nil.
    + fold (expo (p - 1)). destruct (expo_shape (p - 1)) as [es [Be [_ ->]]].
      rewrite firstn_map, skipn_map.
      set (A := map digit (firstn 1 ds)). set (B := match map digit (skipn 1 ds) with [] => [] | f => "."%char :: f end).
      assert (PA : forall a, is_digit a = false -> plain a A) by (intros; apply PD; [apply FS|assumption]).
      assert (PB : forall a, is_digit a = false -> a <> "."%char -> plain a B).
      { intros a Ha Na. unfold B. destruct (map digit (skipn 1 ds)) eqn:E; [apply plain_nil|].
        rewrite <- E. apply plain_cons; [congruence|]. apply PD; [apply FS|assumption]. }
      split.
      * destruct (p - 1 <? 0)%Z.
        -- right. exists (A ++ B), (map digit es). split; [rewrite <- app_assoc; reflexivity|].
           split; [apply plain_app; [apply PA; reflexivity|apply PB; [reflexivity|discriminate]]|apply PD; [apply Be|reflexivity]].
        -- left. split.
           ++ apply plain_app; [apply PA; reflexivity|]. apply plain_app; [apply PB; [reflexivity|discriminate]|].
              repeat apply plain_cons; try discriminate. apply PD; [apply Be|reflexivity].
           ++ apply last_app, last_app. change ("e"%char :: "+"%char :: map digit es) with (["e"%char; "+"%char] ++ map digit es).
              apply last_app, digits_last, Be.
      * apply plain_app; [apply PA; reflexivity|]. apply plain_app; [apply PB; [reflexivity|discriminate]|].
        apply plain_cons; [discriminate|]. apply plain_cons; [destruct (p - 1 <? 0)%Z; discriminate|]. apply PD; [apply Be|reflexivity].
Qed.

(** Replacing dots and back. *)
Lemma replace_back s : plain "p" s -> replace_char "p" "." (replace_char "." "p" s) = s.
Proof.
  intros N. unfold replace_char. rewrite map_map. rewrite <- (map_id s) at 2. apply map_ext_in. intros a Ha.
  destruct (Ascii.eqb a ".") eqn:E.
  - apply Ascii.eqb_eq in E. subst. reflexivity.
  - destruct (Ascii.eqb a "p") eqn:E2; [|reflexivity]. apply Ascii.eqb_eq in E2. subst. contradiction.
Qed.
Lemma replace_plain c s : c <> "p"%char -> plain c s -> plain c (replace_char "." "p" s).
Proof.
  intros N P I. apply in_map_iff in I. destruct I as [x [E X]]. destruct (Ascii.eqb x "."); [congruence|]. subst. apply P, X.
Qed.
Lemma replace_shape s : shape s -> shape (replace_char "." "p" s).
Proof.
  intros [[P [s' [x [-> X]]]]|[a [b [-> [A B]]]]].
  - left. split; [apply replace_plain; [discriminate|exact P]|]. unfold replace_char. rewrite map_app.
    eexists _, _. split; [reflexivity|]. destruct (Ascii.eqb x "."); [discriminate|exact X].
  - right. exists (replace_char "." "p" a), (replace_char "." "p" b). unfold replace_char at 1. rewrite map_app. split; [reflexivity|].
    split; apply replace_plain; try discriminate; assumption.
Qed.

Lemma str_plain z a : (0 <= z)%Z -> is_digit a = false -> plain a (str_int z).
Proof. intros H A. destruct (str_digits z H) as [ds [-> [B _]]]. apply plain_digits; [apply B|exact A]. Qed.

(** ** Reading back a written name *)
Lemma parse_written ts P M d1 d2 d3 : plain "-" ts -> params_ok P ->
  parse_name (temp_path (file_name ts P M d1 d2 d3))
  = Ok (setup_number P, input_number P, num_frames P, tvalue (timestep P)).
Proof.
  intros T [HS [HI [HF HT]]].
  set (S := str_int (setup_number P)). set (I := str_int (input_number P)). set (Fr := str_int (num_frames P)).
  set (X := replace_char "." "p" (str_timestep (timestep P))).
  set (rest := "M"%char :: str_int M ++ (dashed d1 ++ dashed d2 ++ dashed d3) ++ lit "_TEMP.npz").
  destruct (timestep_shape (timestep P) HT) as [Sh Pp].
  assert (E : temp_path (file_name ts P M d1 d2 d3)
    = (lit "output/" ++ ts) ++ "-"%char :: ("s"%char :: S) ++ "-"%char :: ("i"%char :: I) ++ "-"%char :: (Fr ++ lit "fr")
      ++ "-"%char :: ("t"%char :: X) ++ "-"%char :: rest).
  { unfold temp_path, file_name. fold S I Fr X. unfold rest.
    change (lit "-s") with ["-"%char; "s"%char]. change (lit "-i") with ["-"%char; "i"%char]. change (lit "-") with ["-"%char].
    change (lit "-t") with ["-"%char; "t"%char]. change (lit "-M") with ["-"%char; "M"%char].
    rewrite <- ?app_assoc. cbn [app]. rewrite <- ?app_assoc. cbn [app]. rewrite <- ?app_assoc. reflexivity. }
  rewrite E. unfold parse_name.
  assert (PS : plain "-" ("s"%char :: S)) by (apply plain_cons; [discriminate|apply str_plain; [exact HS|reflexivity]]).
  assert (PI : plain "-" ("i"%char :: I)) by (apply plain_cons; [discriminate|apply str_plain; [exact HI|reflexivity]]).
  assert (PF : plain "-" (Fr ++ lit "fr")).
  { apply plain_app; [apply str_plain; [exact HF|reflexivity]|]. repeat apply plain_cons; try discriminate. apply plain_nil. }
  assert (P0 : plain "-" (lit "output/" ++ ts)).
  { apply plain_app; [|exact T]. repeat apply plain_cons; try discriminate. apply plain_nil. }
  rewrite (split_at "-" _ _ P0), (split_at "-" _ _ PS), (split_at "-" _ _ PI), (split_at "-" _ _ PF).
  assert (L3 : firstn (List.length (Fr ++ lit "fr") - 2) (Fr ++ lit "fr") = Fr).
  { rewrite app_length. simpl (List.length (lit "fr")). replace (List.length Fr + 2 - 2)%nat with (List.length Fr + 0)%nat by lia.
    rewrite firstn_app_2. simpl. apply app_nil_r. }
  unfold item at 1 2 3. cbn [nth_error bind skipn]. rewrite L3. unfold S, I, Fr. rewrite !int_str. unfold bind.
  assert (FX : py_float (replace_char "p" "." X) = Ok (tvalue (timestep P))).
  { unfold X. rewrite replace_back by exact Pp. apply float_repr, HT. }
  pose proof (replace_shape _ Sh) as ShX. fold X in ShX.
  destruct ShX as [[PX [s' [x [EX NX]]]]|[a [b [EX [PA PB]]]]].
  - assert (PT : plain "-" ("t"%char :: X)) by (apply plain_cons; [discriminate|exact PX]).
    rewrite (split_at "-" _ _ PT). unfold item. cbn [nth_error].
    assert (L : last_char ("t"%char :: X) = Ok x).
    { unfold last_char. rewrite EX. change ("t"%char :: s' ++ [x]) with (("t"%char :: s') ++ [x]). rewrite rev_app_distr. reflexivity. }
    rewrite L. rewrite (proj2 (Ascii.eqb_neq x "e") NX). cbn [skipn]. rewrite FX. reflexivity.
  - assert (PT : plain "-" (("t"%char :: a) ++ ["e"%char])).
    { apply plain_app; [apply plain_cons; [discriminate|exact PA]|]. apply plain_cons; [discriminate|apply plain_nil]. }
    replace (("t"%char :: X) ++ "-"%char :: rest) with ((("t"%char :: a) ++ ["e"%char]) ++ "-"%char :: b ++ "-"%char :: rest).
    2: { rewrite EX. cbn [app]. rewrite <- !app_assoc. reflexivity. }
    rewrite (split_at "-" _ _ PT), (split_at "-" _ _ PB). unfold item. cbn [nth_error].
    assert (L : last_char (("t"%char :: a) ++ ["e"%char]) = Ok "e"%char).
    { unfold last_char. rewrite rev_app_distr. reflexivity. }
    rewrite L. replace (Ascii.eqb "e" "e") with true by reflexivity.
    assert (EX2 : skipn 1 (("t"%char :: a) ++ ["e"%char]) ++ "-"%char :: b = X).
    { cbn [app skipn]. rewrite EX, <- app_assoc. reflexivity. }
    change (skipn 1 ("t"%char :: (a ++ ["e"%char])) ++ "-"%char :: b = X) in EX2.
    match goal with |- context [py_float (replace_char _ _ ?u)] => change u with (skipn 1 ("t"%char :: (a ++ ["e"%char])) ++ "-"%char :: b) end.
    rewrite EX2, FX. reflexivity.
Qed.

Lemma matches_written ts P M d1 d2 d3 Q : plain "-" ts -> params_ok P ->
  exists b, matches Q (temp_path (file_name ts P M d1 d2 d3)) = Ok b /\
    (b = true <-> setup_number P = setup_number Q /\ input_number P = input_number Q /\ num_frames P = num_frames Q
                  /\ denotes (timestep P) = denotes (timestep Q)).
Proof.
  intros T HP. unfold matches. rewrite (parse_written ts P M d1 d2 d3 T HP). unfold bind. eexists. split; [reflexivity|].
  rewrite !denotes_tvalue, !andb_true_iff, !Z.eqb_eq. destruct (Req_EM_T _ _) as [E|E]; intuition congruence.
Qed.

(** ** A negative number in the name *)
Lemma negative_setup ts P M d1 d2 d3 Q : plain "-" ts -> (setup_number P < 0)%Z ->
  matches Q (temp_path (file_name ts P M d1 d2 d3)) = Raise ValueError.
Proof.
  intros T H. unfold matches, parse_name.
  assert (S : exists s, str_int (setup_number P) = "-"%char :: s).
  { destruct (setup_number P); try lia. eexists. reflexivity. }
  destruct S as [s S].
  assert (E : exists r, temp_path (file_name ts P M d1 d2 d3) = (lit "output/" ++ ts) ++ "-"%char :: ["s"%char] ++ "-"%char :: r).
  { eexists. unfold temp_path, file_name. rewrite S. change (lit "-s") with ["-"%char; "s"%char]. rewrite <- ?app_assoc. cbn [app].
    rewrite <- ?app_assoc. reflexivity. }
  destruct E as [r E]. rewrite E.
  assert (P0 : plain "-" (lit "output/" ++ ts)).
  { apply plain_app; [|exact T]. repeat apply plain_cons; try discriminate. apply plain_nil. }
  rewrite (split_at "-" _ _ P0). rewrite (split_at "-" ["s"%char] r) by (apply plain_cons; [discriminate|apply plain_nil]).
  reflexivity.
Qed.

(** ** Order *)
Lemma leb_before a : forall b, text_leb a b = true <-> before a b.
Proof.
  induction a as [|x a IH]; intros [|y b].
  - split; intros; [constructor|reflexivity].
  - split; intros; [constructor|reflexivity].
  - split; intros H; [discriminate|inversion H].
  - cbn [text_leb]. destruct (Nat.ltb_spec (nat_of_ascii x) (nat_of_ascii y)) as [L|L].
    + split; intros; [apply before_char; exact L|reflexivity].
    + destruct (Nat.eqb_spec (nat_of_ascii x) (nat_of_ascii y)) as [E|E].
      * assert (x = y) by (rewrite <- (ascii_nat_embedding x), <- (ascii_nat_embedding y), E; reflexivity). subst y. rewrite IH.
        split; intros H; [apply before_cons; exact H|inversion H; subst; [lia|assumption]].
      * split; intros H; [discriminate|inversion H; subst; lia].
Qed.
Lemma before_total a : forall b, before a b \/ before b a.
Proof.
  induction a as [|x a IH]; intros [|y b]; try solve [left; constructor]; try solve [right; constructor].
  destruct (Nat.lt_trichotomy (nat_of_ascii x) (nat_of_ascii y)) as [L|[E|L]].
  - left. apply before_char, L.
  - assert (x = y) by (rewrite <- (ascii_nat_embedding x), <- (ascii_nat_embedding y), E; reflexivity). subst y.
    destruct (IH b); [left|right]; apply before_cons; assumption.
  - right. apply before_char, L.
Qed.
Lemma before_trans a : forall b c, before a b -> before b c -> before a c.
Proof.
  induction a as [|x a IH]; intros b c H1 H2; [constructor|].
  inversion H1; subst; inversion H2; subst; try (apply before_char; lia); try (apply before_char; assumption).
  apply before_cons, (IH _ _ H0 H4) || (apply before_cons; eapply IH; eassumption).
Qed.
Lemma before_prefix p : forall a b, before (p ++ a) (p ++ b) -> before a b.
Proof.
  induction p as [|x p IH]; intros a b H; [exact H|]. simpl in H. inversion H; subst; [lia|apply IH; assumption].
Qed.
Lemma before_heads t : forall t' a b, List.length t = List.length t' -> before (t ++ a) (t' ++ b) -> before t t'.
Proof.
  induction t as [|x t IH]; intros [|y t'] a b L H; try discriminate; [constructor|]. simpl in H, L.
  inversion H; subst; [apply before_char; assumption|]. apply before_cons, (IH t' a b); [lia|assumption].
Qed.

Lemma insert_perm a l : Permutation (insert a l) (a :: l).
Proof.
  induction l as [|b l IH]; simpl; [reflexivity|]. destruct (text_leb a b); [reflexivity|]. rewrite IH. apply perm_swap.
Qed.
Lemma sorted_perm l : Permutation (sorted l) l.
Proof. induction l as [|a l IH]; simpl; [reflexivity|]. rewrite insert_perm, IH. reflexivity. Qed.
Inductive ordered : list text -> Prop :=
| ord_nil : ordered []
| ord_cons a l : Forall (before a) l -> ordered l -> ordered (a :: l).
Lemma insert_ordered a l : ordered l -> ordered (insert a l).
Proof.
  intros H. induction H as [|b l F H IH]; simpl; [repeat constructor|].
  destruct (text_leb a b) eqn:E.
  - apply leb_before in E. constructor; [|constructor; assumption]. constructor; [exact E|].
    apply Forall_forall. intros c Hc. apply (before_trans a b c E). exact (proj1 (Forall_forall _ _) F c Hc).
  - constructor; [|exact IH]. apply (Permutation_Forall (Permutation_sym (insert_perm a l))). constructor; [|exact F].
    destruct (before_total a b) as [T|T]; [apply leb_before in T; congruence|exact T].
Qed.
Lemma sorted_ordered l : ordered (sorted l).
Proof. induction l as [|a l IH]; simpl; [constructor|apply insert_ordered, IH]. Qed.

(** ** The search *)
Section Search.
Variable Q : params.
Variable frames : text -> option nat.
Definition usable (p : text) : Prop := matches Q p = Ok true /\ frames p <> None.

Lemma search_spec l : (forall p, In p l -> exists b, matches Q p = Ok b) -> ordered l ->
  exists st, fold_left (search_step Q frames) (rev l) (Ok ([], 0%nat)) = Ok st /\
    ((st = ([], 0%nat) /\ forall p, In p l -> ~ usable p) \/
     (In (fst st) l /\ matches Q (fst st) = Ok true /\ frames (fst st) = Some (snd st) /\
      forall p, In p l -> usable p -> before (fst st) p)).
Proof.
  intros G O. induction O as [|a l F O IH].
  - exists ([], 0%nat). split; [reflexivity|]. left. split; [reflexivity|intros p []].
  - destruct IH as [st [E IH]]; [intros p Hp; apply G; right; exact Hp|].
    cbn [rev]. rewrite fold_left_app, E. cbn [fold_left]. unfold search_step. unfold bind at 1.
    destruct (G a) as [b Hb]; [left; reflexivity|]. rewrite Hb. unfold bind.
    assert (K : ~ usable a -> (st = ([], 0%nat) /\ (forall p, In p (a :: l) -> ~ usable p)) \/
       (In (fst st) (a :: l) /\ matches Q (fst st) = Ok true /\ frames (fst st) = Some (snd st) /\
        (forall p, In p (a :: l) -> usable p -> before (fst st) p))).
    { intros NU. destruct IH as [[S N]|[I [M [K1 K2]]]].
      - left. split; [exact S|]. intros p [<-|Hp]; [exact NU|apply N, Hp].
      - right. split; [right; exact I|]. split; [exact M|]. split; [exact K1|].
        intros p [<-|Hp] U; [contradiction|apply K2; assumption]. }
    destruct b; [destruct (frames a) as [k|] eqn:FA|].
    + exists (a, k). split; [reflexivity|]. right. cbn [fst snd]. split; [left; reflexivity|]. split; [exact Hb|]. split; [exact FA|].
      intros p [<-|Hp] _; [|exact (proj1 (Forall_forall _ _) F p Hp)].
      destruct (before_total a a); assumption.
    + exists st. split; [reflexivity|]. apply K. intros [_ U]. contradiction.
    + exists st. split; [reflexivity|]. apply K. intros [U _]. congruence.
Qed.

Lemma fold_raise l e : fold_left (search_step Q frames) l (Raise e) = Raise e.
Proof. induction l as [|a l IH]; [reflexivity|exact IH]. Qed.
Lemma search_raises l p e : In p l -> matches Q p = Raise e ->
  exists e', forall acc, fold_left (search_step Q frames) l (Ok acc) = Raise e'.
Proof.
  revert p e. induction l as [|a l IH]; intros p e I H; [destruct I|].
  assert (ST : forall acc, search_step Q frames (Ok acc) a
    = do m <- matches Q a ;; Ok (if m then match frames a with Some k => (a, k) | None => acc end else acc)) by reflexivity.
  destruct (matches Q a) as [b|e0] eqn:E.
  - destruct I as [<-|I]; [congruence|]. destruct (IH p e I H) as [e' H']. exists e'. intros acc.
    cbn [fold_left]. rewrite ST. apply H'.
  - exists e0. intros acc. cbn [fold_left]. rewrite ST. apply fold_raise.
Qed.
End Search.

(** ** The name of a continued run *)
Lemma prefix_iff p : forall s, prefixb p s = true <-> exists b, s = p ++ b.
Proof.
  induction p as [|a p IH]; intros s; simpl.
  - split; [intros _; exists s; reflexivity|reflexivity].
  - destruct s as [|x s]; [split; [discriminate|intros [b E]; discriminate]|].
    rewrite andb_true_iff, Ascii.eqb_eq, IH. split.
    + intros [-> [b ->]]. exists b. reflexivity.
    + intros [b E]. injection E as -> ->. split; [reflexivity|exists b; reflexivity].
Qed.
Lemma remove_skip p a : forall r, remove_from p (List.length a) (a ++ r) = remove_from p 0 r.
Proof. induction a as [|x a IH]; intros r; [reflexivity|]. simpl. apply IH. Qed.
Lemma remove_absent p s : ~ occurs p s -> remove_all p s = s.
Proof.
  unfold remove_all. induction s as [|x s IH]; intros N; [reflexivity|]. cbn [remove_from].
  destruct (prefixb p (x :: s)) eqn:E.
  - exfalso. apply N. apply prefix_iff in E. destruct E as [b E]. exists [], b. exact E.
  - f_equal. apply IH. intros [a [b H]]. apply N. exists (x :: a), b. rewrite H. reflexivity.
Qed.
Lemma remove_first p x r : remove_all (x :: p) ((x :: p) ++ r) = remove_all (x :: p) r.
Proof.
  unfold remove_all. assert (E : prefixb (x :: p) ((x :: p) ++ r) = true) by (apply prefix_iff; exists r; reflexivity).
  cbn [app] in *. cbn [remove_from]. rewrite E. cbn [List.length]. rewrite Nat.sub_succ, Nat.sub_0_r. apply remove_skip.
Qed.
Lemma remove_last x p f : ~ In x p -> ~ occurs (x :: p) f -> remove_all (x :: p) (f ++ x :: p) = f.
Proof.
  unfold remove_all. intros NX. induction f as [|y f IH]; intros N.
  - cbn [app]. rewrite <- (app_nil_r (x :: p)) at 2. apply (remove_first p x []).
  - cbn [app remove_from]. destruct (prefixb (x :: p) (y :: f ++ x :: p)) eqn:E.
    + exfalso. apply prefix_iff in E. destruct E as [b E]. cbn [app] in E. injection E as -> E.
      destruct (Nat.le_gt_cases (List.length p) (List.length f)) as [L|L].
      * apply N. exists [], (skipn (List.length p) f). cbn [app].
        apply (f_equal (firstn (List.length p))) in E. rewrite firstn_app in E.
        replace (List.length p - List.length f)%nat with 0%nat in E by lia. rewrite firstn_O, app_nil_r in E.
        rewrite firstn_app, Nat.sub_diag, firstn_O, app_nil_r, firstn_all in E.
        rewrite <- E at 1. rewrite firstn_skipn. reflexivity.
      * apply NX. assert (H : nth_error (p ++ b) (List.length f) = Some x).
        { rewrite <- E. rewrite nth_error_app2 by lia. rewrite Nat.sub_diag. reflexivity. }
        rewrite nth_error_app1 in H by exact L. apply (nth_error_In _ _ H).
    + f_equal. apply IH. intros [a [b H]]. apply N. exists (y :: a), b. rewrite H. reflexivity.
Qed.
Lemma not_occurs_char p s a : In a p -> ~ In a s -> ~ occurs p s.
Proof. intros A N [u [w E]]. apply N. subst s. apply in_or_app. right. apply in_or_app. left. exact A. Qed.

Lemma continued f : plain "/" f -> plain "\" f -> ~ occurs (lit "_TEMP.npz") f -> continued_name (temp_path f) = f.
Proof.
  intros S B N. unfold continued_name, temp_path.
  rewrite (remove_absent (lit "output\") (lit "output/" ++ f ++ lit "_TEMP.npz")).
  2: { refine (not_occurs_char _ _ "\"%char _ _); [simpl; repeat (first [left; reflexivity | right])|].
       apply plain_app; [|apply plain_app; [exact B|]]; repeat apply plain_cons; try discriminate; apply plain_nil. }
  change (lit "output/") with ("o"%char :: lit "utput/"). rewrite remove_first.
  rewrite (remove_absent ("o"%char :: lit "utput/") (f ++ lit "_TEMP.npz")).
  2: { refine (not_occurs_char _ _ "/"%char _ _); [simpl; repeat (first [left; reflexivity | right])|].
       apply plain_app; [exact S|]. repeat apply plain_cons; try discriminate; apply plain_nil. }
  change (lit "_TEMP.npz") with ("_"%char :: lit "TEMP.npz"). apply remove_last; [|exact N].
  simpl. intuition discriminate.
Qed.
