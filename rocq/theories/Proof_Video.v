(** C84: reading the name of the file. *)
From Coq Require Import Reals List Arith Bool Ascii String ZArith DecimalString Lia Lra.
From Verif Require Import Py Model_Checkpoint Spec_Checkpoint Proof_Checkpoint Proof_Checkpoint2 Model_Video Spec_Video.
Import ListNotations.
Local Open Scope list_scope.

Lemma normal_ok t : normal_timestep t -> tstep_ok t.
Proof. destruct t; simpl; tauto. Qed.

(** ** The size of a float *)
Lemma fraction_bounds ds : Forall (fun d => (d < 10)%nat) ds -> (0 <= fraction ds < 1)%R.
Proof.
  induction 1 as [|d ds H F IH]; [simpl; lra|]. cbn [fraction].
  assert (0 <= INR d <= 9)%R. { split; [apply pos_INR|]. replace 9%R with (INR 9) by (simpl; lra). apply le_INR. lia. }
  lra.
Qed.
Lemma fraction_normal d ds : Forall (fun d => (d < 10)%nat) (d :: ds) -> d <> 0%nat -> (/ 10 <= fraction (d :: ds) < 1)%R.
Proof.
  intros F N. split; [|apply (fraction_bounds (d :: ds) F)]. cbn [fraction]. inversion F; subst.
  pose proof (fraction_bounds ds H2). assert (1 <= INR d)%R. { replace 1%R with (INR 1) by reflexivity. apply le_INR. lia. } lra.
Qed.
Lemma power_pos p : (0 < powerRZ 10 p)%R. Proof. apply powerRZ_lt. lra. Qed.
Lemma power_le p q : (p <= q)%Z -> (powerRZ 10 p <= powerRZ 10 q)%R.
Proof.
  intros H. replace q with (p + (q - p))%Z by lia. rewrite powerRZ_add by lra.
  assert (1 <= powerRZ 10 (q - p))%R.
  { rewrite <- (Z2Nat.id (q - p)) by lia. rewrite <- pow_powerRZ. apply pow_R1_Rle. lra. }
  pose proof (power_pos p). nra.
Qed.
Lemma small_float ds p : decimal ds -> hd 0%nat ds <> 0%nat -> ((denotes (TFloat ds p) < / 10000)%R <-> (p <= -4)%Z).
Proof.
  intros [N F] H. destruct ds as [|d ds]; [contradiction|]. pose proof (fraction_normal d ds F H) as [A B].
  unfold denotes. pose proof (power_pos p) as PP. split; intros E.
  - destruct (Z_le_gt_dec p (-4)) as [L|L]; [exact L|exfalso].
    pose proof (power_le (-3) p ltac:(lia)) as Q.
    assert (powerRZ 10 (-3) = / 1000)%R by (simpl; lra). nra.
  - pose proof (power_le p (-4) E) as Q. assert (powerRZ 10 (-4) = / 10000)%R by (simpl; lra). nra.
Qed.

(** ** The text of a timestep again *)
Lemma int_plain n : (0 <= n)%Z -> plain "-" (str_int n).
Proof. intros H. destruct (str_digits n H) as [ds [-> [B _]]]. apply plain_digits; [apply B|reflexivity]. Qed.

Definition large (t : tstep) : Prop := match t with TInt _ => True | TFloat _ p => (-4 < p)%Z end.
Lemma large_plain t : tstep_ok t -> large t -> plain "-" (str_timestep t).
Proof.
  intros H L. pose proof (proj1 (timestep_shape t H)) as [[A _]|[a [b [E _]]]]; [exact A|].
  destruct t as [n|ds p]; [apply int_plain, H|]. simpl in L, H.
  assert (FS : forall k, Forall (fun d => (d < 10)%nat) (firstn k ds) /\ Forall (fun d => (d < 10)%nat) (skipn k ds)).
  { intros k. destruct H as [_ F]. rewrite <- (firstn_skipn k ds) in F. apply Forall_app in F. exact F. }
  assert (PD : forall ks, Forall (fun d => (d < 10)%nat) ks -> plain "-" (map digit ks)) by (intros; apply plain_digits; [assumption|reflexivity]).
  clear E. cbn [str_timestep]. unfold repr_float.
  destruct ((-4 <? p) && (p <=? 16))%Z eqn:R.
  - destruct (p <=? 0)%Z; [|destruct (p <? _)%Z].
    + rewrite zeros_digits. apply plain_app; [repeat apply plain_cons; try discriminate; apply plain_nil|].
      apply plain_app; apply PD; [apply zeros_ok|apply H].
    + rewrite firstn_map, skipn_map. apply plain_app; [apply PD, FS|]. apply plain_cons; [discriminate|apply PD, FS].
    + rewrite zeros_digits. apply plain_app; [apply PD, H|]. apply plain_app; [apply PD, zeros_ok|].
      repeat apply plain_cons; try discriminate. apply plain_nil.
  - apply andb_false_iff in R. destruct R as [R|R]; [apply Z.ltb_ge in R; lia|]. apply Z.leb_gt in R.
    fold (expo (p - 1)). destruct (expo_shape (p - 1)) as [es [Be [_ ->]]].
    destruct (Z.ltb_spec (p - 1) 0); [lia|]. rewrite firstn_map, skipn_map.
    apply plain_app; [apply PD, FS|]. apply plain_app.
    + destruct (map digit (skipn 1 ds)) eqn:X; [apply plain_nil|]. rewrite <- X. apply plain_cons; [discriminate|apply PD, FS].
    + repeat apply plain_cons; try discriminate. apply PD, Be.
Qed.
Lemma small_text ds p : decimal ds -> (p <= -4)%Z ->
  exists a b, repr_float ds p = a ++ "e"%char :: "-"%char :: b /\ plain "-" a /\ (exists m n : list nat, a = map digit m ++ (match map digit n with [] => [] | f => "."%char :: f end)
     /\ Forall (fun d => (d < 10)%nat) m /\ Forall (fun d => (d < 10)%nat) n).
Proof.
  intros H L. unfold repr_float. destruct (Z.ltb_spec (-4) p); [lia|]. cbn [andb].
  fold (expo (p - 1)). destruct (expo_shape (p - 1)) as [es [Be [_ ->]]]. destruct (Z.ltb_spec (p - 1) 0); [|lia].
  assert (FS : forall k, Forall (fun d => (d < 10)%nat) (firstn k ds) /\ Forall (fun d => (d < 10)%nat) (skipn k ds)).
  { intros k. destruct H as [_ F]. rewrite <- (firstn_skipn k ds) in F. apply Forall_app in F. exact F. }
  rewrite firstn_map, skipn_map.
  exists (map digit (firstn 1 ds) ++ match map digit (skipn 1 ds) with [] => [] | f => "."%char :: f end), (map digit es).
  split; [rewrite <- app_assoc; reflexivity|]. split.
  - apply plain_app; [apply plain_digits; [apply FS|reflexivity]|].
    destruct (map digit (skipn 1 ds)) eqn:X; [apply plain_nil|]. rewrite <- X. apply plain_cons; [discriminate|apply plain_digits; [apply FS|reflexivity]].
  - exists (firstn 1 ds), (skipn 1 ds). split; [reflexivity|apply FS].
Qed.
(** [float] of a text that ends with its 'e' *)
Lemma float_cut m n : Forall (fun d => (d < 10)%nat) m -> Forall (fun d => (d < 10)%nat) n ->
  py_float (map digit m ++ (match map digit n with [] => [] | f => "."%char :: f end) ++ ["e"%char]) = Raise ValueError.
Proof.
  intros M N. unfold py_float.
  assert (XE : py_exponent ["e"%char] = None) by reflexivity.
  destruct n as [|d n].
  - cbn [map app]. rewrite (span_spec m ["e"%char] M) by reflexivity. cbv iota. replace (Ascii.eqb "e" ".") with false by reflexivity.
    rewrite XE. destruct (m ++ []); reflexivity.
  - match goal with |- context [span_digits (map digit m ++ ?u)] => change u with ("."%char :: (map digit (d :: n) ++ ["e"%char])) end.
    rewrite (span_spec m _ M) by reflexivity. cbv iota. replace (Ascii.eqb "." ".") with true by reflexivity.
    rewrite (span_spec (d :: n) _ N) by reflexivity. rewrite XE. destruct (m ++ d :: n); reflexivity.
Qed.

(** ** The name *)
Lemma name_shape ts P M d1 d2 d3 tail : exists rest,
  file_name ts P M d1 d2 d3 ++ tail =
  ts ++ "-"%char :: ("s"%char :: str_int (setup_number P)) ++ "-"%char :: ("i"%char :: str_int (input_number P)) ++
  "-"%char :: (str_int (num_frames P) ++ lit "fr") ++ "-"%char :: ("t"%char :: replace_char "." "p" (str_timestep (timestep P))) ++ "-"%char :: rest.
Proof.
  eexists. unfold file_name.
  change (lit "-s") with ["-"%char; "s"%char]. change (lit "-i") with ["-"%char; "i"%char]. change (lit "-t") with ["-"%char; "t"%char].
  change (lit "-M") with ["-"%char; "M"%char]. change (lit "-") with ["-"%char].
  rewrite <- ?app_assoc. cbn [app]. rewrite <- ?app_assoc. cbn [app]. rewrite <- ?app_assoc. cbn [app]. reflexivity.
Qed.
Lemma replace_plain s : plain "-" s -> plain "-" (replace_char "." "p" s).
Proof.
  intros P I. apply in_map_iff in I. destruct I as [a [E A]]. destruct (Ascii.eqb a "."); [discriminate|]. subst a. apply P, A.
Qed.
Lemma name_read ts P M d1 d2 d3 tail :
  plain "-" ts -> (0 <= setup_number P)%Z -> (0 <= input_number P)%Z -> (0 <= num_frames P)%Z -> normal_timestep (timestep P) ->
  video_parameters (file_name ts P M d1 d2 d3 ++ tail) =
  if (match timestep P with TInt _ => false | TFloat _ p => (p <=? -4)%Z end) then Raise ValueError
  else Ok (denotes (timestep P), input_number P, setup_number P).
Proof.
  intros T HS HI HF HT. destruct (name_shape ts P M d1 d2 d3 tail) as [rest ->]. unfold video_parameters.
  assert (PS : plain "-" ("s"%char :: str_int (setup_number P))) by (apply plain_cons; [discriminate|apply int_plain, HS]).
  assert (PI : plain "-" ("i"%char :: str_int (input_number P))) by (apply plain_cons; [discriminate|apply int_plain, HI]).
  assert (PF : plain "-" (str_int (num_frames P) ++ lit "fr")).
  { apply plain_app; [apply int_plain, HF|]. repeat apply plain_cons; try discriminate. apply plain_nil. }
  rewrite (split_at "-" _ _ T), (split_at "-" _ _ PS), (split_at "-" _ _ PI), (split_at "-" _ _ PF).
  pose proof (normal_ok _ HT) as HO.
  destruct (match timestep P with TInt _ => false | TFloat _ p => (p <=? -4)%Z end) eqn:SM.
  - destruct (timestep P) as [n|ds p] eqn:ET; [discriminate|]. apply Z.leb_le in SM.
    destruct (small_text ds p (proj1 HT) SM) as (a & b & E & PA & m & n & Ea & Fm & Fn).
    cbn [str_timestep]. rewrite E. unfold replace_char at 1. rewrite map_app. cbn [map].
    replace (Ascii.eqb "e" ".") with false by reflexivity. replace (Ascii.eqb "-" ".") with false by reflexivity. fold (replace_char "." "p").
    set (a' := map _ a).
    replace (("t"%char :: a' ++ "e"%char :: "-"%char :: map (fun a0 => if Ascii.eqb a0 "." then "p"%char else a0) b) ++ "-"%char :: rest)
      with (("t"%char :: a' ++ ["e"%char]) ++ "-"%char :: (map (fun a0 => if Ascii.eqb a0 "." then "p"%char else a0) b ++ "-"%char :: rest)).
    2: { cbn [app]. rewrite <- !app_assoc. reflexivity. }
    rewrite (split_at "-").
    2: { apply plain_cons; [discriminate|]. apply plain_app; [apply (replace_plain a PA)|]. apply plain_cons; [discriminate|apply plain_nil]. }
    unfold item at 1. cbn [nth_error bind skipn].
    assert (EB : replace_char "p" "." (a' ++ ["e"%char]) = a ++ ["e"%char]).
    { unfold replace_char. rewrite map_app. f_equal. unfold a'. 
      assert (PP : plain "p" a).
      { rewrite Ea. apply plain_app; [apply plain_digits; [exact Fm|reflexivity]|].
        destruct (map digit n) eqn:X; [apply plain_nil|]. rewrite <- X. apply plain_cons; [discriminate|apply plain_digits; [exact Fn|reflexivity]]. }
      exact (replace_back a PP). }
    rewrite EB, Ea, <- app_assoc, (float_cut m n Fm Fn). reflexivity.
  - assert (PT : plain "-" ("t"%char :: replace_char "." "p" (str_timestep (timestep P)))).
    { apply plain_cons; [discriminate|]. apply replace_plain, large_plain; [exact HO|].
      destruct (timestep P); [exact I|]. apply Z.leb_gt in SM. simpl. lia. }
    rewrite (split_at "-" _ _ PT). unfold item. cbn [nth_error bind skipn].
    rewrite replace_back by (apply timestep_shape, HO). rewrite (float_repr _ HO). cbn [bind].
    rewrite !int_str. cbn [bind]. rewrite denotes_tvalue. reflexivity.
Qed.

(** A test setup has a negative number. *)
Lemma float_raises s e : py_float s = Raise e -> e = ValueError.
Proof.
  unfold py_float. destruct (span_digits s) as [ip r]. destruct (match r with [] => _ | _ => _ end) as [fp r'].
  destruct (ip ++ fp); [intros E; injection E; auto|]. destruct (py_exponent r'); intros E; [discriminate|injection E; auto].
Qed.
Lemma int_raises s e : py_int s = Raise e -> e = ValueError.
Proof. unfold py_int. destruct (NilZero.int_of_string _); intros E; [discriminate|injection E; auto]. Qed.
Lemma split_more c a b : split c (a ++ c :: b) = split c a ++ split c b.
Proof.
  induction a as [|x a IH]; cbn [app split].
  - rewrite Ascii.eqb_refl. reflexivity.
  - destruct (Ascii.eqb x c); [rewrite IH; reflexivity|]. rewrite IH.
    pose proof (split_nonempty c a). destruct (split c a); [contradiction|]. reflexivity.
Qed.
Lemma split_count c a : (1 <= List.length (split c a))%nat.
Proof. pose proof (split_nonempty c a). destruct (split c a); [contradiction|simpl; lia]. Qed.
Lemma name_negative ts P M d1 d2 d3 tail : plain "-" ts -> (setup_number P < 0)%Z ->
  video_parameters (file_name ts P M d1 d2 d3 ++ tail) = Raise ValueError.
Proof.
  intros T H. destruct (name_shape ts P M d1 d2 d3 tail) as [rest ->]. unfold video_parameters.
  assert (S : exists s, str_int (setup_number P) = "-"%char :: s) by (destruct (setup_number P); try lia; eexists; reflexivity).
  destruct S as [s ->]. rewrite (split_at "-" _ _ T).
  match goal with |- context [split "-" (("s"%char :: "-"%char :: s) ++ ?r)] => change (("s"%char :: "-"%char :: s) ++ r) with (["s"%char] ++ "-"%char :: (s ++ r)) end.
  rewrite (split_at "-" ["s"%char]) by (apply plain_cons; [discriminate|apply plain_nil]).
  rewrite !split_more.
  set (l := split "-" s ++ _).
  assert (C : (3 <= List.length l)%nat).
  { unfold l. rewrite !app_length.
    pose proof (split_count "-" s). pose proof (split_count "-" ("i"%char :: str_int (input_number P))).
    pose proof (split_count "-" (str_int (num_frames P) ++ lit "fr")). lia. }
  clearbody l. destruct l as [|w2 [|w3 [|w4 l]]]; try (simpl in C; lia).
  unfold item. cbn [nth_error bind].
  destruct (py_float _) as [t|e] eqn:E1; cbn [bind]; [|f_equal; exact (float_raises _ _ E1)].
  destruct (py_int (skipn 1 w2)) as [t2|e] eqn:E2; cbn [bind]; [|f_equal; exact (int_raises _ _ E2)].
  reflexivity.
Qed.
