(** The box of settings: filling in the template. *)
From Coq Require Import Reals List Arith Bool Ascii String ZArith Lia.
From Verif Require Import Py Model_Checkpoint Spec_Checkpoint Proof_Checkpoint Proof_Checkpoint2 Model_Frame Model_Banner Spec_Banner.
Import ListNotations.
Local Open Scope list_scope.
Local Open Scope char_scope.

(** ** Replacing *)
Lemma replace_skip p v a : forall r, replace_from p v (List.length a) (a ++ r) = replace_from p v 0 r.
Proof. induction a as [|x a IH]; intros r; [reflexivity|]. simpl. apply IH. Qed.
Lemma prefix_here p r : prefixb p (p ++ r) = true.
Proof. apply prefix_iff. eauto. Qed.
Lemma replace_here x p v r : replace (x :: p) v ((x :: p) ++ r) = v ++ replace (x :: p) v r.
Proof.
  unfold replace. pose proof (prefix_here (x :: p) r) as H. cbn [app] in *. cbn [replace_from]. rewrite H.
  f_equal. cbn [List.length]. rewrite Nat.sub_succ, Nat.sub_0_r. apply replace_skip.
Qed.
(** A chunk is passed when no occurrence starts in it *)
Lemma replace_pass p v c : forall r, (forall a b, c = a ++ b -> b <> [] -> prefixb p (b ++ r) = false) ->
  replace p v (c ++ r) = c ++ replace p v r.
Proof.
  unfold replace. induction c as [|x c IH]; intros r H; [reflexivity|].
  pose proof (H [] (x :: c) eq_refl ltac:(discriminate)) as E. cbn [app] in *. cbn [replace_from]. rewrite E. f_equal.
  apply IH. intros a b -> N. apply (H (x :: a) b eq_refl N).
Qed.

(** Chunks without a run of three X and not ending in X *)
Definition run3 (s : text) : Prop := exists a b, s = a ++ "X" :: "X" :: "X" :: b.
Definition inert (c : text) : Prop := ~ run3 c /\ (forall a, c <> a ++ ["X"]).
Lemma inert_pass p v c r : inert c -> replace ("X" :: "X" :: "X" :: p) v (c ++ r) = c ++ replace ("X" :: "X" :: "X" :: p) v r.
Proof.
  intros [N L]. apply replace_pass. intros a b -> B.
  destruct (prefixb ("X" :: "X" :: "X" :: p) (b ++ r)) eqn:E; [|reflexivity]. exfalso.
  apply prefix_iff in E. destruct E as [q E]. cbn [app] in E.
  destruct b as [|b1 b]; [contradiction|]. cbn [app] in E. injection E as -> E.
  destruct b as [|b2 b]; [apply (L a eq_refl)|]. cbn [app] in E. injection E as -> E.
  destruct b as [|b3 b]; [apply (L (a ++ ["X"])); rewrite <- app_assoc; reflexivity|]. cbn [app] in E. injection E as -> E.
  apply N. exists a, b. reflexivity.
Qed.

(** Chunks that differ from p wherever it is laid *)
Fixpoint differs (p q : text) : bool :=
  match p, q with a :: p', b :: q' => negb (Ascii.eqb a b) || differs p' q' | _, _ => false end.
Lemma differs_prefix p : forall q r, differs p q = true -> prefixb p (q ++ r) = false.
Proof.
  induction p as [|a p IH]; intros [|b q] r H; try discriminate. cbn [app prefixb differs] in *.
  destruct (Ascii.eqb a b); [|reflexivity]. cbn [negb orb andb] in *. apply IH, H.
Qed.
Fixpoint clear_of (p c : text) : bool :=
  match c with [] => true | _ :: c' => differs p c && clear_of p c' end.
Lemma clear_pass p v c r : clear_of p c = true -> replace p v (c ++ r) = c ++ replace p v r.
Proof.
  intros H. apply replace_pass. intros a. revert c H. induction a as [|x a IH]; intros c H b -> N.
  - destruct b as [|y b]; [contradiction|]. cbn [app clear_of] in H. apply andb_prop in H. destruct H as [H _].
    apply differs_prefix, H.
  - cbn [app clear_of] in H. apply andb_prop in H. destruct H as [_ H]. apply (IH (a ++ b) H b eq_refl N).
Qed.

(** ** The template in pieces *)
Inductive piece := Fixed (c : text) | Slot (k : nat).
Definition key (k : nat) : text :=
  nth k (map lit ["XXXXXX01"; "XXXXXX02"; "XXXXXX03"; "XXXXXX04"; "XXXX05"; "XXXX06"; "XXXX07"; "XXXX08";
    "XXXXXXXXXXXXXXXXXXXXXXXXXXX09"; "XXXXXX10"; "XXXXXX11"; "XXXXXX12"; "XXXXXX13"; "XXXXXX14";
    "XXXXXXXXXXXXXXXXXXXXXXXXXXXXXXX15"; "XXXX16"; "XXX17"; "XXXXXX18"]%string) [].
Definition piece_text (p : piece) : text := match p with Fixed c => c | Slot k => key k end.
Definition flat (l : list piece) : text := flat_map piece_text l.
Definition sub (k : nat) (v : text) (p : piece) : piece :=
  match p with Slot k' => if Nat.eqb k' k then Fixed v else p | _ => p end.
Definition sound (p : piece) : Prop := match p with Fixed c => inert c | Slot k => (k < 18)%nat end.

Lemma keys_apart : forallb (fun k => forallb (fun k' => Nat.eqb k' k || clear_of (key k) (key k')) (seq 0 18)) (seq 0 18) = true.
Proof. vm_compute. reflexivity. Qed.
Lemma key_apart k k' : (k < 18)%nat -> (k' < 18)%nat -> k' <> k -> clear_of (key k) (key k') = true.
Proof.
  intros H H' N. pose proof keys_apart as T. rewrite forallb_forall in T. specialize (T k ltac:(apply in_seq; lia)).
  rewrite forallb_forall in T. specialize (T k' ltac:(apply in_seq; lia)). apply orb_prop in T.
  destruct T as [T|T]; [apply Nat.eqb_eq in T; contradiction|exact T].
Qed.
Lemma key_head k : (k < 18)%nat -> exists p, key k = "X" :: "X" :: "X" :: p.
Proof. intros H. do 18 (destruct k as [|k]; [eexists; reflexivity|]). lia. Qed.

Lemma replace_pieces k v l : (k < 18)%nat -> Forall sound l -> replace (key k) v (flat l) = flat (map (sub k v) l).
Proof.
  intros Hk F. unfold flat. induction F as [|p l S F IH]; [reflexivity|]. cbn [map flat_map]. rewrite <- IH.
  destruct p as [c|k']; cbn [piece_text sub].
  - destruct (key_head k Hk) as [q ->]. apply inert_pass, S.
  - destruct (Nat.eqb_spec k' k) as [->|N].
    + cbn [piece_text]. destruct (key_head k Hk) as [q E]. rewrite E. apply replace_here.
    + apply clear_pass, key_apart; assumption.
Qed.
Lemma sub_sound k v l : inert v -> Forall sound l -> Forall sound (map (sub k v) l).
Proof.
  intros I. rewrite Forall_map. apply Forall_impl. intros [c|k'] S; cbn [sub]; [exact S|].
  destruct (Nat.eqb k' k); [exact I|exact S].
Qed.
Definition keyed (e : nat * text * bool) : text * text * bool := let '(k, v, w) := e in (key k, v, w).
Definition sub_all (l : list piece) (e : nat * text * bool) : list piece :=
  let '(k, v, w) := e in map (sub k (decorated (key k) v w)) l.
Lemma fill_all es : forall l, Forall sound l -> Forall (fun e => let '(k, v, w) := e in (k < 18)%nat /\ inert (decorated (key k) v w)) es ->
  fold_left fill_in (map keyed es) (flat l) = flat (fold_left sub_all es l).
Proof.
  induction es as [|[[k v] w] es IH]; intros l S F; [reflexivity|].
  apply Forall_cons_iff in F. destruct F as [[Hk I] F']. cbn [map keyed fold_left fill_in sub_all].
  rewrite replace_pieces by assumption. apply IH; [apply sub_sound; assumption|assumption].
Qed.

(** ** Values without X *)
Definition no_run (v : text) : Prop := ~ run3 v.
Lemma run3_app a b : (forall c, a <> c ++ ["X"]) -> run3 (a ++ b) -> run3 a \/ run3 b.
Proof.
  revert b. induction a as [|x a IH]; intros b L [p [q E]]; [right; exists p, q; exact E|].
  destruct p as [|y p].
  - cbn [app] in E. injection E as -> E. destruct a as [|y a]; [exfalso; apply (L []); reflexivity|].
    cbn [app] in E. injection E as -> E. destruct a as [|z a]; [exfalso; apply (L ["X"]); reflexivity|].
    cbn [app] in E. injection E as -> E. left. exists [], a. reflexivity.
  - cbn [app] in E. injection E as -> E. destruct (IH b) as [[p' [q' ->]]|R].
    + intros c ->. apply (L (y :: c)). reflexivity.
    + exists p, q. exact E.
    + left. exists (y :: p'), q'. reflexivity.
    + right. exact R.
Qed.
Lemma run3_free s : ~ In "X" s -> ~ run3 s.
Proof. intros N [a [b ->]]. apply N. apply in_or_app. right. left. reflexivity. Qed.
Lemma last_free s : ~ In "X" s -> forall a, s <> a ++ ["X"].
Proof. intros N a ->. apply N. apply in_or_app. right. left. reflexivity. Qed.
Lemma inert_free s : ~ In "X" s -> inert s.
Proof. intros N. split; [apply run3_free, N|apply last_free, N]. Qed.
Lemma last_app_free a s b : s <> [] -> ~ In "X" s -> a ++ s <> b ++ ["X"].
Proof.
  intros E N Q. destruct (exists_last E) as [s' [x ->]]. rewrite app_assoc in Q. apply app_inj_tail in Q. destruct Q as [_ ->].
  apply N. apply in_or_app. right. left. reflexivity.
Qed.
(** v without a run, between two texts without X *)
Lemma wrapped_inert a v s : ~ In "X" a -> ~ run3 v -> s <> [] -> ~ In "X" s -> inert (a ++ v ++ s).
Proof.
  intros A V E S. split.
  - intros R. apply run3_app in R; [|apply last_free, A]. destruct R as [R|R]; [apply (run3_free a A R)|].
    destruct R as [p [q Q]].
    (* a run that starts in v stays in v, since s starts with another character *)
    destruct s as [|x s]; [contradiction|].
    revert p Q V. induction v as [|y v IH]; intros p Q V.
    + apply (run3_free (x :: s) S). exists p, q. exact Q.
    + destruct p as [|z p].
      * cbn [app] in Q. injection Q as -> Q. destruct v as [|y v]; cbn [app] in Q.
        -- injection Q as -> _. apply S. left. reflexivity.
        -- injection Q as -> Q. destruct v as [|y v]; cbn [app] in Q.
           ++ injection Q as -> _. apply S. left. reflexivity.
           ++ injection Q as -> Q. apply V. exists [], v. reflexivity.
      * cbn [app] in Q. injection Q as -> Q. apply (IH p Q). intros [p' [q' ->]]. apply V. exists (z :: p'), q'. reflexivity.
  - intros b. rewrite app_assoc. apply last_app_free; assumption.
Qed.
Definition has_X (s : text) : bool := existsb (Ascii.eqb "X") s.
Lemma no_X s : has_X s = false -> ~ In "X" s.
Proof.
  intros H I. assert (has_X s = true); [|congruence]. apply existsb_exists. exists "X". split; [exact I|reflexivity].
Qed.
Lemma decorated_inert k v w : ~ run3 v -> inert (decorated k v w).
Proof.
  intros V. unfold decorated, ljust. destruct w.
  - rewrite <- app_assoc. apply wrapped_inert; [apply no_X; reflexivity|exact V| |].
    + destruct (blanks _); discriminate.
    + rewrite in_app_iff. intros [I|I]; [apply repeat_spec in I; discriminate|revert I; apply no_X; reflexivity].
  - rewrite <- app_assoc. apply wrapped_inert; [apply no_X; reflexivity|exact V| |].
    + destruct (blanks _); discriminate.
    + rewrite in_app_iff. intros [I|I]; [apply repeat_spec in I; discriminate|revert I; apply no_X; reflexivity].
Qed.
