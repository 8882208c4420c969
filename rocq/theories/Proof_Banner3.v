(** The box of settings: its text and its widths. *)
From Coq Require Import Reals List Arith Bool Ascii String ZArith Lia.
From Verif Require Import Py Model_Checkpoint Spec_Checkpoint Proof_Checkpoint Proof_Checkpoint2 Model_Frame Model_Banner Spec_Banner Proof_Banner2.
Import ListNotations.
Local Open Scope list_scope.
Local Open Scope char_scope.

(** ** Calm texts: no X, no control characters *)
Definition calm_char (c : ascii) : bool :=
  negb (Ascii.eqb "X" c) && negb (Ascii.eqb (ascii_of_nat 27) c) && negb (Ascii.eqb newline c).
Definition calm (s : text) : Prop := forallb calm_char s = true.
Lemma calm_app a b : calm a -> calm b -> calm (a ++ b).
Proof. unfold calm. intros. rewrite forallb_app. apply andb_true_intro. auto. Qed.
Lemma calm_app_inv a b : calm (a ++ b) -> calm a /\ calm b.
Proof. unfold calm. rewrite forallb_app. apply andb_prop. Qed.
Lemma calm_cons x a : calm_char x = true -> calm a -> calm (x :: a).
Proof. unfold calm. intros. apply andb_true_intro. auto. Qed.
Lemma calm_repeat x k : calm_char x = true -> calm (repeat x k).
Proof. intros H. induction k; [reflexivity|]. apply calm_cons; assumption. Qed.
Lemma calm_rev s : calm s -> calm (rev s).
Proof. unfold calm. rewrite !forallb_forall. intros H x I. apply H, in_rev, I. Qed.
Lemma calm_digits ds : Forall (fun d => (d < 10)%nat) ds -> calm (map digit ds).
Proof.
  induction 1 as [|d ds H F IH]; [reflexivity|]. apply calm_cons; [|exact IH].
  do 10 (destruct d as [|d]; [reflexivity|]). lia.
Qed.
Lemma calm_int z : calm (str_int z).
Proof.
  destruct (Z_le_gt_dec 0 z) as [H|H].
  - destruct (str_digits z H) as [ds [-> [[_ F] _]]]. apply calm_digits, F.
  - destruct z as [|p|p]; try lia. change (str_int (Z.neg p)) with ("-" :: str_int (Z.pos p)).
    apply calm_cons; [reflexivity|]. destruct (str_digits (Z.pos p) ltac:(lia)) as [ds [-> [[_ F] _]]]. apply calm_digits, F.
Qed.
Lemma calm_timestep t : tstep_ok t -> calm (str_timestep t).
Proof.
  destruct t as [n|ds p]; intros H; [apply calm_int|]. destruct H as [_ F]. cbn [str_timestep]. unfold repr_float.
  assert (FS : forall k, calm (map digit (firstn k ds)) /\ calm (map digit (skipn k ds))).
  { intros k. rewrite <- (firstn_skipn k ds) in F. apply Forall_app in F. destruct F. split; apply calm_digits; assumption. }
  assert (FD : calm (map digit ds)) by apply calm_digits, F.
  assert (Z0 : forall z, calm (zeros z)) by (intros; apply calm_repeat; reflexivity).
  destruct ((-4 <? p) && (p <=? 16))%Z.
  - destruct (p <=? 0)%Z; [|destruct (p <? Z.of_nat (List.length ds))%Z].
    + apply calm_app; [reflexivity|]. apply calm_app; auto.
    + rewrite firstn_map, skipn_map. apply calm_app; [apply FS|]. apply calm_cons; [reflexivity|apply FS].
    + apply calm_app; [exact FD|]. apply calm_app; [apply Z0|reflexivity].
  - rewrite firstn_map, skipn_map. apply calm_app; [apply FS|]. apply calm_app.
    + pose proof (proj2 (FS 1%nat)). destruct (map digit (skipn 1 ds)); [reflexivity|]. apply calm_cons; [reflexivity|assumption].
    + apply calm_cons; [reflexivity|]. apply calm_cons; [destruct (p - 1 <? 0)%Z; reflexivity|].
      destruct (List.length (str_int (Z.abs (p - 1))) <? 2)%nat; [apply calm_cons; [reflexivity|]|]; apply calm_int.
Qed.
Lemma calm_drop s : calm s -> calm (drop_zeros s).
Proof.
  induction s as [|a s IH]; intros H; [reflexivity|]. apply andb_prop in H as [A S].
  assert (D : drop_zeros (a :: s) = if Ascii.eqb a "0" then drop_zeros s else a :: s).
  { destruct a as [[] [] [] [] [] [] [] []]; reflexivity. }
  rewrite D. destruct (Ascii.eqb a "0"); [apply IH, S|apply calm_cons; assumption].
Qed.
Lemma calm_general P num den : calm (general_format P num den).
Proof.
  unfold general_format. destruct (num =? 0)%Z; [reflexivity|]. unfold short_decimal.
  apply calm_app; [apply calm_int|]. destruct (decimals P num den) as [|d]; [reflexivity|].
  match goal with |- calm match ?x with _ => _ end => assert (C : calm x); [|destruct x; [reflexivity|apply calm_cons; [reflexivity|exact C]]] end.
  apply calm_rev, calm_drop, calm_rev. unfold fraction_digits. apply calm_app; [apply calm_repeat; reflexivity|apply calm_int].
Qed.
Lemma calm_sizeof_from us num : forall den, Forall calm us -> calm (sizeof_from us num den).
Proof.
  induction us as [|u us IH]; intros den F; cbn [sizeof_from].
  - unfold tenth_format. apply calm_app; [|reflexivity]. apply calm_app; [apply calm_int|]. apply calm_cons; [reflexivity|apply calm_int].
  - inversion F; subst. destruct (num <? 1024 * den)%Z; [|apply IH; assumption].
    destruct (2 * num <? 1999 * den)%Z; unfold rjust; (apply calm_app; [apply calm_repeat; reflexivity|]);
      (apply calm_app; [apply calm_general|]); (apply calm_cons; [reflexivity|]); (apply calm_app; [assumption|reflexivity]).
Qed.
Lemma calm_sizeof n : calm (sizeof_fmt n).
Proof. apply calm_sizeof_from. repeat constructor. Qed.

Lemma calm_in s c : calm s -> In c s -> calm_char c = true.
Proof. unfold calm. rewrite forallb_forall. auto. Qed.
Lemma calm_tidy s : calm s -> tidy s.
Proof.
  intros C. split; [|split].
  - apply run3_free. intros I. apply (calm_in _ _ C) in I. discriminate.
  - intros I. apply (calm_in _ _ C) in I. discriminate.
  - intros I. apply (calm_in _ _ C) in I. discriminate.
Qed.

(** ** The text of the box *)
Definition pieces : list piece := [
  Fixed (newline :: rule4 ++ newline :: lit "| Setup:    "); Slot 0; Fixed (lit " | Minfinity: "); Slot 4; Fixed (lit " | Matrix form: "); Slot 8;
  Fixed (lit " |" ++ newline :: lit "| Input:    "); Slot 1; Fixed (lit " | R2Bexact:  "); Slot 5; Fixed (lit " | Solve using: "); Slot 9; Fixed (lit " | Numba:    "); Slot 17;
  Fixed (lit " |" ++ newline :: lit "| Frames:   "); Slot 2; Fixed (lit " | Bead-bead: "); Slot 6; Fixed (lit " | Inv M every: "); Slot 10; Fixed (lit " | Video:    "); Slot 12;
  Fixed (lit " |" ++ newline :: lit "| Timestep: "); Slot 3; Fixed (lit " | Timestep:  "); Slot 7; Fixed (lit " | Periodic:    "); Slot 11; Fixed (lit " | Memory:  ~"); Slot 13;
  Fixed (lit " |" ++ newline :: rule3 ++ newline :: lit "| Save every: "); Slot 15; Fixed (lit " | Save after: "); Slot 16; Fixed (lit " | Machine: "); Slot 14;
  Fixed (lit " |" ++ newline :: rule3)].
Lemma template_pieces : template = flat pieces.
Proof. vm_compute. reflexivity. Qed.
Definition sound_b (p : piece) : bool := match p with Fixed c => negb (has_X c) | Slot k => (k <? 18)%nat end.
Lemma sound_ok p : sound_b p = true -> sound p.
Proof.
  destruct p as [c|k]; cbn [sound_b sound]; intros H.
  - apply inert_free, no_X. destruct (has_X c); [discriminate|reflexivity].
  - apply Nat.ltb_lt, H.
Qed.
Lemma pieces_sound : Forall sound pieces.
Proof.
  apply Forall_forall. intros p I. apply sound_ok. revert p I. apply forallb_forall. vm_compute. reflexivity.
Qed.

Definition numbered (B : banner) (method : text) (bytes : Z) : list (nat * text * bool) := [
  (0, str_int (b_setup B), false); (1, str_int (b_input B), false); (2, str_int (b_frames B), false);
  (3, str_timestep (b_timestep B), false);
  (4, minf_status B, text_eqb (minf_status B) (lit "OFF"));
  (5, r2b_status B, text_eqb (r2b_status B) (lit "OFF"));
  (6, bead_bead_status B, text_eqb (bead_bead_status B) (lit "OFF"));
  (7, method, text_eqb method (lit "Euler"));
  (8, upper (lit (b_form B)), false); (9, invert_type B, false); (10, str_int (b_invert_every B), false);
  (11, periodic_status B, false); (12, on_off (negb (b_graphics B)), false); (13, sizeof_fmt bytes, false);
  (14, b_host B, false); (15, str_int (b_save_every B), false);
  (16, str_int (b_save_after B), negb (b_save_after B =? 0)%Z); (17, on_off (b_jit_off B), false)]%nat.
Lemma decorated_cell k v w : decorated (key k) v w = cell (List.length (key k)) w v.
Proof. unfold decorated, cell, ljust. destruct w; rewrite <- !app_assoc; reflexivity. Qed.
Lemma on_off_warn off : text_eqb (on_off off) (lit "OFF") = off.
Proof. destruct off; reflexivity. Qed.

Lemma box_printed B : proper B -> info_box B = Ok (joined (box_lines B)).
Proof.
  intros [Hs [Ht [Hf Hh]]]. unfold info_box, entries.
  assert (M : timestep_method B = Ok (scheme_name (b_scheme B)) /\
              text_eqb (scheme_name (b_scheme B)) (lit "Euler") = match b_scheme B with euler => true | _ => false end /\ calm (scheme_name (b_scheme B))).
  { unfold timestep_method. destruct (b_scheme B); try (repeat split; reflexivity). contradiction. }
  destruct M as [-> [ME MC]]. cbn [bind]. f_equal.
  replace (48 * (11 * Z.of_nat (b_spheres B) + 6 * Z.of_nat (b_dumbbells B)) ^ 2)%Z with (matrix_bytes B) by (unfold matrix_bytes; ring).
  change (fold_left fill_in (map keyed (numbered B (scheme_name (b_scheme B)) (matrix_bytes B))) template = joined (box_lines B)).
  rewrite template_pieces, fill_all.
  - unfold numbered. rewrite ME. unfold minf_status, r2b_status, bead_bead_status. rewrite !on_off_warn.
    cbv beta iota delta [fold_left sub_all pieces map sub Nat.eqb]. rewrite !decorated_cell.
    unfold flat. cbn [flat_map piece_text]. unfold box_lines, rows. cbn [map joined]. unfold show_row. cbn [flat_map].
    unfold show_field. cbn [f_label f_width f_attention f_value].
    unfold invert_type, periodic_status. 
    repeat match goal with |- context [lit (if ?b then ?x else ?y)] => change (lit (if b then x else y)) with ((fun c : bool => lit (if c then x else y)) b) end.
    rewrite <- !app_assoc.
    assert (O : forall b, on_off b = switch (negb b)) by (intros []; reflexivity).
    rewrite !O, !negb_involutive.
    assert (I : (if b_extract B then lit "Slow" else lit "Fast R\F") = lit (if b_extract B then "Slow" else "Fast R\F")%string) by (destruct (b_extract B); reflexivity).
    rewrite I. rewrite app_nil_r. cbv beta.
    repeat match goal with |- context [cell ?w ?a ?v] => let x := fresh "x" in
      let E := fresh "E" in
      first [ match w with List.length _ => let n := eval vm_compute in w in change (cell w a v) with (cell n a v) end | set (x := cell w a v) in *; clearbody x ] end.
    reflexivity.
  - exact pieces_sound.
  - assert (D : forall k v w, ~ run3 v -> (k < 18)%nat -> (k < 18)%nat /\ inert (decorated (key k) v w))
      by (intros; split; [assumption|apply decorated_inert; assumption]).
    assert (CR : forall v, calm v -> ~ run3 v) by (intros v C; apply (calm_tidy v C)).
    unfold numbered, minf_status, r2b_status, bead_bead_status, periodic_status, invert_type.
    repeat (apply Forall_cons; [apply D; [|lia]|]); try apply Forall_nil;
      try (apply CR; first [apply calm_int|apply calm_sizeof|apply calm_timestep; assumption|exact MC]);
      try (apply CR; unfold on_off; match goal with |- calm (if ?b then _ else _) => destruct b; reflexivity end).
    + apply Hf.
    + apply Hh.
Qed.
