(** The box of settings: its lines and their widths. *)
From Coq Require Import Reals List Arith Bool Ascii String ZArith Lia.
From Verif Require Import Py Model_Checkpoint Spec_Checkpoint Proof_Checkpoint2 Model_Frame Model_Banner Spec_Banner Proof_Banner1 Proof_Banner2 Proof_Banner3.
Import ListNotations.
Local Open Scope list_scope.
Local Open Scope char_scope.

Notation ESC := (ascii_of_nat 27).
Lemma visible_plain s r : ~ In ESC s -> visible (s ++ r) = s ++ visible r.
Proof.
  unfold visible. induction s as [|c s IH]; intros N; [reflexivity|]. cbn [app visible_from].
  destruct (Ascii.eqb_spec c ESC) as [->|_]; [exfalso; apply N; left; reflexivity|]. f_equal. apply IH. intros I. apply N. right. exact I.
Qed.
Lemma blanks_plain k : ~ In ESC (repeat " " k).
Proof. intros I. apply repeat_spec in I. discriminate. Qed.
Lemma visible_cell w a v r : ~ In ESC v -> visible (cell w a v ++ r) = v ++ repeat " " (w - List.length v) ++ visible r.
Proof.
  intros N.
  assert (E1 : forall r, visible ((ESC :: lit "[43m") ++ r) = visible r) by reflexivity.
  assert (E2 : forall r, visible ((ESC :: lit "[30m") ++ r) = visible r) by reflexivity.
  assert (E3 : forall r, visible ((ESC :: lit "[39m") ++ r) = visible r) by reflexivity.
  assert (E4 : forall r, visible ((ESC :: lit "[49m") ++ r) = visible r) by reflexivity.
  assert (E5 : forall r, visible ((ESC :: lit "[1m") ++ r) = visible r) by reflexivity.
  assert (E6 : forall r, visible ((ESC :: lit "[0m") ++ r) = visible r) by reflexivity.
  set (b := repeat " " (w - List.length v)) in *.
  assert (Nb : ~ In ESC b) by apply blanks_plain.
  destruct a.
  - replace (cell w true v) with ((ESC :: lit "[43m") ++ (ESC :: lit "[30m") ++ v ++ b ++ (ESC :: lit "[39m") ++ (ESC :: lit "[49m"))
      by (unfold cell; fold b; rewrite (app_assoc v b); reflexivity).
    rewrite <- (app_assoc (ESC :: lit "[43m")), E1, <- (app_assoc (ESC :: lit "[30m")), E2, <- (app_assoc v), visible_plain by exact N.
    rewrite <- (app_assoc b), visible_plain by exact Nb. rewrite <- (app_assoc (ESC :: lit "[39m")), E3, E4. reflexivity.
  - replace (cell w false v) with ((ESC :: lit "[1m") ++ v ++ b ++ (ESC :: lit "[0m"))
      by (unfold cell; fold b; rewrite (app_assoc v b); reflexivity).
    rewrite <- (app_assoc (ESC :: lit "[1m")), E5, <- (app_assoc v), visible_plain by exact N.
    rewrite <- (app_assoc b), visible_plain by exact Nb. rewrite E6. reflexivity.
Qed.

Definition field_width (f : field) : nat := 3 + String.length (f_label f) + Nat.max (f_width f) (List.length (f_value f)).
Lemma lit_length s : List.length (lit s) = String.length s.
Proof. unfold lit. induction s; [reflexivity|]. simpl. f_equal. assumption. Qed.
Definition clean_field (f : field) : Prop := ~ In ESC (lit (f_label f)) /\ tidy (f_value f).
Lemma visible_fields l r : Forall clean_field l ->
  List.length (visible (flat_map show_field l ++ r)) = (list_sum (map field_width l) + List.length (visible r))%nat.
Proof.
  induction 1 as [|f l [C1 C2] F IH]; [reflexivity|]. cbn [flat_map map list_sum fold_right]. rewrite <- app_assoc.
  unfold show_field at 1. rewrite <- !app_assoc.
  rewrite (visible_plain (lit "| ")) by (intros [I|[I|[]]]; discriminate). rewrite visible_plain by exact C1.
  rewrite visible_cell by apply C2. rewrite (visible_plain (lit " ")) by (intros [I|[]]; discriminate).
  rewrite !app_length, IH, repeat_length, !lit_length. unfold field_width.
  unfold list_sum. change (String.length "| ") with 2%nat. change (String.length " ") with 1%nat. lia.
Qed.
Lemma visible_row l : Forall clean_field l -> List.length (visible (show_row l)) = (list_sum (map field_width l) + 1)%nat.
Proof. intros F. unfold show_row. rewrite visible_fields by exact F. reflexivity. Qed.

(** ** Every value is tidy *)
Lemma rows_clean B : proper B -> Forall (Forall clean_field) (rows B).
Proof.
  intros [Hs [Ht [Hf Hh]]].
  assert (G : forall l w a v, existsb (Ascii.eqb ESC) (lit l) = false -> tidy v -> clean_field (mkField l w a v)).
  { intros l w a v E T. split; [|exact T]. cbn [f_label]. intros I.
    assert (existsb (Ascii.eqb ESC) (lit l) = true); [|congruence]. apply existsb_exists. exists ESC. split; [exact I|reflexivity]. }
  assert (SW : forall b, tidy (switch b)) by (intros []; apply calm_tidy; reflexivity).
  unfold rows. repeat (apply Forall_cons; [|]); try apply Forall_nil; (apply G; [reflexivity|]);
    try apply SW; try (apply calm_tidy; first [apply calm_int|apply calm_sizeof|apply calm_timestep; assumption]); try assumption.
  - destruct (b_extract B); apply calm_tidy; reflexivity.
  - destruct (b_scheme B); apply calm_tidy; reflexivity.
Qed.

(** ** The lines *)
Lemma split_none c s : ~ In c s -> split c s = [s].
Proof.
  induction s as [|a s IH]; intros N; [reflexivity|]. cbn [split].
  destruct (Ascii.eqb_spec a c) as [->|_]; [exfalso; apply N; left; reflexivity|].
  rewrite IH by (intros I; apply N; right; exact I). reflexivity.
Qed.
Lemma split_joined l : l <> [] -> Forall (fun s => ~ In newline s) l -> split newline (joined l) = l.
Proof.
  intros N F. induction F as [|a l A F IH]; [contradiction|]. destruct l as [|b l].
  - cbn [joined]. apply split_none, A.
  - cbn [joined] in *. rewrite split_at by exact A. f_equal. apply IH. discriminate.
Qed.
Lemma cell_line w a v : ~ In newline v -> ~ In newline (cell w a v).
Proof.
  intros N. unfold cell. assert (R : ~ In newline (repeat " " (w - List.length v))) by (intros I; apply repeat_spec in I; discriminate).
  assert (L : forall s, existsb (Ascii.eqb newline) s = false -> ~ In newline s).
  { intros s E I. assert (existsb (Ascii.eqb newline) s = true); [|congruence]. apply existsb_exists. exists newline. split; [exact I|reflexivity]. }
  destruct a; cbn [In]; rewrite ?in_app_iff; cbn [In]; rewrite ?in_app_iff; cbn [In]; rewrite ?in_app_iff;
    intros I; repeat match goal with H : _ \/ _ |- _ => destruct H as [H|H] end; try discriminate; try contradiction;
    try (revert I; apply L; reflexivity); cbn [In] in *; rewrite ?in_app_iff in *; 
    repeat match goal with H : _ \/ _ |- _ => destruct H as [H|H] end; try discriminate; try contradiction.
Qed.
Lemma row_line l : Forall clean_field l -> Forall (fun f => existsb (Ascii.eqb newline) (lit (f_label f)) = false) l -> ~ In newline (show_row l).
Proof.
  intros F G. unfold show_row. rewrite in_app_iff. intros [I|[I|[]]]; [|discriminate].
  apply in_flat_map in I. destruct I as [f [I J]]. rewrite Forall_forall in F, G. specialize (F f I). specialize (G f I). destruct F as [_ [_ [_ T]]].
  unfold show_field in J. rewrite !in_app_iff in J. destruct J as [J|[J|[J|J]]].
  - destruct J as [J|[J|[]]]; discriminate.
  - assert (existsb (Ascii.eqb newline) (lit (f_label f)) = true); [|congruence]. apply existsb_exists. exists newline. split; [exact J|reflexivity].
  - revert J. apply cell_line, T.
  - destruct J as [J|[]]; discriminate.
Qed.
Lemma box_split B : proper B -> split newline (joined (box_lines B)) = box_lines B.
Proof.
  intros H. apply split_joined; [discriminate|]. pose proof (rows_clean B H) as C.
  assert (L : Forall (fun l => ~ In newline (show_row l)) (rows B)).
  { apply Forall_forall. intros l I. apply row_line; [rewrite Forall_forall in C; apply C, I|].
    revert l I. apply Forall_forall. unfold rows. repeat (apply Forall_cons); try apply Forall_nil; reflexivity. }
  assert (R3 : ~ In newline rule3) by (intros I; assert (E : existsb (Ascii.eqb newline) rule3 = true) by (apply existsb_exists; exists newline; split; [exact I|reflexivity]); vm_compute in E; discriminate).
  assert (R4 : ~ In newline rule4) by (intros I; assert (E : existsb (Ascii.eqb newline) rule4 = true) by (apply existsb_exists; exists newline; split; [exact I|reflexivity]); vm_compute in E; discriminate).
  unfold rows in L. apply Forall_cons_iff in L. destruct L as [L1 L]. apply Forall_cons_iff in L. destruct L as [L2 L].
  apply Forall_cons_iff in L. destruct L as [L3 L]. apply Forall_cons_iff in L. destruct L as [L4 L]. apply Forall_cons_iff in L. destruct L as [L5 _].
  unfold box_lines, rows. cbn [map]. repeat (apply Forall_cons; [assumption || (intros []) |]). apply Forall_nil.
Qed.

(** ** The widths *)
Lemma row_width B : proper B -> all_fit B <-> Forall (fun l => List.length (visible (show_row l)) = 87%nat) (rows B).
Proof.
  intros H. pose proof (rows_clean B H) as C. unfold all_fit.
  rewrite !Forall_forall. rewrite Forall_forall in C.
  assert (G : forall l, In l (rows B) -> (Forall fits l <-> List.length (visible (show_row l)) = 87%nat)).
  { intros l I. rewrite visible_row by (apply C, I). revert l I. clear C. apply Forall_forall. unfold rows.
    assert (FW : forall l w a v, field_width (mkField l w a v) = (3 + String.length l + Nat.max w (List.length v))%nat) by reflexivity.
    assert (FT : forall l w a v, fits (mkField l w a v) <-> (List.length v <= w)%nat) by (intros; reflexivity).
    repeat (apply Forall_cons; [rewrite !Forall_cons_iff, !FT; cbn [map]; rewrite !FW; unfold list_sum; cbn [fold_right String.length];
      split; [intros ?; repeat match goal with H : _ /\ _ |- _ => destruct H end; lia
             |intros ?; repeat split; try apply Forall_nil; lia]|]).
    apply Forall_nil. }
  split; intros F l I; apply (G l I), (F l I).
Qed.
Lemma rule_width : List.length (visible rule3) = 87%nat /\ List.length (visible rule4) = 87%nat.
Proof. split; reflexivity. Qed.
Lemma box_width B : proper B -> (all_fit B <-> Forall (fun l => List.length (visible l) = 87%nat) (tl (box_lines B))).
Proof.
  intros H. rewrite (row_width B H). unfold box_lines, rows. cbn [map tl]. rewrite !Forall_cons_iff.
  destruct rule_width as [R3 R4]. rewrite !R3, !R4. split; intros F; repeat match goal with H : _ /\ _ |- _ => destruct H end; repeat split; auto.
Qed.
(** What never overflows *)
Lemma memory_fits B : (matrix_bytes B < 1024 ^ 8)%Z -> (List.length (sizeof_fmt (matrix_bytes B)) <= 8)%nat.
Proof.
  intros H. destruct (Z.eq_dec (matrix_bytes B) 0) as [E|E]; [rewrite E; vm_compute; lia|].
  assert (0 <= matrix_bytes B)%Z by (unfold matrix_bytes; nia).
  destruct (sizeof_shown (matrix_bytes B)) as [k [K1 [K2 K3]]]; [lia|]. rewrite K3.
  destruct (shown_states k (matrix_bytes B) K1 K2) as [_ [[_ L]|[_ L]]]; lia.
Qed.
