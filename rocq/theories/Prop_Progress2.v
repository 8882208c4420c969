(** C41, continued: the colour of the time left. *)
From Coq Require Import Reals ZArith List String Ascii Arith Bool Lia Lra.
From Verif Require Import Base Py Model_Mob Model_Close Model_Progress Spec_Progress.
Import ListNotations.
Local Open Scope R_scope.

Definition colour_of (c : coloured) : nat := let 'Colour k _ := c in k.
Definition text_of (c : coloured) : string := let 'Colour _ s := c in s.
(** The terminal colours from short to long: green, yellow, red, magenta, blue. *)
Definition length_shown (c : nat) : nat :=
  match c with 92 => 0 | 93 => 1 | 91 => 2 | 95 => 3 | 94 => 4 | _ => 5 end%nat.
Definition minutes (m : R) : R := 60 * m.
Definition hours (h : R) : R := 60 * minutes h.

(** Longer times never get a colour for shorter ones, and each change of colour
    is at a whole 10 minutes, hour, five hours or day, which still counts as the
    shorter; the text is the flags and the elapsed time read by C41_reads. *)
Theorem C41_left t flags :
  text_of (format_time_left t flags) = (flags ++ format_elapsed_time t)%string /\
  (let n := length_shown (colour_of (format_time_left t flags)) in
   (n < 5)%nat /\
   (n = 0%nat <-> t <= minutes 10) /\ ((n <= 1)%nat <-> t <= hours 1) /\ ((n <= 2)%nat <-> t <= hours 5) /\ ((n <= 3)%nat <-> t <= hours 24)) /\
  (forall t' flags', t <= t' ->
     (length_shown (colour_of (format_time_left t flags)) <= length_shown (colour_of (format_time_left t' flags')))%nat).
Proof.
  assert (K : forall t flags, let n := length_shown (colour_of (format_time_left t flags)) in
   (n < 5)%nat /\ (n = 0%nat <-> t <= 600) /\ ((n <= 1)%nat <-> t <= 3600) /\ ((n <= 2)%nat <-> t <= 18000) /\ ((n <= 3)%nat <-> t <= 86400)).
  { intros u fl. unfold format_time_left, colour_of, Rltb.
    destruct (Rlt_dec 86400 u); [cbn; repeat split; intros; try lia; lra|].
    destruct (Rlt_dec 18000 u); [cbn; repeat split; intros; try lia; lra|].
    destruct (Rlt_dec 3600 u); [cbn; repeat split; intros; try lia; lra|].
    destruct (Rlt_dec 600 u); cbn; repeat split; intros; try lia; lra. }
  split; [reflexivity|]. split.
  - intros n. destruct (K t flags) as [K0 [K1 [K2 [K3 K4]]]]. unfold hours, minutes.
    replace (60 * 10) with 600 by lra. replace (60 * (60 * 1)) with 3600 by lra.
    replace (60 * (60 * 5)) with 18000 by lra. replace (60 * (60 * 24)) with 86400 by lra. tauto.
  - intros t' flags' H. pose proof (K t flags) as [K0 [K1 [K2 [K3 K4]]]]. pose proof (K t' flags') as [L0 [L1 [L2 [L3 L4]]]].
    set (n := length_shown (colour_of (format_time_left t flags))) in *.
    set (m := length_shown (colour_of (format_time_left t' flags'))) in *.
    destruct (le_lt_dec n m) as [|C]; [assumption|exfalso].
    assert (Hm : (m = 0 \/ m = 1 \/ m = 2 \/ m = 3)%nat) by lia.
    destruct Hm as [Hm|[Hm|[Hm|Hm]]].
    + apply proj1 in L1. specialize (L1 Hm). assert (n = 0%nat) by (apply K1; lra). lia.
    + apply proj1 in L2. specialize (L2 ltac:(lia)). assert (n <= 1)%nat by (apply K2; lra). lia.
    + apply proj1 in L3. specialize (L3 ltac:(lia)). assert (n <= 2)%nat by (apply K3; lra). lia.
    + apply proj1 in L4. specialize (L4 ltac:(lia)). assert (n <= 3)%nat by (apply K4; lra). lia.
Qed.
Print Assumptions C41_left.

Example C41_left_example : colour_of (format_time_left 3600 "") = 93%nat /\ colour_of (format_time_left 3601 "") = 91%nat.
Proof.
  unfold format_time_left, colour_of, Rltb. split.
  - destruct (Rlt_dec 86400 3600); [lra|]. destruct (Rlt_dec 18000 3600); [lra|]. destruct (Rlt_dec 3600 3600); [lra|].
    destruct (Rlt_dec 600 3600); [reflexivity|lra].
  - destruct (Rlt_dec 86400 3601); [lra|]. destruct (Rlt_dec 18000 3601); [lra|]. destruct (Rlt_dec 3600 3601); [reflexivity|lra].
Qed.
