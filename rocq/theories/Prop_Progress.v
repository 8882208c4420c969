(** Properties C40 and C41: progress estimate, durations. *)
From Coq Require Import Reals ZArith List String Ascii Arith Bool Lia Lra.
From Verif Require Import Base Py Model_Mob Model_Close Model_Progress Spec_Progress Proof_Progress.
Import ListNotations.
Local Open Scope R_scope.

(** Number of multiples of [m] in the frames after [f] of [n] frames. *)
Definition due (m f n : nat) : nat := ((Nat.max (f + 1) n - 1) / m - f / m)%nat.
Lemma due_counts : forall m f n, (m <> 0)%nat ->
  due m f n = List.length (filter (fun i => Nat.eqb (i mod m) 0) (seq (f + 1) (n - (f + 1)))).
Proof. intros m f n Hm. rewrite multiples by exact Hm. unfold due. f_equal. f_equal. lia. Qed.

(** C40: the estimate exists as soon as the current frame has been timed. *)
Theorem C40_succeeds :
  forall jit times frameno num_frames m start,
    (m <> 0)%nat -> (frameno < List.length times)%nat ->
    exists t flags, calculate_time_left jit times frameno num_frames m start = Ok (t, flags).
Proof. exact time_left_ok. Qed.
Print Assumptions C40_succeeds.

(** It is between zero and 1.03 times the frames left at the longest time per
    frame so far. *)
Theorem C40_bounds :
  forall jit times frameno num_frames m start t flags T,
    (forall i, (start <= i <= frameno)%nat -> 0 <= nth i times 0 <= T) -> 0 <= T ->
    calculate_time_left jit times frameno num_frames m start = Ok (t, flags) ->
    0 <= t <= 103 / 100 * (INR (num_frames - (frameno + 1)) * T).
Proof. exact time_left_bounds. Qed.
Print Assumptions C40_bounds.

Theorem C40_last :
  forall jit times frameno num_frames m start t flags,
    (num_frames <= frameno + 1)%nat ->
    calculate_time_left jit times frameno num_frames m start = Ok (t, flags) -> t = 0.
Proof.
  intros jit times frameno num_frames m start t flags Hn H. apply time_left_inv in H.
  destruct H as [longs [shorts [la [flag1 [_ [_ [_ [Et _]]]]]]]]. cbv zeta in Et.
  replace (Nat.max (frameno + 1) num_frames - 1)%nat with frameno in Et by lia. rewrite Nat.sub_diag in Et.
  replace (num_frames - (frameno + 1) - 0)%nat with 0%nat in Et by lia. cbn [INR] in Et. lra.
Qed.
Print Assumptions C40_last.

(** When every frame in which the far field was generated took [L] and every
    other frame [S], the estimate is 1.03 times the exact remainder: [due]
    frames at [L] and the others at [S].  With compilation ([jit]) the first
    frame may take any time once a second one has generated the far field. *)
Theorem C40_exact :
  forall jit times frameno num_frames m start t flags L S,
    (start <= frameno)%nat ->
    (forall i, (start <= i <= frameno)%nat -> generating m start i = true ->
       nth i times 0 = L \/ (jit = true /\ i = start /\ exists j, (start < j <= frameno)%nat /\ generating m start j = true)) ->
    (forall i, (start <= i <= frameno)%nat -> generating m start i = false -> nth i times 0 = S) ->
    (exists i, (start <= i <= frameno)%nat /\ generating m start i = false) \/ S = L ->
    calculate_time_left jit times frameno num_frames m start = Ok (t, flags) ->
    t = 103 / 100 * (INR (due m frameno num_frames) * L + INR (num_frames - (frameno + 1) - due m frameno num_frames) * S).
Proof. exact time_left_exact. Qed.
Print Assumptions C40_exact.

Theorem C40_flag :
  forall times frameno num_frames m start t flags,
    calculate_time_left false times frameno num_frames m start = Ok (t, flags) ->
    flags = if (Nat.eqb frameno start && Nat.ltb 0 (num_frames - (frameno + 1) - due m frameno num_frames))%bool then "<"%string else ""%string.
Proof.
  intros times frameno num_frames m start t flags H. apply time_left_inv in H.
  destruct H as [longs [shorts [la [flag1 [_ [_ [E [_ F]]]]]]]]. rewrite F. clear F.
  destruct longs; injection E as _ ->; reflexivity.
Qed.
Print Assumptions C40_flag.

Theorem C40_zero_interval :
  forall jit times frameno num_frames start, (start <= frameno)%nat ->
    calculate_time_left jit times frameno num_frames 0 start = Raise ZeroDivisionError.
Proof. exact time_left_zero. Qed.
Print Assumptions C40_zero_interval.

(** After frame 4 of 12, generating every third frame: frames 6 and 9 are due. *)
Example C40_example :
  calculate_time_left true [50; 1; 1; 7; 1; 0; 0; 0; 0; 0; 0; 0] 4 12 3 0 = Ok (103 / 100 * (2 * 7 + 5 * 1), ""%string).
Proof.
  destruct (C40_succeeds true [50; 1; 1; 7; 1; 0; 0; 0; 0; 0; 0; 0] 4 12 3 0) as [t [flags E]]; [lia|simpl; lia|].
  pose proof (C40_exact true [50; 1; 1; 7; 1; 0; 0; 0; 0; 0; 0; 0] 4 12 3 0 t flags 7 1 ltac:(lia)) as X.
  rewrite E. f_equal. f_equal.
  - rewrite X; [|..|exact E].
    + change (due 3 4 12) with 2%nat. change (12 - (4 + 1) - 2)%nat with 5%nat. simpl; lra.
    + intros i Hi G. destruct (Nat.eq_dec i 0) as [->|]; [right; split; [reflexivity|]; split; [reflexivity|]; exists 3%nat; split; [lia|reflexivity]|].
      assert (i = 3 \/ i = 1 \/ i = 2 \/ i = 4)%nat as [-> |[-> |[-> | ->]]] by lia; [left; reflexivity|discriminate..].
    + intros i Hi G. assert (i = 0 \/ i = 3 \/ i = 1 \/ i = 2 \/ i = 4)%nat as [-> |[-> |[-> |[-> | ->]]]] by lia; try discriminate; reflexivity.
    + left. exists 1%nat. split; [lia|reflexivity].
  - apply time_left_inv in E. destruct E as [longs [shorts [la [flag1 [-> [_ [E [_ F]]]]]]]]. rewrite F.
    cbn in E. injection E as _ ->. reflexivity.
Qed.

(** C41: the text of a duration of a minute or more reads as its whole number
    of seconds; the fields are in range. *)
Theorem C41_reads : forall t, 60 <= t -> read 0 0 (format_elapsed_time t) = Int_part t.
Proof. exact format_reads. Qed.
Print Assumptions C41_reads.

Theorem C41_fields :
  forall t, 60 <= t ->
    exists d h m s,
      (0 <= d /\ 0 <= h < 24 /\ 0 <= m < 60 /\ 0 <= s < 60)%Z /\
      IZR (d * 86400 + h * 3600 + m * 60 + s) <= t < IZR (d * 86400 + h * 3600 + m * 60 + s) + 1 /\
      let two c n := align c 2 (decimal n) in
      format_elapsed_time t =
        (if (0 <? d)%Z then decimal d ++ "d" ++ two " "%char h ++ ":" ++ two "0"%char m ++ ":" ++ two "0"%char s
         else if (0 <? h)%Z then two " "%char h ++ ":" ++ two "0"%char m ++ ":" ++ two "0"%char s
         else "   " ++ two " "%char m ++ ":" ++ two "0"%char s)%string.
Proof.
  intros t Ht. destruct (format_long t) as [FD [FH FM]]. set (z := Int_part t) in *.
  pose proof (floor_nonneg t ltac:(lra)) as Z0. fold z in Z0. pose proof (floor_bounds t) as B. fold z in B.
  assert (E3 : (z / 3600 = 24 * (z / 86400) + z / 3600 mod 24)%Z).
  { replace (z / 86400)%Z with (z / 3600 / 24)%Z by (rewrite Z.div_div by lia; reflexivity). apply Z.div_mod. lia. }
  assert (E2 : (z / 60 = 60 * (z / 3600) + z / 60 mod 60)%Z).
  { replace (z / 3600)%Z with (z / 60 / 60)%Z by (rewrite Z.div_div by lia; reflexivity). apply Z.div_mod. lia. }
  assert (E1 : (z = 60 * (z / 60) + z mod 60)%Z) by (apply Z.div_mod; lia).
  assert (Hd : (0 <= z / 86400)%Z) by (apply Z.div_pos; lia).
  pose proof (Z.mod_pos_bound (z / 3600) 24 ltac:(lia)). pose proof (Z.mod_pos_bound (z / 60) 60 ltac:(lia)). pose proof (Z.mod_pos_bound z 60 ltac:(lia)).
  exists (z / 86400)%Z, (z / 3600 mod 24)%Z, (z / 60 mod 60)%Z, (z mod 60)%Z. split; [lia|]. split.
  - replace (_ + _ + _ + _)%Z with z by lia. exact B.
  - cbv zeta.
    destruct (Rle_dec 86400 t) as [Hday|Hday]; [|destruct (Rle_dec 3600 t) as [Hhour|Hhour]].
    + assert (86400 <= z)%Z by (apply Z.lt_succ_r, lt_IZR; unfold Z.succ; rewrite plus_IZR; lra).
      assert (1 <= z / 86400)%Z by (apply Z.div_le_lower_bound; lia).
      destruct (Z.ltb_spec 0 (z / 86400)); [|lia]. apply FD. exact Hday.
    + assert (z < 86400)%Z by (apply lt_IZR; lra). assert (3600 <= z)%Z by (apply Z.lt_succ_r, lt_IZR; unfold Z.succ; rewrite plus_IZR; lra).
      assert (z / 86400 = 0)%Z by (apply Z.div_small; lia). assert (1 <= z / 3600)%Z by (apply Z.div_le_lower_bound; lia).
      destruct (Z.ltb_spec 0 (z / 86400)); [lia|]. destruct (Z.ltb_spec 0 (z / 3600 mod 24)); [|lia]. apply FH. lra.
    + assert (z < 3600)%Z by (apply lt_IZR; lra). assert (z / 3600 = 0)%Z by (apply Z.div_small; lia).
      destruct (Z.ltb_spec 0 (z / 86400)); [lia|]. destruct (Z.ltb_spec 0 (z / 3600 mod 24)); [lia|]. apply FM. lra.
Qed.
Print Assumptions C41_fields.

(** Below a minute the text is the nearest tenth of a second. *)
Theorem C41_seconds :
  forall t, 0 <= t < 60 ->
    exists k, (0 <= k)%Z /\ Rabs (10 * t - IZR k) <= 1 / 2 /\
      format_elapsed_time t = (align " " 7 (decimal (k / 10) ++ "." ++ decimal (k mod 10)) ++ "s")%string.
Proof.
  intros t Ht. exists (tenths t). split; [apply tenths_nonneg; lra|]. split; [apply tenths_near|].
  unfold format_elapsed_time, Rleb, Rltb. destruct (Rle_dec 86400 t); [lra|]. destruct (Rle_dec 3600 t); [lra|].
  destruct (Rle_dec 60 t); [lra|]. destruct (Rlt_dec t 0); [lra|]. reflexivity.
Qed.
Print Assumptions C41_seconds.

(** Finding: so just below a minute it shows sixty seconds. *)
Theorem C41_sixty_refuted : forall t, 59 + 95 / 100 < t < 60 -> format_elapsed_time t = "   60.0s"%string.
Proof.
  intros t Ht. destruct (C41_seconds t ltac:(lra)) as [k [_ [N ->]]].
  assert (k = 600)%Z as ->; [|reflexivity].
  assert (N2 : - (1 / 2) <= 10 * t - IZR k <= 1 / 2) by (revert N; unfold Rabs; destruct (Rcase_abs _); lra). assert (H0 : IZR 599 < IZR k) by lra. assert (H1 : IZR k < IZR 601) by lra.
  apply lt_IZR in H0. apply lt_IZR in H1. lia.
Qed.
Print Assumptions C41_sixty_refuted.

Example C41_example : format_elapsed_time (90061 + 1 / 2) = "1d 1:01:01"%string.
Proof.
  destruct (format_long (90061 + 1 / 2)) as [F _].
  assert (E : Int_part (90061 + 1 / 2) = 90061%Z) by (apply floor_unique; lra).
  rewrite E in F. rewrite F by lra. reflexivity.
Qed.
Example C41_example_minutes : format_elapsed_time 125 = "    2:05"%string.
Proof.
  destruct (format_long 125) as [_ [_ F]]. assert (E : Int_part 125 = 125%Z) by (apply floor_unique; lra).
  rewrite E in F. rewrite F by lra. reflexivity.
Qed.
