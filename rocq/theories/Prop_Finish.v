(** C94: the time at which a run will finish. *)
From Coq Require Import Reals List Arith Bool Ascii String ZArith Lia Lra.
From Verif Require Import Py Model_Checkpoint Model_Banner Spec_Finish Proof_Finish.
Import ListNotations.
Local Open Scope list_scope.
Local Open Scope char_scope.

(** The text tells the moment that is the given time from now, to the nearest
    microsecond; there is none only if that moment is after the year 9999. *)
Theorem C94_text now x flags : real_moment now -> (0 <= x)%R ->
  exists us, (Rabs (IZR us - x * 1000000) <= 1 / 2)%R /\
  ((exists t s, real_moment t /\ absolute t = (absolute now + us)%Z /\
      format_finish_time now x flags = Some (flags ++ s) /\ tells now t s) \/
   (format_finish_time now x flags = None /\
      forall t, real_moment t -> absolute t = (absolute now + us)%Z -> (9999 < m_year t)%Z)).
Proof.
  intros R X. exists (to_micros x). split; [apply micros_close|]. pose proof (micros_nonneg x X) as U.
  pose proof (finish_tells now x flags R X) as T. destruct (later now (to_micros x)) as [t|] eqn:E.
  - left. destruct T as [s [T1 T2]]. exists t, s. destruct (later_real now _ t R U E) as [Rt [A _]]. auto.
  - right. split; [exact T|]. intros t Rt A. exact (later_none now _ t R U E Rt A).
Qed.
Print Assumptions C94_text.

(** Two finishes with the same text are in the same minute, if both are in the
    hundred years that start with this one. *)
Theorem C94_unambiguous now x x' flags s t t' : real_moment now -> (0 <= x)%R -> (0 <= x')%R ->
  later now (to_micros x) = Some t -> later now (to_micros x') = Some t' ->
  (m_year t < m_year now + 100)%Z -> (m_year t' < m_year now + 100)%Z ->
  format_finish_time now x flags = Some s -> format_finish_time now x' flags = Some s ->
  minute_count t = minute_count t'.
Proof.
  intros R X X' E E' Y Y' F F'.
  pose proof (finish_tells now x flags R X) as T. pose proof (finish_tells now x' flags R X') as T'. rewrite E in T. rewrite E' in T'.
  destruct T as [w [T1 T2]], T' as [w' [T1' T2']]. rewrite F in T1. rewrite F' in T1'. injection T1 as T1. injection T1' as T1'.
  rewrite T1 in T1'. apply app_inv_head in T1'. subst w'.
  exact (tells_same now _ _ t t' w R (micros_nonneg x X) (micros_nonneg x' X') E E' Y Y' T2 T2').
Qed.
Print Assumptions C94_unambiguous.

(** Beyond that the two digits of the year are not enough. *)
Definition evening : moment := mkMoment 2026 11 15 77400000000. (* Sunday 15 November 2026, 21:30 *)
Theorem C94_century_refuted : exists now x x' t t' s, real_moment now /\ (0 <= x)%R /\ (0 <= x')%R /\
  later now (to_micros x) = Some t /\ later now (to_micros x') = Some t' /\
  format_finish_time now x [] = Some s /\ format_finish_time now x' [] = Some s /\ minute_count t <> minute_count t'.
Proof.
  exists evening, (IZR (30 * 86400)), (IZR (36554 * 86400)).
  exists (mkMoment 2026 12 15 77400000000), (mkMoment 2126 12 15 77400000000), (lit "15/12/26 21:30").
  assert (L : later evening (to_micros (IZR (30 * 86400))) = Some (mkMoment 2026 12 15 77400000000)) by (rewrite micros_int; vm_compute; reflexivity).
  assert (L' : later evening (to_micros (IZR (36554 * 86400))) = Some (mkMoment 2126 12 15 77400000000)) by (rewrite micros_int; vm_compute; reflexivity).
  split; [unfold real_moment, real_date; cbn; unfold day_micros, month_days; cbn; lia|].
  split; [apply IZR_le; lia|]. split; [apply IZR_le; lia|]. split; [exact L|]. split; [exact L'|].
  unfold format_finish_time. rewrite L, L'. split; [vm_compute; reflexivity|]. split; [vm_compute; reflexivity|]. vm_compute. discriminate.
Qed.
Print Assumptions C94_century_refuted.

(** The same day, the next days, and later *)
Example C94_example : real_moment evening /\
  map (fun x => format_finish_time evening (IZR x) (lit "<")) [600; 3 * 3600; 6 * 86400; 7 * 86400; 471 * 86400]%Z
  = map (fun s => Some (lit s)) ["<21:40"; "<Mon 00:30"; "<Sat 21:30"; "<22/11/26 21:30"; "<29/02/28 21:30"]%string.
Proof.
  split; [unfold real_moment, real_date; cbn; unfold day_micros, month_days; cbn; lia|].
  unfold format_finish_time. cbn [map]. rewrite !micros_int. vm_compute. reflexivity.
Qed.
