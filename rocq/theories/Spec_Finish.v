(** What the time of finishing means. *)
From Coq Require Import Reals List Arith Bool Ascii String ZArith.
From Verif Require Import Py Model_Checkpoint Model_Banner.
Import ListNotations.
Local Open Scope list_scope.
Local Open Scope char_scope.

(** A moment that exists *)
Definition real_date (d : date) : Prop :=
  let '(y, m, k) := d in (1 <= y /\ 1 <= m <= 12 /\ 1 <= k <= month_days y m)%Z.
Definition real_moment (t : moment) : Prop := real_date (date_of t) /\ (0 <= m_micro t < day_micros)%Z.
(** Days, microseconds and minutes counted from a fixed midnight *)
Definition day_count (t : moment) : Z := ordinal (date_of t).
Definition absolute (t : moment) : Z := (day_count t * day_micros + m_micro t)%Z.
Definition minute_count (t : moment) : Z := (absolute t / 60000000)%Z.

(** The days of the week *)
Definition week : list text := map lit ["Mon"; "Tue"; "Wed"; "Thu"; "Fri"; "Sat"; "Sun"]%string.
(** n in two digits *)
Definition pair_of_digits (n : Z) : text :=
  [ascii_of_nat (48 + Z.to_nat (n / 10)); ascii_of_nat (48 + Z.to_nat (n mod 10))].
Definition clock_face (t : moment) : text :=
  let minute := (m_micro t / 60000000)%Z in pair_of_digits (minute / 60) ++ [":"] ++ pair_of_digits (minute mod 60).

(** The text for the moment t, seen from now: the time of day, if need be with
    the day of the week, or else with the date. *)
Definition tells (now t : moment) (s : text) : Prop :=
  let days := (day_count t - day_count now)%Z in
  (days = 0 /\ s = clock_face t)%Z \/
  (1 <= days <= 6 /\ exists name, nth_error week (Z.to_nat ((day_count t - 1) mod 7)) = Some name /\ s = name ++ [" "] ++ clock_face t)%Z \/
  (7 <= days /\ s = pair_of_digits (m_day t) ++ ["/"] ++ pair_of_digits (m_month t) ++ ["/"] ++ pair_of_digits (m_year t mod 100) ++ [" "] ++ clock_face t)%Z.
