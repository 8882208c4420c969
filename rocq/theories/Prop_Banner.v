(** C93: the box of settings and the amount of memory. *)
From Coq Require Import Reals List Arith Bool Ascii String ZArith Lia.
From Verif Require Import Py Model_Checkpoint Spec_Checkpoint Model_Frame Model_Banner Spec_Banner
  Proof_Banner1 Proof_Banner2 Proof_Banner3 Proof_Banner4.
Import ListNotations.
Local Open Scope list_scope.
Local Open Scope char_scope.

(** The box that is printed, line by line: every setting is in its cell, and the
    cells for which attention is wanted are marked. *)
Theorem C93_box B : proper B ->
  exists s, info_box B = Ok s /\ split newline s = box_lines B.
Proof. intros H. exists (joined (box_lines B)). split; [apply box_printed, H|apply box_split, H]. Qed.
Print Assumptions C93_box.

(** The frame is straight exactly when every value fits its cell. *)
Theorem C93_straight B s : proper B -> info_box B = Ok s ->
  (all_fit B <-> Forall (fun l => List.length (visible l) = 87%nat) (tl (split newline s))).
Proof.
  intros H E. rewrite (box_printed B H) in E. assert (Q : joined (box_lines B) = s) by congruence. rewrite <- Q. rewrite box_split by exact H. apply box_width, H.
Qed.
Print Assumptions C93_straight.

(** The amount of memory never bends it. *)
Theorem C93_memory_cell B : (matrix_bytes B < 1024 ^ 8)%Z -> (List.length (sizeof_fmt (matrix_bytes B)) <= 8)%nat.
Proof. apply memory_fits. Qed.
Print Assumptions C93_memory_cell.

(** A timestep like 1/1024 does. *)
Definition bent : banner :=
  mkBanner 1 1 100 (TFloat [9; 7; 6; 5; 6; 2; 5]%nat (-3)%Z) false false true euler "fte" false 1 true true 3 2 (lit "lab") 1 0 false.
Theorem C93_straight_refuted : exists B s, proper B /\ info_box B = Ok s /\ str_timestep (b_timestep B) = lit "0.0009765625" /\
  exists l, In l (tl (split newline s)) /\ List.length (visible l) = 91%nat.
Proof.
  assert (P : proper bent).
  { split; [discriminate|]. split; [split; [discriminate|repeat constructor; lia]|]. split; apply calm_tidy; reflexivity. }
  exists bent, (joined (box_lines bent)). split; [exact P|]. split; [apply box_printed, P|]. split; [reflexivity|].
  rewrite box_split by exact P. exists (nth 5 (box_lines bent) []). split; [right; right; right; right; left; reflexivity|].
  vm_compute. reflexivity.
Qed.
Print Assumptions C93_straight_refuted.

(** With the name of a scheme that the program does not know, the run ends here. *)
Theorem C93_scheme B : b_scheme B = other_scheme -> info_box B = Raise NameError.
Proof. intros E. unfold info_box, entries, timestep_method. rewrite E. reflexivity. Qed.
Print Assumptions C93_scheme.

(** The amount of memory is right to half a percent and takes seven characters,
    except between 999.5 and 999.95 units. *)
Theorem C93_memory n : (0 <= n < 1024 ^ 8)%Z ->
  states_bytes (sizeof_fmt n) n /\
  ((forall k, (1 <= k < 8)%nat -> ~ long_at n k) -> List.length (sizeof_fmt n) = 7%nat) /\
  ((exists k, (k < 8)%nat /\ long_at n k) -> List.length (sizeof_fmt n) = 8%nat).
Proof.
  intros H. destruct (Z.eq_dec n 0) as [->|N].
  - split; [exists 0%Z, 0%nat, 0%nat; split; [reflexivity|cbn; lia]|]. split; [reflexivity|].
    intros [k [_ [L _]]]. pose proof (Z.pow_pos_nonneg 1024 (Z.of_nat k) ltac:(lia) ltac:(lia)). lia.
  - destruct (sizeof_shown n ltac:(lia)) as [k [K1 [K2 ->]]]. destruct (shown_states k n K1 K2) as [SB L].
    split; [exact SB|]. split.
    + intros Q. destruct L as [[_ L]|[L _]]; [exact L|]. exfalso. destruct k as [|k]; [|apply (Q (S k)); [lia|exact L]].
      destruct L as [L1 L2]. change (1024 ^ Z.of_nat 0)%Z with 1%Z in *. lia.
    + intros [j [J [J1 J2]]]. destruct L as [[L _]|[_ L]]; [|exact L]. exfalso.
      assert (E : j = k); [|subst j; apply L; split; assumption].
      pose proof (Z.pow_pos_nonneg 1024 (Z.of_nat j) ltac:(lia) ltac:(lia)) as Pj.
      pose proof (Z.pow_pos_nonneg 1024 (Z.of_nat k) ltac:(lia) ltac:(lia)) as Pk.
      destruct (Nat.lt_trichotomy j k) as [A|[A|A]]; [exfalso|exact A|exfalso].
      * assert (Z : (1024 ^ Z.of_nat k = 1024 ^ Z.of_nat (k - j - 1) * 1024 * 1024 ^ Z.of_nat j)%Z).
        { replace (Z.of_nat k) with (Z.of_nat (k - j - 1) + 1 + Z.of_nat j)%Z by lia.
          rewrite !Z.pow_add_r by lia. reflexivity. }
        pose proof (Z.pow_pos_nonneg 1024 (Z.of_nat (k - j - 1)) ltac:(lia) ltac:(lia)). nia.
      * assert (Z : (1024 ^ Z.of_nat j = 1024 ^ Z.of_nat (j - k - 1) * 1024 * 1024 ^ Z.of_nat k)%Z).
        { replace (Z.of_nat j) with (Z.of_nat (j - k - 1) + 1 + Z.of_nat k)%Z by lia.
          rewrite !Z.pow_add_r by lia. reflexivity. }
        pose proof (Z.pow_pos_nonneg 1024 (Z.of_nat (j - k - 1)) ltac:(lia) ltac:(lia)).
        destruct (Z.eq_dec (Z.of_nat (j - k - 1)) 0) as [Z0|Z0].
        -- rewrite Z0 in Z. change (1024 ^ 0)%Z with 1%Z in Z. rewrite Z in J1. nia.
        -- nia.
Qed.
Print Assumptions C93_memory.

(** Finding: the column of seven characters is exceeded. *)
Theorem C93_column_refuted : sizeof_fmt 1023488 = lit "999.5 KB" /\ List.length (sizeof_fmt 1023488) = 8%nat.
Proof. split; vm_compute; reflexivity. Qed.
Print Assumptions C93_column_refuted.

(** A box with marked cells, 3 spheres and 2 dumbbells *)
Definition shown_box : banner :=
  mkBanner 4 2 250 (TFloat [2; 5]%nat 0%Z) true false true euler "ufte" false 3 false true 3 2 (lit "XPS-15.lab") 1 20 false.
Example C93_box_example : proper shown_box /\ all_fit shown_box /\ exists s, info_box shown_box = Ok s /\
  map (fun l => string_of_list_ascii (visible l)) (split newline s) = [
"";
"+--------------------+-------------------+-----------------------+--------------------+";
"| Setup:    4        | Minfinity: OFF    | Matrix form: UFTE                          |";
"| Input:    2        | R2Bexact:  ON     | Solve using: Fast R\F | Numba:    ON       |";
"| Frames:   250      | Bead-bead: ON     | Inv M every: 3        | Video:    ON       |";
"| Timestep: 0.25     | Timestep:  Euler  | Periodic:    ON       | Memory:  ~94.9 KB  |";
"+--------------------+-------------------+--------------------------------------------+";
"| Save every: 1      | Save after: 20    | Machine: XPS-15.lab                        |";
"+--------------------+-------------------+--------------------------------------------+"]%string /\
  map (map f_attention) (rows shown_box) = [[false; true; false]; [false; false; false; false]; [false; false; false; false]; [false; true; false; false]; [false; true; false]].
Proof.
  assert (P : proper shown_box).
  { split; [discriminate|]. split; [split; [discriminate|repeat constructor; lia]|]. split; [apply calm_tidy; reflexivity|].
    split; [|split].
    - intros [a [b E]]. change (b_host shown_box) with (lit "XPS-15.lab") in E. cbn in E.
      destruct a as [|x0 [|x1 [|x2 [|x3 [|x4 [|x5 [|x6 [|x7 [|x8 [|x9 [|x10 a]]]]]]]]]]]; cbn in E; discriminate E.
    - cbn. intros I; repeat destruct I as [I|I]; try discriminate; contradiction.
    - cbn. intros I; repeat destruct I as [I|I]; try discriminate; contradiction. }
  split; [exact P|]. split.
  - unfold all_fit, rows, fits. repeat apply Forall_cons; try apply Forall_nil; vm_compute; lia.
  - exists (joined (box_lines shown_box)). split; [apply box_printed, P|]. split; [|reflexivity].
    rewrite box_split by exact P. vm_compute. reflexivity.
Qed.
(** The numbers that used to be printed with too few digits: 1023 and 1024 KB *)
Example C93_memory_example : map (fun n => string_of_list_ascii (sizeof_fmt n)) [0; 999; 1280; 1047552; 1048575; 5368709120]%Z
  = ["    0 B"; "  999 B"; "1.25 KB"; "1023 KB"; "1024 KB"; "   5 GB"]%string.
Proof. vm_compute. reflexivity. Qed.
