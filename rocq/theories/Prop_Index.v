(** C99: three descriptions of the layout agree, and the time in headings. *)
From Coq Require Import Reals ZArith Arith List String Ascii Lia Lra.
From Verif Require Import Base Model_Layout Model_Minf Model_Progress Model_Index Spec_Layout Spec_Index Proof_Progress Prop_Layout.
Import ListNotations.
Local Open Scope nat_scope.

(** The slices [submatrix_coords] gives for a pair of spheres or beads are, in
    the order of its result, the rows and columns of the blocks which the
    assembly writes for that pair (C05). *)
Definition written_slices (u v Ns Nd : nat) : list ((Z * Z) * (Z * Z)) :=
  let s := submatrix_coords (Z.of_nat u) (Z.of_nat v) (Z.of_nat Ns) (Z.of_nat Nd) in
  let pick l := map (fun n => nth n s ((0, 0), (0, 0))%Z) l in
  if Nat.ltb u Ns then
    if Nat.ltb v Ns then pick ([0; 1; 5; 3; 6; 8] ++ (if Nat.eqb u v then [] else [2; 4; 7]))
    else if Nat.ltb v (Ns + Nd) then pick [9; 10; 11] else pick [13; 14; 15]
  else if Nat.ltb v (Ns + Nd) then pick [12] else if Nat.ltb u (Ns + Nd) then pick [16] else pick [17].
Theorem C99_slices : forall Ns Nd u v, u <= v < Ns + 2 * Nd ->
  written_slices u v Ns Nd = map as_ranges (written_blocks u v Ns Nd).
Proof.
  intros Ns Nd u v H. unfold written_slices, written_blocks, submatrix_coords, submatrix_coords_tuple, as_ranges, is_sphere, is_dumbbell_bead_1, is_dumbbell_bead_2.
  destruct (Nat.ltb_spec u Ns), (Nat.ltb_spec v Ns), (Nat.ltb_spec v (Ns + Nd)), (Nat.ltb_spec u (Ns + Nd)), (Nat.leb_spec Ns u), (Nat.leb_spec Ns v), (Nat.leb_spec (Ns + Nd) v);
    try lia; cbn [andb]; try destruct (Nat.eqb u v); cbn [map app nth fst snd A_c Bt_c Bt21_c Gt_c Gt21_c C_c Ht_c Ht21_c M_c M14_c M24_c M34_c M44_c M15_c M25_c M35_c M45_c M55_c];
    repeat (f_equal; try lia).
Qed.
Print Assumptions C99_slices.

(** The starts, sizes and counts of [posdata_data]: the place they give to a
    component of a quantity of an element is that of the grand vectors
    (Spec_Layout, with the second bead of dumbbell [e] being bead [e + Nd]), and
    every entry of a grand vector is the place of exactly one component. *)
Theorem C99_layout : forall p,
  let d := posdata_data p in
  let Ns := num_spheres p in
  let Nd := num_dumbbells p in
  let place := place_of (uv_start d) (uv_size d) (element_start_count d) in
  (forall k e, has_quantity Ns Nd k e ->
     nth e (repeat 0 Ns ++ repeat 1 Nd) 2 = nth k (element_type d) 3 /\
     forall c, c < nth k (uv_size d) 0 ->
       place k e c = match k with 0 => kstart Ns KU e | 1 => kstart Ns KO e | 2 => kstart Ns KS e | 3 => kstart Ns KB e | _ => kstart Ns KB (e + Nd) end + c) /\
  (forall r, r < 11 * Ns + 6 * Nd ->
     exists k e c, has_quantity Ns Nd k e /\ c < nth k (uv_size d) 0 /\ place k e c = r /\
       forall k' e' c', has_quantity Ns Nd k' e' -> c' < nth k' (uv_size d) 0 -> place k' e' c' = r -> k' = k /\ e' = e /\ c' = c) /\
  num_elements d = Ns + Nd /\ num_elements_array d = [Ns; Nd].
Proof.
  intros p d Ns Nd place.
  assert (PL : forall k e c, has_quantity Ns Nd k e -> place k e c =
    match k with 0 => 3 * e | 1 => 3 * Ns + 3 * e | 2 => 6 * Ns + 5 * e | 3 => 11 * Ns + 3 * (e - Ns) | _ => 11 * Ns + 3 * Nd + 3 * (e - Ns) end + c).
  { intros k e c H. unfold place, place_of, d, posdata_data. fold Ns Nd. cbn [uv_start uv_size element_start_count].
    destruct k as [|[|[|[|[|k]]]]]; cbn [nth]; destruct H as [H|H]; lia. }
  assert (SZ : forall k, k < 5 -> nth k (uv_size d) 0 = match k with 2 => 5 | _ => 3 end).
  { intros k Hk. unfold d, posdata_data. cbn [uv_size]. destruct k as [|[|[|[|[|k]]]]]; cbn [nth]; lia. }
  split; [|split; [|split; reflexivity]].
  - intros k e H. split.
    + unfold d, posdata_data. cbn [element_type]. destruct H as [[Hk He]|[Hk He]].
      * rewrite app_nth1 by (rewrite repeat_length; exact He). rewrite (nth_indep _ 2 0) by (rewrite repeat_length; exact He).
        rewrite nth_repeat. destruct k as [|[|[|k]]]; try reflexivity; lia.
      * rewrite app_nth2 by (rewrite repeat_length; lia). rewrite repeat_length. rewrite (nth_indep _ 2 1) by (rewrite repeat_length; lia).
        rewrite nth_repeat. destruct k as [|[|[|[|[|k]]]]]; try reflexivity; lia.
    + intros c Hc. rewrite PL by exact H. destruct H as [H|H]; destruct k as [|[|[|[|[|k]]]]]; cbn [kstart]; lia.
  - intros r Hr.
    assert (EX : exists k e c, has_quantity Ns Nd k e /\ c < nth k (uv_size d) 0 /\ place k e c = r).
    { assert (D3 : forall x, 3 * (x / 3) + x mod 3 = x) by (intros x; symmetry; apply Nat.div_mod; lia).
      assert (D5 : forall x, 5 * (x / 5) + x mod 5 = x) by (intros x; symmetry; apply Nat.div_mod; lia).
      assert (M3 : forall x, x mod 3 < 3) by (intros x; apply Nat.mod_upper_bound; lia).
      assert (M5 : forall x, x mod 5 < 5) by (intros x; apply Nat.mod_upper_bound; lia).
      destruct (le_lt_dec (3 * Ns) r) as [H1|H1]; [destruct (le_lt_dec (6 * Ns) r) as [H2|H2]; [destruct (le_lt_dec (11 * Ns) r) as [H3|H3]; [destruct (le_lt_dec (11 * Ns + 3 * Nd) r) as [H4|H4]|]|]|].
      - exists 4, (Ns + (r - 11 * Ns - 3 * Nd) / 3), ((r - 11 * Ns - 3 * Nd) mod 3). pose proof (D3 (r - 11 * Ns - 3 * Nd)). pose proof (M3 (r - 11 * Ns - 3 * Nd)).
        assert (Q : has_quantity Ns Nd 4 (Ns + (r - 11 * Ns - 3 * Nd) / 3)) by (right; lia). split; [exact Q|]. rewrite PL by exact Q. rewrite SZ by lia. lia.
      - exists 3, (Ns + (r - 11 * Ns) / 3), ((r - 11 * Ns) mod 3). pose proof (D3 (r - 11 * Ns)). pose proof (M3 (r - 11 * Ns)).
        assert (Q : has_quantity Ns Nd 3 (Ns + (r - 11 * Ns) / 3)) by (right; lia). split; [exact Q|]. rewrite PL by exact Q. rewrite SZ by lia. lia.
      - exists 2, ((r - 6 * Ns) / 5), ((r - 6 * Ns) mod 5). pose proof (D5 (r - 6 * Ns)). pose proof (M5 (r - 6 * Ns)).
        assert (Q : has_quantity Ns Nd 2 ((r - 6 * Ns) / 5)) by (left; lia). split; [exact Q|]. rewrite PL by exact Q. rewrite SZ by lia. lia.
      - exists 1, ((r - 3 * Ns) / 3), ((r - 3 * Ns) mod 3). pose proof (D3 (r - 3 * Ns)). pose proof (M3 (r - 3 * Ns)).
        assert (Q : has_quantity Ns Nd 1 ((r - 3 * Ns) / 3)) by (left; lia). split; [exact Q|]. rewrite PL by exact Q. rewrite SZ by lia. lia.
      - exists 0, (r / 3), (r mod 3). pose proof (D3 r). pose proof (M3 r).
        assert (Q : has_quantity Ns Nd 0 (r / 3)) by (left; lia). split; [exact Q|]. rewrite PL by exact Q. rewrite SZ by lia. lia. }
    destruct EX as (k & e & c & Q & Hc & E). exists k, e, c. split; [exact Q|]. split; [exact Hc|]. split; [exact E|].
    intros k' e' c' Q' Hc' E'. assert (k < 5 /\ k' < 5) by (destruct Q, Q'; lia). rewrite SZ in Hc, Hc' by lia. rewrite PL in E, E' by assumption.
    destruct Q as [Q|Q], Q' as [Q'|Q']; destruct k as [|[|[|[|[|k]]]]], k' as [|[|[|[|[|k']]]]]; lia.
Qed.
Print Assumptions C99_layout.

(** Its elements are the spheres and then the dumbbells, and the beads of the
    mobility matrices are the elements less, and then the dumbbells plus, half
    of their extensions, which are zero for spheres. *)
Theorem C99_elements : forall p,
  let d := posdata_data p in
  let Ns := num_spheres p in
  let Nd := num_dumbbells p in
  (forall e l, e < num_elements d -> l < 3 ->
     bead_positions p e l = (element_positions d e l - element_deltax d e l / 2)%R /\ bead_sizes p e = element_sizes d e) /\
  (forall e l, Ns <= e < num_elements d -> l < 3 ->
     bead_positions p (e + Nd) l = (element_positions d e l + element_deltax d e l / 2)%R /\ bead_sizes p (e + Nd) = element_sizes d e).
Proof.
  intros p d Ns Nd. unfold d, posdata_data, bead_positions, bead_sizes. fold Ns Nd. cbn [num_elements element_positions element_deltax element_sizes]. split; intros e l He Hl.
  - destruct (Nat.ltb_spec e Ns).
    + split; [|reflexivity]. idx3 Hl; cbn [v3]; field.
    + destruct (Nat.ltb_spec e (Ns + Nd)); [|lia]. split; [|reflexivity]. unfold vsub, vscal. field.
  - destruct (Nat.ltb_spec (e + Nd) Ns); [lia|]. destruct (Nat.ltb_spec (e + Nd) (Ns + Nd)); [lia|]. destruct (Nat.ltb_spec e Ns); [lia|].
    replace (e + Nd - Ns - Nd) with (e - Ns) by lia. split; [|reflexivity]. unfold vadd, vscal. field.
Qed.
Print Assumptions C99_elements.

(** ** The time in headings *)
Local Open Scope R_scope.
Lemma hms_digit sum number d t : (0 <= d < 10)%Z -> read_hms sum number (String (digit d) t) = read_hms sum (10 * number + d) t.
Proof.
  intros H. cbn [read_hms].
  assert (N : forall c, (nat_of_ascii c < 48 \/ 58 <= nat_of_ascii c)%nat -> Ascii.eqb (digit d) c = false).
  { intros c Hc. apply Ascii.eqb_neq. intros E. pose proof (nat_digit d H) as X. rewrite E in X. lia. }
  rewrite !N by (unfold nat_of_ascii; simpl; lia). rewrite nat_digit by exact H. f_equal. lia.
Qed.
Lemma hms_digits fuel : forall n sum t, (0 <= n < 2 ^ Z.of_nat fuel)%Z -> (fuel <> 0)%nat ->
  read_hms sum 0 (digits fuel n t) = read_hms sum n t.
Proof.
  induction fuel as [|f IH]; intros n sum t Hn Hf; [contradiction|]. cbn [digits].
  pose proof (Z.div_mod n 10 ltac:(lia)) as E. pose proof (Z.mod_pos_bound n 10 ltac:(lia)) as B.
  destruct (Z.eqb_spec (n / 10) 0) as [H|H].
  - rewrite hms_digit by exact B. f_equal. lia.
  - assert (P : (0 < n / 10)%Z) by (assert (0 <= n / 10)%Z by (apply Z.div_pos; lia); lia).
    rewrite Nat2Z.inj_succ, Z.pow_succ_r in Hn by lia.
    rewrite IH; [rewrite hms_digit by exact B; f_equal; lia| |].
    + lia.
    + destruct f; [simpl in Hn; lia|discriminate].
Qed.
Lemma hms_decimal sum n t : (0 <= n)%Z -> read_hms sum 0 (decimal n ++ t) = read_hms sum n t.
Proof.
  intros Hn. unfold decimal.
  assert (A : forall fuel n u t, (digits fuel n u ++ t = digits fuel n (u ++ t))%string).
  { induction fuel as [|f IH]; intros m u v; cbn [digits]; [reflexivity|]. destruct (Z.eqb (m / 10) 0); [reflexivity|]. rewrite IH. reflexivity. }
  rewrite A. apply hms_digits; [|discriminate]. split; [exact Hn|].
  rewrite Nat2Z.inj_succ, Z2Nat.id by apply Z.log2_nonneg.
  destruct (Z.eq_dec n 0) as [->|]; [reflexivity|]. apply Z.log2_spec. lia.
Qed.
Lemma hms_align sum w n t : (0 <= n)%Z -> read_hms sum 0 (align "0" w (decimal n) ++ t) = read_hms sum n t.
Proof.
  intros Hn. unfold align. rewrite fill_app.
  assert (Z : forall k t, read_hms sum 0 (fill_with "0" k t) = read_hms sum 0 t) by (induction k as [|k IH]; intros u; [reflexivity|exact (IH u)]).
  rewrite Z. apply hms_decimal. exact Hn.
Qed.

(** The text has whole hours, and minutes and seconds below 60 in two digits,
    and read back it gives the whole seconds, so two times with the same text
    differ by less than a second. *)
Theorem C99_seconds : forall t, 0 <= t ->
  let z := Int_part t in
  format_seconds t = (decimal (z / 3600) ++ "h" ++ align "0" 2 (decimal (z / 60 mod 60)) ++ "m" ++ align "0" 2 (decimal (z mod 60)) ++ "s")%string /\
  read_hms 0 0 (format_seconds t) = z /\
  forall t', 0 <= t' -> format_seconds t' = format_seconds t -> Rabs (t' - t) < 1.
Proof.
  assert (FS : forall t, format_seconds t = (decimal (Int_part t / 3600) ++ "h" ++ align "0" 2 (decimal (Int_part t / 60 mod 60)) ++ "m" ++ align "0" 2 (decimal (Int_part t mod 60)) ++ "s")%string).
  { intros t. unfold format_seconds, divmod, shown.
    assert (M1 : Int_part (t / 60) = (Int_part t / 60)%Z) by (apply (floor_div t 60); lia).
    rewrite (floor_rmod _ 60), floor_IZR, M1 by lia. rewrite floor_IZR, (floor_div _ 60), floor_IZR by lia. rewrite Z.div_div by lia.
    rewrite (floor_rmod t 60) by lia. reflexivity. }
  assert (RD : forall t, 0 <= t -> read_hms 0 0 (format_seconds t) = Int_part t).
  { intros t Ht. rewrite FS. pose proof (floor_nonneg t Ht) as HZ.
    rewrite hms_decimal by (apply Z.div_pos; lia).
    cbn [String.append]. cbn [read_hms]. cbn [Ascii.eqb Bool.eqb].
    change (Ascii.eqb "h" "h") with true. cbv iota.
    rewrite hms_align by (apply Z.mod_pos_bound; lia). cbn [String.append read_hms].
    change (Ascii.eqb "m" "h") with false. change (Ascii.eqb "m" "m") with true. cbv iota.
    rewrite hms_align by (apply Z.mod_pos_bound; lia). cbn [read_hms].
    change (Ascii.eqb "s" "h") with false. change (Ascii.eqb "s" "m") with false. change (Ascii.eqb "s" "s") with true. cbv iota.
    set (z := Int_part t) in *. pose proof (Z.div_mod z 60 ltac:(lia)). pose proof (Z.div_mod (z / 60) 60 ltac:(lia)).
    rewrite Z.div_div in H0 by lia. change (60 * 60)%Z with 3600%Z in H0. lia. }
  intros t Ht z. split; [apply FS|]. split; [exact (RD t Ht)|]. intros t' Ht' E.
  assert (EZ : Int_part t' = Int_part t) by (rewrite <- (RD t' Ht'), <- (RD t Ht), E; reflexivity).
  pose proof (floor_bounds t). pose proof (floor_bounds t'). rewrite EZ in *. apply Rabs_def1; lra.
Qed.
Print Assumptions C99_seconds.

(** The tests on particle numbers used by the assembly: with the spheres
    first, then the first beads of all dumbbells, then the second beads, each
    number below Ns + 2 Nd is exactly one of the three, at its place. *)
Theorem C99_kinds Ns Nd a :
  (a < Ns + 2 * Nd)%nat ->
  is_dumbbell a Ns = negb (is_sphere a Ns) /\
  is_dumbbell a Ns = xorb (is_dumbbell_bead_1 a Ns Nd) (is_dumbbell_bead_2 a Ns Nd) /\
  (is_sphere a Ns = true <-> exists i, (i < Ns)%nat /\ a = i) /\
  (is_dumbbell_bead_1 a Ns Nd = true <-> exists j, (j < Nd)%nat /\ a = (Ns + j)%nat) /\
  (is_dumbbell_bead_2 a Ns Nd = true <-> exists j, (j < Nd)%nat /\ a = (Ns + Nd + j)%nat).
Proof.
  intros Ha. unfold is_dumbbell, is_sphere, is_dumbbell_bead_1, is_dumbbell_bead_2.
  split; [apply Nat.leb_antisym|].
  destruct (Nat.leb_spec Ns a) as [L1|L1], (Nat.ltb_spec a Ns) as [L2|L2], (Nat.ltb_spec a (Ns + Nd)) as [L3|L3],
    (Nat.leb_spec (Ns + Nd) a) as [L4|L4]; try lia; cbn [andb xorb negb]; (split; [reflexivity|]).
  all: repeat split; intros H; try discriminate; try reflexivity;
    try (destruct H as [j [Hj ->]]; exfalso; lia).
  - exists (a - Ns)%nat. split; lia.
  - exists (a - (Ns + Nd))%nat. split; lia.
  - exists a. split; lia.
Qed.
Print Assumptions C99_kinds.
Example C99_kinds_example : (4 < 2 + 2 * 2)%nat /\ is_dumbbell_bead_2 4 2 2 = true.
Proof. split; [lia|reflexivity]. Qed.

(** ** Examples *)
(** Two spheres and two dumbbells: sphere 1 and the second bead of dumbbell 0. *)
Example C99_slices_example : written_slices 1 4 2 2 = [((3, 6), (28, 31)); ((9, 12), (28, 31)); ((17, 22), (28, 31))]%Z.
Proof. reflexivity. Qed.
Example C99_layout_example :
  let d := posdata_data (mkPos 2 2 (fun _ => 1) (fun _ => v3 0 0 0) (fun _ => 1) (fun _ => v3 0 0 0) (fun _ => v3 0 0 0)) in
  place_of (uv_start d) (uv_size d) (element_start_count d) 4 3 2 = 33%nat.
Proof. reflexivity. Qed.
Example C99_seconds_example : format_seconds (IZR 45296 + / 2) = "12h34m56s"%string.
Proof.
  destruct (C99_seconds (IZR 45296 + / 2)) as [E _]; [lra|]. rewrite E.
  rewrite (floor_unique 45296) by lra. reflexivity.
Qed.
