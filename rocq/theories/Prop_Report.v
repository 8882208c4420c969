(** C107: what the functions of random placement say about the result. *)
From Coq Require Import Reals List Arith Bool Lia Lra.
From Verif Require Import Base Py Model_Mob Model_Close Model_Place Model_Report Spec_Place Proof_Place Spec_Report Proof_Report Prop_Place.
Import ListNotations.
Local Open Scope R_scope.

(** The report changes nothing: the function returns, raises or goes on exactly
    as without it. *)
Definition unsaid {A B C} (o : option (res (A * B * C))) : option (res (A * B)) :=
  match o with None => None | Some (Ok (a, b, _)) => Some (Ok (a, b)) | Some (Raise e) => Some (Raise e) end.
Theorem C107_spheres_same rand lo hi fuel k sizes current :
  unsaid (randomise_spheres_said lo hi rand fuel k sizes current) = randomise_spheres rand lo hi fuel k sizes current.
Proof.
  unfold randomise_spheres_said, randomise_spheres. destruct (place_spheres _ _ _ _ _ _ _) as [[ps k']|]; [|reflexivity].
  destruct (some_distance ps) eqn:E; unfold report_spheres.
  - destruct (proj2 (min_exists ps) E) as [m ->]. reflexivity.
  - rewrite (min_raise ps E). reflexivity.
Qed.
Print Assumptions C107_spheres_same.
Theorem C107_dumbbells_same rand lo hi dx theta phi fuel k sizes current :
  unsaid (randomise_dumbbells_said lo hi rand dx theta phi fuel k sizes current) = randomise_dumbbells rand lo hi dx theta phi fuel k sizes current.
Proof.
  unfold randomise_dumbbells_said, randomise_dumbbells. destruct (place_dumbbells _ _ _ _ _ _ _ _ _ _ _) as [[ds k']|]; [|reflexivity].
  cbv zeta. unfold report_dumbbells. set (b := map _ ds ++ map _ ds). destruct (some_distance b) eqn:E.
  - destruct (proj2 (min_exists b) E) as [m ->]. reflexivity.
  - rewrite (min_raise b E). reflexivity.
Qed.
Print Assumptions C107_dumbbells_same.

Lemma said_spheres rand lo hi fuel k sizes current ps k' r :
  randomise_spheres_said lo hi rand fuel k sizes current = Some (Ok (ps, k', r)) ->
  randomise_spheres rand lo hi fuel k sizes current = Some (Ok (ps, k')) /\ report_spheres lo hi sizes ps = Ok r.
Proof.
  intros H. split; [rewrite <- C107_spheres_same, H; reflexivity|].
  unfold randomise_spheres_said in H. destruct (place_spheres _ _ _ _ _ _ _) as [[qs k1]|]; [|discriminate].
  destruct (report_spheres lo hi sizes qs) eqn:E; cbn in H; [|discriminate]. congruence.
Qed.
Lemma said_dumbbells rand lo hi dx theta phi fuel k sizes current ds k' r :
  randomise_dumbbells_said lo hi rand dx theta phi fuel k sizes current = Some (Ok (ds, k', r)) ->
  randomise_dumbbells rand lo hi dx theta phi fuel k sizes current = Some (Ok (ds, k')) /\ report_dumbbells lo hi sizes ds = Ok r.
Proof.
  intros H. split; [rewrite <- C107_dumbbells_same, H; reflexivity|].
  unfold randomise_dumbbells_said in H. destruct (place_dumbbells _ _ _ _ _ _ _ _ _ _ _) as [[qs k1]|]; [|discriminate].
  destruct (report_dumbbells lo hi sizes qs) eqn:E; cbn in H; [|discriminate]. congruence.
Qed.

(** What both reports say of a set of points that are not at the same place. *)
Definition tells (ps : list vec) (unit : R) (r : report) (m : R) : Prop :=
  closest_distance ps m /\ min_s r = Fin (m / unit) /\
  (forall i, In i (closest_two r) <-> (i < length ps)%nat /\ exists j, (j < length ps)%nat /\ dist3 ps.[i] ps.[j] = m) /\
  (forall i j, (i < j < length ps)%nat -> dist3 ps.[i] ps.[j] = m ->
    (forall a b, (a < b < length ps)%nat -> dist3 ps.[a] ps.[b] = m -> a = i /\ b = j) -> closest_two r = [i; j]).
Lemma tells_report ps u m f : distinct ps -> u <> 0 -> min_element_distance ps = Ok m ->
  tells ps u (mkReport (np_div m u) (two_closest_elements ps m) f) m.
Proof.
  intros D Hu H. assert (C := proj1 (min_closest ps m D) H). split; [exact C|]. split; [apply div_fin, Hu|].
  split; [intros i; apply closest_in|]. intros i j Hij E U. apply closest_two_unique; [exact Hij| |exact E|exact U].
  rewrite <- E. exact (D i j Hij).
Qed.

(** Spheres: the first number is the smallest distance between two new spheres,
    over the first radius; the two closest spheres are named. *)
Theorem C107_spheres rand lo hi fuel k sizes current ps k' r :
  (forall n, 0 <= rand n < 1) -> (forall i, (i < 3)%nat -> lo i <= hi i) -> (forall a, In a sizes -> 0 < a) ->
  randomise_spheres_said lo hi rand fuel k sizes current = Some (Ok (ps, k', r)) ->
  exists m, tells ps (nth 0 sizes 0) r m.
Proof.
  intros Hr Hb Hs H. apply said_spheres in H. destruct H as [H E].
  assert (N2 : (2 <= length sizes)%nat).
  { destruct (le_lt_dec 2 (length sizes)) as [L|L]; [exact L|exfalso].
    destruct (C39_single_sphere_refuted rand lo hi fuel k sizes current ltac:(lia)) as [F|F]; rewrite F in H; discriminate. }
  destruct (C39_spheres rand lo hi fuel k sizes current ps k' Hr Hb H) as [L [_ [_ A]]].
  assert (D : distinct ps).
  { intros i j Hij. pose proof (A i j ltac:(lia) ltac:(lia) ltac:(lia)) as B. unfold apart in B.
    pose proof (Hs (nth i sizes 0) ltac:(apply nth_In; lia)). pose proof (Hs (nth j sizes 0) ltac:(apply nth_In; lia)). lra. }
  unfold report_spheres in E. destruct (min_element_distance ps) as [m|] eqn:Em; cbn [bind] in E; [|discriminate].
  injection E as <-. exists m. apply tells_report; [exact D| |exact Em].
  pose proof (Hs (nth 0 sizes 0) ltac:(apply nth_In; lia)). lra.
Qed.
Print Assumptions C107_spheres.

(** Equal spheres: the number is at least 2. *)
Theorem C107_spheres_equal rand lo hi fuel k n a current ps k' r :
  (forall n, 0 <= rand n < 1) -> (forall i, (i < 3)%nat -> lo i <= hi i) -> 0 < a ->
  randomise_spheres_said lo hi rand fuel k (repeat a n) current = Some (Ok (ps, k', r)) ->
  exists x, min_s r = Fin x /\ 2 <= x.
Proof.
  intros Hr Hb Ha H. destruct (C107_spheres _ _ _ _ _ _ _ _ _ _ Hr Hb (fun b I => eq_ind_r (fun c => 0 < c) Ha (repeat_spec n a b I)) H) as [m [C [-> _]]].
  apply said_spheres in H. destruct H as [H _]. destruct (C39_spheres _ _ _ _ _ _ _ _ _ Hr Hb H) as [L [_ [_ A]]].
  rewrite repeat_length in L. destruct C as [[i [j [Hij <-]]] _]. eexists. split; [reflexivity|].
  pose proof (A i j ltac:(lia) ltac:(lia) ltac:(lia)) as B. unfold apart in B.
  rewrite !nth_repeat_in in B by lia. rewrite nth_repeat_in by lia. apply Rmult_le_reg_r with a; [exact Ha|]. unfold Rdiv. rewrite Rmult_assoc, Rinv_l by lra. lra.
Qed.
Print Assumptions C107_spheres_equal.

(** The last number: the volume of the new spheres over that of the box; for a
    box flat in y the area; inf if the box is flat in x or z. *)
Theorem C107_spheres_fraction rand lo hi fuel k sizes current ps k' r :
  (forall i, (i < 3)%nat -> lo i <= hi i) -> (forall a, In a sizes -> 0 < a) -> 
  randomise_spheres_said lo hi rand fuel k sizes current = Some (Ok (ps, k', r)) ->
  let L i := hi i - lo i in
  (0 < L 0%nat -> 0 < L 1%nat -> 0 < L 2%nat -> fractions r = [Fin (total ball sizes / (L 0%nat * L 1%nat * L 2%nat))]) /\
  (0 < L 0%nat -> L 1%nat = 0 -> 0 < L 2%nat -> fractions r = [Fin (total disc sizes / (L 0%nat * L 2%nat))]) /\
  (L 0%nat = 0 \/ L 2%nat = 0 -> fractions r = [Inf]).
Proof.
  intros Hb Hs H L.
  assert (Ne : sizes <> []).
  { intros ->. apply said_spheres in H. destruct H as [H _].
    destruct (C39_single_sphere_refuted rand lo hi fuel k [] current ltac:(simpl; lia)) as [F|F]; rewrite F in H; discriminate. }
  apply said_spheres in H. destruct H as [_ E]. unfold report_spheres in E.
  destruct (min_element_distance ps) as [m|]; cbn [bind] in E; [|discriminate]. injection E as <-. cbn [fractions].
  assert (D : forall i, (i < 3)%nat -> box_dimensions lo hi i = L i) by (intros i Hi; apply Rabs_pos_eq; pose proof (Hb i Hi); unfold L; lra).
  unfold fractions_spheres. rewrite !D by lia. rewrite sum_ball, sum_disc. pose proof PI_RGT_0 as Hpi.
  split; [|split].
  - intros H0 H1 H2. destruct (Req_EM_T (L 1%nat) 0) as [Z|_]; [lra|]. rewrite div_fin; [reflexivity|].
    apply Rgt_not_eq. apply Rmult_lt_0_compat; [apply Rmult_lt_0_compat|]; assumption.
  - intros H0 H1 H2. destruct (Req_EM_T (L 1%nat) 0) as [_|Z]; [|lra]. rewrite div_fin; [reflexivity|].
    apply Rgt_not_eq. apply Rmult_lt_0_compat; assumption.
  - intros Z. destruct (Req_EM_T (L 1%nat) 0) as [_|_]; rewrite div_inf; try reflexivity.
    + apply Rgt_not_eq. apply total_pos; [exact Ne|]. intros a I. unfold disc. pose proof (Hs a I). apply Rmult_lt_0_compat; [exact Hpi|apply pow_lt; lra].
    + destruct Z as [-> | ->]; ring.
    + apply Rgt_not_eq. apply total_pos; [exact Ne|]. intros a I. unfold ball. pose proof (Hs a I). apply Rmult_lt_0_compat; [lra|apply pow_lt; lra].
    + destruct Z as [-> | ->]; ring.
Qed.
Print Assumptions C107_spheres_fraction.

(** (Finding) Only the centres are kept inside the box, so the fraction can
    exceed 100%: two spheres of radius 0.45 in a box of 1 by 1 by 0.1, more than
    seven times over. *)
Definition C107_rand (n : nat) : R := if Nat.eqb n 3 then 9 / 10 else 0.
Theorem C107_overfull_refuted :
  let lo := v3 0 0 0 in let hi := v3 1 1 (1 / 10) in
  (forall n, 0 <= C107_rand n < 1) /\ (forall i, (i < 3)%nat -> lo i < hi i) /\
  exists fuel ps k' r x, randomise_spheres_said lo hi C107_rand fuel 0 [45 / 100; 45 / 100] [] = Some (Ok (ps, k', r)) /\
    fractions r = [Fin x] /\ 7 < x.
Proof.
  intros lo hi.
  assert (Hr : forall n, 0 <= C107_rand n < 1) by (intros n; unfold C107_rand; destruct (Nat.eqb n 3); lra).
  assert (Hb : forall i, (i < 3)%nat -> lo i < hi i) by (intros i Hi; idx3 Hi; cbn; lra).
  assert (Hb' : forall i, (i < 3)%nat -> lo i <= hi i) by (intros i Hi; apply Rlt_le, Hb, Hi).
  split; [exact Hr|]. split; [exact Hb|].
  assert (T : in_turn (random_point_in_box C107_rand lo hi) 0 [45 / 100; 45 / 100] []
    [random_point_in_box C107_rand lo hi 0; random_point_in_box C107_rand lo hi 3] 6).
  { eapply it_cons; [apply (ff_here _ _ _ 0%nat); intros r p []|].
    eapply it_cons; [|apply it_nil]. apply (ff_here _ _ _ 3%nat). intros r p [E|[]]. injection E as <- <-.
    unfold apart, dist3, random_point_in_box, C107_rand, lo, hi. cbn. apply C39_ge; lra. }
  destruct (turn_places C107_rand lo hi _ _ _ _ _ T) as [n Hn].
  assert (Hs : forall a, In a [45 / 100; 45 / 100] -> 0 < a) by (intros a [<-|[<-|[]]]; lra).
  pose proof (C39_spheres_return C107_rand lo hi n 0 [45 / 100; 45 / 100] [] _ _ ltac:(simpl; lia) Hs Hr Hb' (Hn n (Nat.le_refl n))) as Q.
  rewrite <- C107_spheres_same in Q.
  destruct (randomise_spheres_said lo hi C107_rand n 0 [45 / 100; 45 / 100] []) as [[[[ps k'] r]|e]|] eqn:E; cbn [unsaid] in Q; try discriminate.
  destruct (C107_spheres_fraction C107_rand lo hi n 0 [45 / 100; 45 / 100] [] ps k' r Hb' Hs E) as [F _].
  exists n, ps, k', r. eexists. split; [exact E|]. split.
  - apply F; unfold lo, hi; cbn; lra.
  - unfold lo, hi. cbn [v3 total]. unfold ball. pose proof PI_RGT_0. assert (Hpi : 3 < PI) by (pose proof PI2_3_2; lra).
    apply Rmult_lt_reg_r with (1 / 10); [lra|]. unfold Rdiv at 2. 
    replace ((4 / 3 * PI * (45 / 100) ^ 3 + (4 / 3 * PI * (45 / 100) ^ 3 + 0)) * / ((1 - 0) * (1 - 0) * (1 / 10 - 0)) * (1 / 10)) with (243 / 1000 * PI) by field. lra.
Qed.
Print Assumptions C107_overfull_refuted.

(** Dumbbells: the same of all beads.  The two beads of one dumbbell count as
    well, so the distance is never more than the length dx of a dumbbell. *)
Theorem C107_dumbbells rand lo hi dx theta phi fuel k sizes current ds k' r :
  (forall n, 0 <= rand n < 1) -> (forall i, (i < 3)%nat -> lo i <= hi i) -> (forall a, In a sizes -> 0 < a) -> dx <> 0 ->
  randomise_dumbbells_said lo hi rand dx theta phi fuel k sizes current = Some (Ok (ds, k', r)) ->
  exists m, tells (all_beads ds) (nth 0 sizes 0) r m /\ m <= Rabs dx.
Proof.
  intros Hr Hb Hs Hdx H. apply said_dumbbells in H. destruct H as [H E].
  destruct (C39_dumbbells rand lo hi dx theta phi fuel k sizes current ds k' Hr Hb H) as [L [_ [_ [A [_ B]]]]]. cbv zeta in A, B.
  assert (D : distinct (all_beads ds)).
  { apply beads_distinct.
    - intros i b c j Hi Hj N. pose proof (A i j b c Hi Hj N) as C. unfold apart in C. fold d0 in C.
      pose proof (Hs (nth i sizes 0) ltac:(apply nth_In; lia)). pose proof (Hs (nth j sizes 0) ltac:(apply nth_In; lia)). lra.
    - intros i Hi. pose proof (B i Hi) as C. fold d0 in C. rewrite C. apply Rabs_pos_lt, Hdx. }
  unfold report_dumbbells in E. cbv zeta in E. rewrite bead_list in E.
  destruct (min_element_distance (all_beads ds)) as [m|] eqn:Em; cbn [bind] in E; [|discriminate]. injection E as <-.
  assert (Ne : (0 < length ds)%nat).
  { destruct ds; [|simpl; lia]. exfalso. cbn in Em. discriminate. }
  exists m. assert (T : tells (all_beads ds) (nth 0 sizes 0) (mkReport (np_div m (nth 0 sizes 0)) (two_closest_elements (all_beads ds) m) (fractions_dumbbells lo hi sizes)) m).
  { apply tells_report; [exact D| |exact Em]. pose proof (Hs (nth 0 sizes 0) ltac:(apply nth_In; lia)). lra. }
  split; [exact T|]. destruct T as [[_ T] _].
  specialize (T 0%nat (length ds) ltac:(rewrite beads_length; lia)). rewrite !beads_nth in T by lia.
  destruct (Nat.ltb_spec 0 (length ds)) as [_|]; [|lia]. destruct (Nat.ltb_spec (length ds) (length ds)) as [|_]; [lia|].
  rewrite Nat.sub_diag in T. pose proof (B 0%nat Ne) as C. fold d0 in C. rewrite C in T. exact T.
Qed.
Print Assumptions C107_dumbbells.

(** (Finding) So the number says nothing about how close two dumbbells are if
    they are short: if dx is no more than the sum of any two radii, it is dx over
    the first radius, whatever the positions. *)
Theorem C107_dumbbells_own_length_refuted rand lo hi dx theta phi fuel k sizes current ds k' r :
  (forall n, 0 <= rand n < 1) -> (forall i, (i < 3)%nat -> lo i <= hi i) -> (forall a, In a sizes -> 0 < a) -> dx <> 0 ->
  (forall a b, In a sizes -> In b sizes -> Rabs dx <= a + b) ->
  randomise_dumbbells_said lo hi rand dx theta phi fuel k sizes current = Some (Ok (ds, k', r)) ->
  min_s r = Fin (Rabs dx / nth 0 sizes 0).
Proof.
  intros Hr Hb Hs Hdx Hshort H. destruct (C107_dumbbells _ _ _ _ _ _ _ _ _ _ _ _ _ Hr Hb Hs Hdx H) as [m [[[[i [j [Hij E]]] _] [-> _]] Le]].
  apply said_dumbbells in H. destruct H as [H _].
  destruct (C39_dumbbells _ _ _ _ _ _ _ _ _ _ _ _ Hr Hb H) as [L [_ [_ [A [_ B]]]]]. cbv zeta in A, B. fold d0 in A, B.
  do 2 f_equal. apply Rle_antisym; [exact Le|]. rewrite beads_length in Hij. rewrite !beads_nth in E by lia.
  assert (G : forall a b c e, (a < length ds)%nat -> (c < length ds)%nat -> a <> c -> Rabs dx <= dist3 (bead b (nth a ds d0)) (bead e (nth c ds d0))).
  { intros a b c e Ha Hc N. apply Rle_trans with (nth a sizes 0 + nth c sizes 0); [apply Hshort; apply nth_In; lia|]. exact (A a c b e Ha Hc N). }
  rewrite <- E. destruct (Nat.ltb_spec i (length ds)); destruct (Nat.ltb_spec j (length ds)); [apply G; lia| |lia|apply G; lia].
  destruct (Nat.eq_dec i (j - length ds)) as [<-|N]; [rewrite B by lia; lra|apply G; lia].
Qed.
Print Assumptions C107_dumbbells_own_length_refuted.

(** The fractions for dumbbells: two beads each; in two dimensions also the
    volume in a layer as thick as the first bead. *)
Theorem C107_dumbbells_fraction rand lo hi dx theta phi fuel k sizes current ds k' r :
  (forall i, (i < 3)%nat -> lo i <= hi i) -> (forall a, In a sizes -> 0 < a) -> sizes <> [] ->
  randomise_dumbbells_said lo hi rand dx theta phi fuel k sizes current = Some (Ok (ds, k', r)) ->
  let L i := hi i - lo i in
  (0 < L 0%nat -> 0 < L 1%nat -> 0 < L 2%nat -> fractions r = [Fin (2 * total ball sizes / (L 0%nat * L 1%nat * L 2%nat))]) /\
  (0 < L 0%nat -> L 1%nat = 0 -> 0 < L 2%nat ->
    fractions r = [Fin (2 * total disc sizes / (L 0%nat * L 2%nat)); Fin (2 * total ball sizes / (L 0%nat * (2 * nth 0 sizes 0) * L 2%nat))]).
Proof.
  intros Hb Hs Ne H L. apply said_dumbbells in H. destruct H as [_ E]. unfold report_dumbbells in E. cbv zeta in E.
  destruct (min_element_distance _) as [m|]; cbn [bind] in E; [|discriminate]. injection E as <-. cbn [fractions].
  assert (D : forall i, (i < 3)%nat -> box_dimensions lo hi i = L i) by (intros i Hi; apply Rabs_pos_eq; pose proof (Hb i Hi); unfold L; lra).
  unfold fractions_dumbbells. rewrite !D by lia. rewrite sum_ball, sum_disc.
  assert (P0 : 0 < nth 0 sizes 0) by (apply Hs, nth_In; destruct sizes; [congruence|simpl; lia]).
  split.
  - intros H0 H1 H2. destruct (Req_EM_T (L 1%nat) 0) as [Z|_]; [lra|]. rewrite div_fin; [do 2 f_equal; field; lra|].
    apply Rgt_not_eq. apply Rmult_lt_0_compat; [apply Rmult_lt_0_compat|]; assumption.
  - intros H0 H1 H2. destruct (Req_EM_T (L 1%nat) 0) as [_|Z]; [|lra]. rewrite !div_fin.
    + f_equal; [f_equal; field; lra|]. do 2 f_equal. field. lra.
    + apply Rgt_not_eq. repeat apply Rmult_lt_0_compat; lra.
    + apply Rgt_not_eq. apply Rmult_lt_0_compat; assumption.
Qed.
Print Assumptions C107_dumbbells_fraction.

(** The unused test says whether a bead is free of all the spheres (touching is
    allowed), as the loops of the functions above do for spheres of one size. *)
Theorem C107_not_in_spheres position centres size bead :
  (not_in_spheres position centres size bead = true <-> forall c, In c centres -> bead + size <= dist3 position c) /\
  (not_in_spheres position centres size bead = true <-> count_close 0 position bead (map (fun c => (size, c)) centres) = 0%nat).
Proof.
  split.
  - rewrite not_in_free. unfold free, apart. split.
    + intros F c I. apply F. apply (in_map (fun c => (size, c))), I.
    + intros F r p I. apply in_map_iff in I. destruct I as [c [E I]]. injection E as <- <-. exact (F c I).
  - rewrite not_in_free, count_zero. reflexivity.
Qed.
Print Assumptions C107_not_in_spheres.

(** ** Examples *)
(** The two spheres of C39's example: 1 and 2 across, sqrt 75 apart. *)
Example C107_example_spheres : exists fuel ps r,
  randomise_spheres_said C39_lo C39_hi C39_rand fuel 0 [1; 2] [(1, v3 10 10 10)] = Some (Ok (ps, 9%nat, r)) /\
  (exists m, tells ps 1 r m) /\ fractions r = [Fin (total ball [1; 2] / 1000)].
Proof.
  destruct C39_example_spheres as [Hr [Hb [fuel [ps [H _]]]]].
  rewrite <- C107_spheres_same in H.
  destruct (randomise_spheres_said C39_lo C39_hi C39_rand fuel 0 [1; 2] [(1, v3 10 10 10)]) as [[[[qs k1] r]|e]|] eqn:E; cbn [unsaid] in H; try discriminate.
  injection H as -> ->. exists fuel, ps, r. split; [exact E|].
  assert (Hs : forall a, In a [1; 2] -> 0 < a) by (intros a [<-|[<-|[]]]; lra).
  split.
  - exact (C107_spheres _ _ _ _ _ _ _ _ _ _ Hr Hb Hs E).
  - destruct (C107_spheres_fraction _ _ _ _ _ _ _ _ _ _ Hb Hs E) as [F _]. unfold C39_lo, C39_hi in F. cbn [v3] in F.
    rewrite F by lra. do 2 f_equal. field.
Qed.
(** A dumbbell of length 3 with beads of radius 1: the number is 3. *)
Example C107_example_dumbbells : exists ds k' r,
  randomise_dumbbells_said C39_lo C39_hi C39_rand 3 (Fixed 0) (Fixed 0) 1 0 [1] [(1, v3 10 10 10)] = Some (Ok (ds, k', r)) /\
  exists m, tells (all_beads ds) 1 r m /\ m <= 3.
Proof.
  destruct C39_example_dumbbells as [ds [k' H]]. rewrite <- C107_dumbbells_same in H.
  destruct (randomise_dumbbells_said C39_lo C39_hi C39_rand 3 (Fixed 0) (Fixed 0) 1 0 [1] [(1, v3 10 10 10)]) as [[[[qs k1] r]|e]|] eqn:E; cbn [unsaid] in H; try discriminate.
  injection H as -> ->. exists ds, k', r. split; [reflexivity|].
  destruct (C107_dumbbells C39_rand C39_lo C39_hi 3 (Fixed 0) (Fixed 0) 1 0 [1] [(1, v3 10 10 10)] ds k' r) as [m [T Le]].
  - intros n. unfold C39_rand. destruct (Nat.ltb n 6); lra.
  - intros i Hi. idx3 Hi; cbn; lra.
  - intros a [<-|[]]; lra.
  - lra.
  - exact E.
  - exists m. split; [exact T|]. rewrite Rabs_pos_eq in Le by lra. exact Le.
Qed.
Example C107_example_not_in : not_in_spheres (v3 3 0 0) [v3 0 0 0; v3 6 0 0] 2 1 = true /\ not_in_spheres (v3 3 0 0) [v3 0 0 0; v3 5 0 0] 2 1 = false.
Proof.
  split.
  - apply (proj1 (C107_not_in_spheres _ _ _ _)). intros c [<-|[<-|[]]]; unfold dist3; cbn; apply C39_ge; lra.
  - destruct (not_in_spheres _ _ _ _) eqn:E; [|reflexivity]. exfalso.
    pose proof (proj1 (proj1 (C107_not_in_spheres _ _ _ _)) E (v3 5 0 0) ltac:(simpl; auto)) as K. clear E. rename K into E.
    unfold dist3 in E. cbn in E. pose proof (C39_lt ((3 - 5) * ((3 - 5) * 1) + (0 - 0) * ((0 - 0) * 1) + (0 - 0) * ((0 - 0) * 1)) 3 ltac:(lra) ltac:(lra)). lra.
Qed.
(** A dumbbell with touching beads. *)
Lemma short_dumbbell :
  exists ds k', randomise_dumbbells C39_rand C39_lo C39_hi 2 (Fixed 0) (Fixed 0) 1 0 [1] [(1, v3 10 10 10)] = Some (Ok (ds, k')).
Proof.
  unfold randomise_dumbbells. cbn [place_dumbbells place_dumbbell].
  assert (Z1 : count_both 0 (random_point_in_box C39_rand C39_lo C39_hi 0) 1 [(1, v3 10 10 10)] [] = 0%nat).
  { apply count_both_zero. split; [reflexivity|]. split; [|intros ? ? []]. intros r p [E|[]]. injection E as <- <-.
    unfold apart, dist3, random_point_in_box, C39_rand, C39_lo, C39_hi. cbn. apply C39_ge; lra. }
  rewrite Z1. cbn [Nat.eqb].
  set (b2 := vadd (random_point_in_box C39_rand C39_lo C39_hi 0) (vscal 2 (v3 (sin 0 * cos 0) (sin 0 * sin 0) (cos 0)))).
  assert (B0 : b2 0%nat = 0 /\ b2 1%nat = 0 /\ b2 2%nat = 2).
  { unfold b2, vadd, vscal, random_point_in_box, C39_rand, C39_lo, C39_hi. cbn. rewrite sin_0, cos_0. repeat split; ring. }
  destruct B0 as [B0 [B1 B2]].
  assert (S2 : forall n, second_bead C39_rand C39_lo C39_hi 2 (Fixed 0) (Fixed 0) (S n) (0 + 3) 0 (random_point_in_box C39_rand C39_lo C39_hi 0) 1 [(1, v3 10 10 10)] [] = (Some b2, 3%nat)).
  { intros n. cbn [second_bead draw]. fold b2.
    assert (I : inside_box C39_lo C39_hi b2 = true).
    { unfold inside_box. rewrite B0, B1, B2. unfold Rleb, C39_lo, C39_hi. cbn [v3].
      repeat match goal with |- context [Rle_dec ?a ?b] => destruct (Rle_dec a b); [|exfalso; lra] end. reflexivity. }
    rewrite I.
    assert (Z : count_both 0 b2 1 [(1, v3 10 10 10)] [] = 0%nat).
    { apply count_both_zero. split; [reflexivity|]. split; [|intros ? ? []]. intros r p [E|[]]. injection E as <- <-.
      unfold apart, dist3. rewrite B0, B1, B2. cbn [v3]. apply C39_ge; lra. }
    rewrite Z. reflexivity. }
  rewrite (S2 99%nat). clear S2. eexists. eexists.
  rewrite (some_distance_two _ 0 1); [reflexivity|simpl; lia|simpl; lia|].
  cbn [map app nth fst snd]. apply Rlt_le_trans with 2; [lra|]. unfold dist3, vadd, vsub, vscal. rewrite B0, B1, B2.
  unfold random_point_in_box, C39_rand, C39_lo, C39_hi. cbn. apply C39_ge; lra.
Qed.
Example C107_example_short : exists ds k' r,
  randomise_dumbbells_said C39_lo C39_hi C39_rand 2 (Fixed 0) (Fixed 0) 1 0 [1] [(1, v3 10 10 10)] = Some (Ok (ds, k', r)) /\ min_s r = Fin (Rabs 2 / 1).
Proof.
  destruct short_dumbbell as [ds [k' H]]. rewrite <- C107_dumbbells_same in H.
  destruct (randomise_dumbbells_said C39_lo C39_hi C39_rand 2 (Fixed 0) (Fixed 0) 1 0 [1] [(1, v3 10 10 10)]) as [[[[qs k1] r]|e]|] eqn:E; cbn [unsaid] in H; try discriminate.
  injection H as -> ->. exists ds, k', r. split; [reflexivity|].
  apply (C107_dumbbells_own_length_refuted C39_rand C39_lo C39_hi 2 (Fixed 0) (Fixed 0) 1 0 [1] [(1, v3 10 10 10)] ds k' r).
  - intros n. unfold C39_rand. destruct (Nat.ltb n 6); lra.
  - intros i Hi. idx3 Hi; cbn; lra.
  - intros a [<-|[]]; lra.
  - lra.
  - intros a b [<-|[]] [<-|[]]. rewrite Rabs_pos_eq; lra.
  - exact E.
Qed.
