(** C107: what the periodic placement of dumbbells says about the result. *)
From Coq Require Import Reals List Arith ZArith Bool Lia Lra.
From Verif Require Import Base Py Model_Mob Model_Close Model_Place Model_PlaceP Model_Report Model_ReportP Spec_Place Spec_PlaceP Proof_Place Proof_PlaceP
  Spec_Report Proof_Report Prop_Place Prop_PlaceP Prop_Report.
Import ListNotations.
Local Open Scope R_scope.

Theorem C107_periodic_same rand lo hi dx theta phi fuel k sizes current :
  unsaid (randomise_dumbbells_periodic_said lo hi rand dx theta phi fuel k sizes current) = randomise_dumbbells_periodic rand lo hi dx theta phi fuel k sizes current.
Proof.
  unfold randomise_dumbbells_periodic_said, randomise_dumbbells_periodic. destruct (places_periodic _ _ _ _ _ _ _ _ _ _ _) as [[ds k']|]; [|reflexivity].
  cbv zeta. unfold report_periodic, report_dumbbells. rewrite !map_map. set (b := map _ ds ++ map _ ds). destruct (some_distance b) eqn:E.
  - destruct (proj2 (min_exists b) E) as [m ->]. reflexivity.
  - rewrite (min_raise b E). reflexivity.
Qed.
Print Assumptions C107_periodic_same.

Lemma said_periodic rand lo hi dx theta phi fuel k sizes current ds k' r p :
  randomise_dumbbells_periodic_said lo hi rand dx theta phi fuel k sizes current = Some (Ok (ds, k', (r, p))) ->
  randomise_dumbbells_periodic rand lo hi dx theta phi fuel k sizes current = Some (Ok (ds, k')) /\
  report_dumbbells lo hi sizes (map fst ds) = Ok r /\ p = mean_pitch (map snd (map fst ds)).
Proof.
  intros H. split; [rewrite <- C107_periodic_same, H; reflexivity|].
  unfold randomise_dumbbells_periodic_said in H. destruct (places_periodic _ _ _ _ _ _ _ _ _ _ _) as [[qs k1]|]; [|discriminate].
  unfold report_periodic in H. destruct (report_dumbbells lo hi sizes (map fst qs)) eqn:E; cbn in H; [|discriminate].
  injection H as <- <- <- <-. split; [exact E|reflexivity].
Qed.

(** The angle in degrees between a direction, taken either way, and the x axis *)
Definition angle_to_x (d : vec) (a : R) : Prop := 0 <= a <= 90 /\ cos (a * PI / 180) * dist3 d (v3 0 0 0) = Rabs (d 0%nat).
Lemma pitch_angle d : 0 < dist3 d (v3 0 0 0) -> angle_to_x d (pitch d).
Proof.
  intros H. assert (N : norm d = dist3 d (v3 0 0 0)).
  { rewrite <- norm_dist. unfold norm, vsub. cbn [v3]. f_equal. ring. }
  set (u := Rabs (d 0%nat) / dist3 d (v3 0 0 0)).
  assert (U : Rabs (d 0%nat / norm d * 1 + d 1%nat / norm d * 0 + d 2%nat / norm d * 0) = u).
  { replace (_ + _ + _) with (d 0%nat / norm d) by ring. rewrite N. unfold u, Rdiv. rewrite Rabs_mult, (Rabs_pos_eq (/ _)); [reflexivity|].
    apply Rlt_le, Rinv_0_lt_compat, H. }
  assert (Le : Rabs (d 0%nat) <= dist3 d (v3 0 0 0)).
  { apply (dist_ge _ _ 0%nat); [lia|]. cbn [v3]. rewrite Rminus_0_r. lra. }
  assert (U01 : 0 <= u <= 1).
  { unfold u. split.
    - apply Rmult_le_pos; [apply Rabs_pos|]. apply Rlt_le, Rinv_0_lt_compat, H.
    - apply Rmult_le_reg_r with (dist3 d (v3 0 0 0)); [exact H|]. unfold Rdiv. rewrite Rmult_assoc, Rinv_l by lra. lra. }
  unfold angle_to_x, pitch. rewrite U. pose proof PI_RGT_0 as Hpi. split.
  - pose proof (acos_bound u). assert (acos u <= PI / 2).
    { apply Rnot_lt_le. intros K. pose proof (cos_lt_0 (acos u) K ltac:(lra)) as C. rewrite cos_acos in C by lra. lra. }
    split.
    + apply Rmult_le_pos; [|apply Rlt_le, Rinv_0_lt_compat, Hpi]. lra.
    + apply Rmult_le_reg_r with PI; [exact Hpi|]. unfold Rdiv. rewrite Rmult_assoc, Rinv_l by lra. lra.
  - replace (acos u * 180 / PI * PI / 180) with (acos u) by (field; lra). rewrite cos_acos by lra. unfold u. field. lra.
Qed.

(** The number of the closest pair is the smallest distance, other than zero,
    between beads as they lie in the file, over the first radius; the two beads
    of a dumbbell count.  The mean pitch is the mean of the angles of the
    dumbbells to the x axis. *)
Theorem C107_periodic rand lo hi dx theta phi fuel k sizes current ds k' r p :
  (forall n, 0 <= rand n < 1) -> lo 0%nat < hi 0%nat /\ lo 1%nat <= hi 1%nat /\ lo 2%nat < hi 2%nat -> (forall a, In a sizes -> 0 < a) -> dx <> 0 ->
  randomise_dumbbells_periodic_said lo hi rand dx theta phi fuel k sizes current = Some (Ok (ds, k', (r, p))) ->
  let beads := all_beads (map fst ds) in
  (exists m, min_s r = Fin (m / nth 0 sizes 0) /\ m <= Rabs dx /\
     (exists i j, (i < length beads)%nat /\ (j < length beads)%nat /\ 0 < m /\ dist3 beads.[i] beads.[j] = m) /\
     (forall i j, (i < length beads)%nat -> (j < length beads)%nat -> dist3 beads.[i] beads.[j] = 0 \/ m <= dist3 beads.[i] beads.[j])) /\
  (exists angles, length angles = length ds /\ p = total (fun a => a) angles / INR (length ds) /\
     forall i, (i < length ds)%nat -> angle_to_x (snd (fst (nth i ds (v3 0 0 0, v3 0 0 0, false)))) (nth i angles 0)).
Proof.
  intros Hr Hb Hs Hdx H beads. apply said_periodic in H. destruct H as [H [E Hp]].
  destruct (C79_placed rand lo hi dx theta phi fuel k sizes current ds k' Hr Hb H) as [L [_ [_ [B _]]]].
  assert (Pdx : 0 < Rabs dx) by (apply Rabs_pos_lt, Hdx).
  unfold report_dumbbells in E. cbv zeta in E. rewrite bead_list in E. fold beads in E.
  destruct (min_element_distance beads) as [m|] eqn:Em; cbn [bind] in E; [|discriminate]. injection E as <-. cbn [min_s].
  assert (Ne : (0 < length ds)%nat) by (destruct ds; [exfalso; cbn in Em; discriminate|simpl; lia]).
  apply min_spec in Em. destruct Em as [A C]. split.
  - exists m. split; [apply div_fin; pose proof (Hs (nth 0 sizes 0) ltac:(apply nth_In; lia)); lra|]. split; [|split].
    + assert (Q : dist3 beads.[0%nat] beads.[length ds] = Rabs dx).
      { unfold beads. rewrite !beads_nth by (rewrite map_length; lia). rewrite map_length.
        destruct (Nat.ltb_spec 0 (length ds)) as [_|]; [|lia]. destruct (Nat.ltb_spec (length ds) (length ds)) as [|_]; [lia|].
        rewrite Nat.sub_diag. rewrite <- (B 0%nat Ne). change d0 with (fst (d0, false)). rewrite map_nth. reflexivity. }
      rewrite <- Q. apply C; [unfold beads; rewrite beads_length, map_length; lia|unfold beads; rewrite beads_length, map_length; lia|rewrite Q; lra].
    + destruct A as [i [j [Hi [Hj [N ->]]]]]. exists i, j. split; [exact Hi|]. split; [exact Hj|]. split; [|reflexivity].
      assert (0 <= dist3 beads.[i] beads.[j]) by apply sqrt_pos. lra.
    + intros i j Hi Hj. destruct (Req_EM_T (dist3 beads.[i] beads.[j]) 0) as [Z|N]; [left; exact Z|right; apply C; assumption].
  - exists (map pitch (map snd (map fst ds))). split; [rewrite !map_length; reflexivity|]. split.
    + rewrite Hp. unfold mean_pitch. rewrite !map_length. f_equal.
      rewrite <- (Rmult_1_l (np_sum _)). rewrite <- (map_id (map pitch _)), (sum_total (fun a => a)), map_id. apply total_ext. intros; ring.
    + intros i Hi. rewrite (nth_indep _ _ (pitch (snd (fst (v3 0 0 0, v3 0 0 0, false))))) by (rewrite !map_length; exact Hi).
      rewrite !map_nth. apply pitch_angle.
      rewrite <- (B i Hi) in Pdx. eapply Rlt_le_trans; [exact Pdx|]. right. apply dist_ext3. intros c Hc. unfold bead. idx3 Hc; cbn [v3]; field.
Qed.
Print Assumptions C107_periodic.

(** With both angles given the mean pitch is that of these angles. *)
Theorem C107_pitch_given rand lo hi dx t f fuel k sizes current ds k' r p :
  (forall n, 0 <= rand n < 1) -> lo 0%nat < hi 0%nat /\ lo 1%nat <= hi 1%nat /\ lo 2%nat < hi 2%nat -> dx <> 0 ->
  randomise_dumbbells_periodic_said lo hi rand dx (Fixed t) (Fixed f) fuel k sizes current = Some (Ok (ds, k', (r, p))) ->
  0 <= p <= 90 /\ cos (p * PI / 180) = Rabs (sin t * cos f).
Proof.
  intros Hr Hb Hdx H. apply said_periodic in H. destruct H as [H [E ->]].
  destruct (C79_placed rand lo hi dx (Fixed t) (Fixed f) fuel k sizes current ds k' Hr Hb H) as [L [_ [D [B _]]]].
  assert (Ne : (0 < length ds)%nat) by (destruct ds; [exfalso; cbn in E; discriminate|simpl; lia]).
  assert (Pdx : 0 < Rabs dx) by (apply Rabs_pos_lt, Hdx).
  set (e := fun n => dx * v3 (sin t * cos f) (sin t * sin f) (cos t) n).
  assert (Same : forall x, In x ds -> pitch (snd (fst x)) = pitch e).
  { intros x Hx. destruct (In_nth _ _ (v3 0 0 0, v3 0 0 0, false) Hx) as [i [Hi Ei]]. destruct (D i Hi) as [t' [f' [-> [-> K]]]]. rewrite Ei in K.
    unfold pitch, norm. rewrite !K. reflexivity. }
  assert (M : mean_pitch (map snd (map fst ds)) = pitch e).
  { unfold mean_pitch. rewrite !map_length.
    assert (S : np_sum (map pitch (map snd (map fst ds))) = INR (length ds) * pitch e).
    { clear - Same. unfold np_sum. induction ds as [|x l IH]; [cbn; ring|]. cbn [map fold_left length]. rewrite fold_plus, IH by (intros y Hy; apply Same; right; exact Hy).
      rewrite (Same x (or_introl eq_refl)), S_INR. ring. }
    rewrite S. field. apply not_0_INR. lia. }
  rewrite M.
  assert (Ln : dist3 e (v3 0 0 0) = Rabs dx).
  { unfold dist3, e. cbn [v3]. replace (_ + _ + _) with (dx * dx * (sin t * cos f * (sin t * cos f) + sin t * sin f * (sin t * sin f) + cos t * cos t)) by ring.
    rewrite direction_unit, Rmult_1_r. apply sqrt_Rsqr_abs. }
  destruct (pitch_angle e) as [A C]; [rewrite Ln; exact Pdx|]. split; [exact A|].
  rewrite Ln in C. unfold e in C at 2. cbn [v3] in C. rewrite Rabs_mult in C. apply Rmult_eq_reg_r with (Rabs dx); [|lra]. rewrite C. ring.
Qed.
Print Assumptions C107_pitch_given.

(** (Finding) Copies of the box are not looked at: in this box the two dumbbells
    are 3 apart across the boundary, and the number said is 5. *)
Definition C107_randP (n : nat) : R := if Nat.eqb n 3 then 17 / 20 else 0.
Lemma no_mod x L : 0 <= x < L -> rmod x L = x.
Proof.
  intros H. unfold rmod. pose proof (base_Int_part (x / L)) as [I1 I2].
  assert (Q : 0 <= x / L < 1).
  { split; [apply Rmult_le_pos; [lra|apply Rlt_le, Rinv_0_lt_compat; lra]|]. apply Rmult_lt_reg_r with L; [lra|]. unfold Rdiv. rewrite Rmult_assoc, Rinv_l by lra. lra. }
  assert (Int_part (x / L) = 0%Z) as ->; [|ring]. assert (-1 < IZR (Int_part (x / L)) < 1) as [J1 J2] by lra. apply lt_IZR in J1, J2. lia.
Qed.
Theorem C107_periodic_images_refuted :
  (forall n, 0 <= C107_randP n < 1) /\
  exists ds k' r p x, randomise_dumbbells_periodic_said C79_lo C79_hi' C107_randP 5 (Fixed 0) (Fixed 0) 1 0 [1; 1] [] = Some (Ok (ds, k', (r, p))) /\
    min_s r = Fin x /\ 5 <= x /\
    dist3 (bead false (fst (nth 0 ds (v3 0 0 0, v3 0 0 0, false)))) (image C79_lo C79_hi' (bead false (fst (nth 1 ds (v3 0 0 0, v3 0 0 0, false)))) (-1) 0) = 3.
Proof.
  assert (R0 : forall n : nat, 0 <= C107_randP n < 1) by (intros n; unfold C107_randP; destruct (Nat.eqb n 3); lra).
  split; [exact R0|].
  set (D := v3 (sin 0 * cos 0) (sin 0 * sin 0) (cos 0)).
  set (p1 := random_point_in_box C107_randP C79_lo C79_hi' 0). set (p2 := vadd p1 (vscal 5 D)).
  set (q1 := random_point_in_box C107_randP C79_lo C79_hi' 3). set (q2 := vadd q1 (vscal 5 D)).
  assert (P1 : forall i, (i < 3)%nat -> p1 i = v3 0 0 0 i) by (intros i Hi; unfold p1, random_point_in_box, C107_randP, C79_lo, C79_hi'; idx3 Hi; cbn [v3 Nat.eqb Nat.add]; field).
  assert (P2 : forall i, (i < 3)%nat -> p2 i = v3 0 0 5 i) by (intros i Hi; unfold p2, vadd, vscal, D; rewrite P1, sin_0, cos_0 by exact Hi; idx3 Hi; cbn [v3]; field).
  assert (Q1 : forall i, (i < 3)%nat -> q1 i = v3 17 0 0 i) by (intros i Hi; unfold q1, random_point_in_box, C107_randP, C79_lo, C79_hi'; idx3 Hi; cbn [v3 Nat.eqb Nat.add]; field).
  assert (Q2 : forall i, (i < 3)%nat -> q2 i = v3 17 0 5 i) by (intros i Hi; unfold q2, vadd, vscal, D; rewrite Q1, sin_0, cos_0 by exact Hi; idx3 Hi; cbn [v3]; field).
  assert (G : forall (u v : vec) m n, u 0%nat = 17 -> v 0%nat = 0 -> (-1 <= m <= 1)%Z -> apart 1 u 1 (image C79_lo C79_hi' v m n)).
  { intros u v m n Hu Hv Hm. unfold apart. apply Rle_trans with 3; [lra|]. apply (dist_ge _ _ 0%nat); [lia|]. unfold image, C79_lo, C79_hi'. cbn [v3]. rewrite Hu, Hv.
    assert (m = -1 \/ m = 0 \/ m = 1)%Z as [->|[->| ->]] by lia; unfold Rabs; destruct (Rcase_abs _); lra. }
  assert (HP : exists ds k', places_periodic C107_randP C79_lo C79_hi' 5 (Fixed 0) (Fixed 0) 1 0 [1; 1] [] [] = Some (ds, k')
    /\ map fst ds = [(wrap C79_lo C79_hi' (vscal (1 / 2) (vadd p1 p2)), vsub p2 p1); (wrap C79_lo C79_hi' (vscal (1 / 2) (vadd q1 q2)), vsub q2 q1)]).
  { eexists. eexists. split.
    - cbn [places_periodic].
      rewrite (C79_place_now _ _ _ _ _ _ 0); fold D p1 p2; try (intros ? ? ? ? ? ? []; fail).
      rewrite (C79_place_now _ _ _ _ _ _ 0); cbn [Nat.add]; fold D q1 q2; try (intros ? ? ? ? ? ? []; fail); [reflexivity| |].
      all: intros r' p' m n Hm Hn [E|[E|[]]]; injection E as <- <-; apply G; try assumption;
        first [rewrite P1 by lia; reflexivity | rewrite P2 by lia; reflexivity | rewrite Q1 by lia; reflexivity | rewrite Q2 by lia; reflexivity].
    - reflexivity. }
  destruct HP as [ds [k' [HP HM]]].
  assert (Hrun : randomise_dumbbells_periodic C107_randP C79_lo C79_hi' 5 (Fixed 0) (Fixed 0) 1 0 [1; 1] [] = Some (Ok (ds, k'))).
  { apply C79_returns; [lra|discriminate|exact HP]. }
  rewrite <- C107_periodic_same in Hrun.
  destruct (randomise_dumbbells_periodic_said C79_lo C79_hi' C107_randP 5 (Fixed 0) (Fixed 0) 1 0 [1; 1] []) as [[[[ds1 k1] [r p]]|e]|] eqn:E; cbn [unsaid] in Hrun; try discriminate.
  injection Hrun as -> ->. exists ds, k', r, p.
  assert (Bx : C79_lo 0%nat < C79_hi' 0%nat /\ C79_lo 1%nat <= C79_hi' 1%nat /\ C79_lo 2%nat < C79_hi' 2%nat) by (unfold C79_lo, C79_hi'; cbn [v3]; lra).
  assert (S1 : forall a, In a [1; 1] -> 0 < a) by (intros a [<-|[<-|[]]]; lra).
  assert (N5 : 5 <> 0) by lra.
  destruct (C107_periodic _ _ _ _ _ _ _ _ _ _ _ _ _ _ R0 Bx S1 N5 E) as [[m [Em [_ [[i [j [Hi [Hj [Hm Ed]]]]] _]]]] _].
  destruct ds as [|[x1 f1] [|[x2 f2] [|]]]; try discriminate. cbn [map fst] in HM. injection HM as -> ->.
  set (w1 := wrap C79_lo C79_hi' (vscal (1 / 2) (vadd p1 p2))) in *. set (w2 := wrap C79_lo C79_hi' (vscal (1 / 2) (vadd q1 q2))) in *.
  assert (W1 : forall i, (i < 3)%nat -> w1 i = v3 0 0 (5 / 2) i).
  { intros c Hc. unfold w1, wrap, Dbox, C79_lo, C79_hi', vsub. fold (v3 0 0 0). unfold vscal, vadd. rewrite P1, P2 by exact Hc.
    idx3 Hc; cbn [v3]; rewrite no_mod by lra; field. }
  assert (W2 : forall i, (i < 3)%nat -> w2 i = v3 17 0 (5 / 2) i).
  { intros c Hc. unfold w2, wrap, Dbox, C79_lo, C79_hi', vsub. unfold vscal, vadd. rewrite Q1, Q2 by exact Hc.
    idx3 Hc; cbn [v3]; rewrite no_mod by lra; field. }
  assert (BE : forall b i, (i < 3)%nat -> bead b (w1, vsub p2 p1) i = v3 0 0 (if b then 5 else 0) i /\ bead b (w2, vsub q2 q1) i = v3 17 0 (if b then 5 else 0) i).
  { intros b c Hc. unfold bead, vsub. cbn [fst snd]. rewrite W1, W2, P1, P2, Q1, Q2 by exact Hc. idx3 Hc; cbn [v3]; destruct b; split; field. }
  exists m. split; [reflexivity|]. split; [rewrite Em; cbn [nth]; f_equal; field|]. split.
  - rewrite <- Ed. rewrite <- Ed in Hm. clear Ed. cbn [all_beads map app fst length] in Hi, Hj.
    assert (Z : forall u v : vec, (forall c, (c < 3)%nat -> u c = v c) -> 0 < dist3 u v -> False).
    { intros u v K Hd. rewrite (dist_ext3 u v u u) in Hd by (intros c Hc; rewrite (K c Hc); reflexivity). rewrite dist_self in Hd. lra. }
    destruct i as [|[|[|[|i]]]]; [| | | |lia]; destruct j as [|[|[|[|j]]]]; try lia; cbn [all_beads map app fst nth] in Hm |- *;
      try (exfalso; exact (Z _ _ (fun c _ => eq_refl) Hm));
      first [ apply (dist_ge _ _ 0%nat); [lia|]; rewrite ?(proj1 (BE _ 0%nat ltac:(lia))), ?(proj2 (BE _ 0%nat ltac:(lia))); cbn [v3]; unfold Rabs; destruct (Rcase_abs _); lra
            | apply (dist_ge _ _ 2%nat); [lia|]; rewrite ?(proj1 (BE _ 2%nat ltac:(lia))), ?(proj2 (BE _ 2%nat ltac:(lia))); cbn [v3]; unfold Rabs; destruct (Rcase_abs _); lra ].
  - cbn [nth fst]. unfold image, C79_lo, C79_hi', dist3. cbn [v3]. rewrite !(proj1 (BE _ 0%nat ltac:(lia))), !(proj2 (BE _ 0%nat ltac:(lia))), !(proj1 (BE _ 1%nat ltac:(lia))), !(proj2 (BE _ 1%nat ltac:(lia))), !(proj1 (BE _ 2%nat ltac:(lia))), !(proj2 (BE _ 2%nat ltac:(lia))).
    cbn [v3]. replace (_ + _ + _) with (3 * 3) by ring. apply sqrt_square. lra.
Qed.
Print Assumptions C107_periodic_images_refuted.

(** ** Example: in that run all dumbbells are upright, and the mean pitch is 90. *)
Example C107_example_pitch : exists ds k' r p,
  randomise_dumbbells_periodic_said C79_lo C79_hi' C107_randP 5 (Fixed 0) (Fixed 0) 1 0 [1; 1] [] = Some (Ok (ds, k', (r, p))) /\
  0 <= p <= 90 /\ cos (p * PI / 180) = 0.
Proof.
  destruct C107_periodic_images_refuted as [R0 [ds [k' [r [p [x [E _]]]]]]]. exists ds, k', r, p. split; [exact E|].
  destruct (C107_pitch_given C107_randP C79_lo C79_hi' 5 0 0 1 0 [1; 1] [] ds k' r p R0) as [A B]; [unfold C79_lo, C79_hi'; cbn [v3]; lra|lra|exact E|].
  split; [exact A|]. rewrite B, sin_0, Rmult_0_l. apply Rabs_R0.
Qed.
