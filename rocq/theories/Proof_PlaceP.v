From Coq Require Import Reals List Arith ZArith Bool Lia Lra.
From Verif Require Import Base Py Model_Mob Model_Close Model_Place Model_PlaceP Spec_Place Spec_PlaceP Proof_Place Proof_Periodic2.
Import ListNotations.
Local Open Scope R_scope.

Lemma dist_ext3 p q p' q' : (forall i, (i < 3)%nat -> p i - q i = p' i - q' i) -> dist3 p q = dist3 p' q'.
Proof. intros E. unfold dist3. rewrite !E by lia. reflexivity. Qed.
Lemma dist_ge p q i x : (i < 3)%nat -> x <= Rabs (p i - q i) -> x <= dist3 p q.
Proof.
  intros Hi Hx. apply Rle_trans with (1 := Hx). unfold dist3. rewrite <- sqrt_Rsqr_abs. apply sqrt_le_1_alt. unfold Rsqr.
  pose proof (pow2_ge_0 (p 0%nat - q 0%nat)). pose proof (pow2_ge_0 (p 1%nat - q 1%nat)). pose proof (pow2_ge_0 (p 2%nat - q 2%nat)).
  idx3 Hi; nra.
Qed.

Section P.
Variables lo hi : vec.
Notation D := (Dbox lo hi).
Notation image := (image lo hi).

Definition freeI (r : R) (p : vec) (l : list (R * vec)) : Prop :=
  forall r' p' m n, (-1 <= m <= 1)%Z -> (-1 <= n <= 1)%Z -> In (r', p') l -> apart r p r' (image p' m n).
Definition freeD (r : R) (p dxy : vec) (l : list (R * vec)) : Prop :=
  forall r' p', In (r', p') l -> apart r p r' (vadd p' dxy).

Lemma overlapsP_false p q r r' d : overlaps_periodic p q r r' d = false <-> apart r p r' (vadd q d).
Proof.
  unfold overlaps_periodic, apart, Rltb. replace (norm (vsub (vsub p q) d)) with (dist3 p (vadd q d)).
  - destruct (Rlt_dec _ _); split; intros; try discriminate; try reflexivity; lra.
  - unfold dist3, norm, vsub, vadd. f_equal. ring.
Qed.
Lemma countP_mono c p r d l : (c <= count_periodic c p r d l)%nat.
Proof.
  revert c. induction l as [|s l IH]; intros c; [apply Nat.le_refl|]. unfold count_periodic in *. cbn [fold_left].
  destruct (overlaps_periodic _ _ _ _ _); [|apply IH]. etransitivity; [|apply IH]. lia.
Qed.
Lemma countP_zero c p r d l : count_periodic c p r d l = 0%nat <-> c = 0%nat /\ freeD r p d l.
Proof.
  revert c. induction l as [|[r' q] l IH]; intros c; [split; [intros E; split; [exact E|intros r' q []]|intros [E _]; exact E]|].
  unfold count_periodic in *. cbn [fold_left fst snd]. rewrite IH. destruct (overlaps_periodic p q r r' d) eqn:E.
  - split; [intros [E0 _]; lia|]. intros [_ F]. assert (A : apart r p r' (vadd q d)) by (apply F; left; reflexivity).
    apply overlapsP_false in A. congruence.
  - apply overlapsP_false in E. split; intros [-> F]; (split; [reflexivity|]).
    + intros r2 p2 [I|I]; [injection I as <- <-; exact E|exact (F _ _ I)].
    + intros r2 p2 I. apply F. right. exact I.
Qed.
Lemma count_list_zero c p r cur beads ims :
  fold_left (fun c dxy => let c1 := count_periodic c p r dxy cur in
     if Nat.eqb c1 0 then count_periodic c1 p r dxy beads else c1) ims c = 0%nat <->
  c = 0%nat /\ forall d, In d ims -> freeD r p d cur /\ freeD r p d beads.
Proof.
  revert c. induction ims as [|d ims IH]; intros c; cbn [fold_left]; [split; [intros E; split; [exact E|intros d []]|intros [E _]; exact E]|].
  rewrite IH. clear IH. cbv zeta. destruct (Nat.eqb_spec (count_periodic c p r d cur) 0) as [E|E].
  - rewrite E, countP_zero. apply countP_zero in E. destruct E as [-> F]. split.
    + intros [[_ G] H1]. split; [reflexivity|]. intros e [<-|I]; [split; assumption|exact (H1 e I)].
    + intros [_ H1]. split; [split; [reflexivity|apply (H1 d (or_introl eq_refl))]|intros e I; apply H1; right; exact I].
  - split; [intros [E0 _]; contradiction|]. intros [-> H1]. exfalso. apply E. apply countP_zero. split; [reflexivity|]. apply (H1 d (or_introl eq_refl)).
Qed.
Lemma in_images d : In d (images lo hi) <-> exists m n, (-1 <= m <= 1)%Z /\ (-1 <= n <= 1)%Z /\ d = v3 (IZR m * D 0%nat) 0 (IZR n * D 2%nat).
Proof.
  unfold images. rewrite in_flat_map. split.
  - intros [m [Im Id]]. apply in_map_iff in Id. destruct Id as [n [<- In_]].
    assert (Z3 : forall x, In x [-1; 0; 1] -> exists z, (-1 <= z <= 1)%Z /\ x = IZR z).
    { intros x [<-|[<-|[<-|[]]]]; [exists (-1)%Z|exists 0%Z|exists 1%Z]; (split; [lia|reflexivity]). }
    destruct (Z3 m Im) as [m' [Hm ->]]. destruct (Z3 n In_) as [n' [Hn ->]]. exists m', n'. auto.
  - intros [m [n [Hm [Hn ->]]]].
    assert (Z3 : forall z, (-1 <= z <= 1)%Z -> In (IZR z) [-1; 0; 1]).
    { intros z Hz. assert (z = -1 \/ z = 0 \/ z = 1)%Z as [->|[->| ->]] by lia; [left|right; left|right; right; left]; reflexivity. }
    exists (IZR m). split; [apply Z3, Hm|]. apply in_map_iff. exists (IZR n). split; [reflexivity|apply Z3, Hn].
Qed.
Lemma apart_image r p r' p' m n : apart r p r' (vadd p' (v3 (IZR m * D 0%nat) 0 (IZR n * D 2%nat))) <-> apart r p r' (image p' m n).
Proof.
  unfold apart. rewrite (dist_ext3 p (vadd p' _) p (image p' m n)); [tauto|]. intros i Hi. unfold vadd, Spec_PlaceP.image, Dbox, vsub. idx3 Hi; cbn [v3]; ring.
Qed.
Lemma count_images_zero c p r cur beads : count_images lo hi c p r cur beads = 0%nat <-> c = 0%nat /\ freeI r p cur /\ freeI r p beads.
Proof.
  unfold count_images. rewrite count_list_zero. split; intros [-> F]; (split; [reflexivity|]).
  - assert (G : forall m n, (-1 <= m <= 1)%Z -> (-1 <= n <= 1)%Z -> In (v3 (IZR m * D 0%nat) 0 (IZR n * D 2%nat)) (images lo hi)).
    { intros m n Hm Hn. apply in_images. exists m, n. auto. }
    split; intros r' p' m n Hm Hn I; apply apart_image; destruct (F _ (G m n Hm Hn)) as [F1 F2]; [apply F1|apply F2]; exact I.
  - intros d Id. apply in_images in Id. destruct Id as [m [n [Hm [Hn ->]]]]. destruct F as [F1 F2].
    split; intros r' p' I; apply apart_image; [apply F1|apply F2]; assumption.
Qed.

Variable rand : nat -> R.
Hypothesis Hrand : forall k, 0 <= rand k < 1.
Hypothesis Hbox : forall i, (i < 3)%nat -> lo i <= hi i.
Variables (dx : R) (theta phi : angle).
Notation point := (random_point_in_box rand lo hi).

Definition step (b1 b2 : vec) : Prop := exists t f, angle_ok theta t /\ angle_ok phi f /\ forall i, b2 i = b1 i + dx * direction t f i.
Lemma secondP_props tries : forall k c b1 r cur beads b2 k', second_periodic rand lo hi dx theta phi tries k c b1 r cur beads = (Some b2, k') ->
  c = 0%nat /\ freeI r b2 cur /\ freeI r b2 beads /\ step b1 b2.
Proof.
  induction tries as [|tries IH]; intros k c b1 r cur beads b2 k' HS; [discriminate|]. cbn [second_periodic] in HS.
  destruct (draw rand theta (PI * 2) k) as [t k1] eqn:Dt. destruct (draw rand phi PI k1) as [f k2] eqn:Df.
  pose proof (draw_ok rand theta (PI * 2) k) as Ot. rewrite Dt in Ot. pose proof (draw_ok rand phi PI k1) as Of. rewrite Df in Of. cbn [fst] in *.
  destruct (Nat.eqb_spec (count_images lo hi c (vadd b1 (vscal dx (v3 (sin t * cos f) (sin t * sin f) (cos t)))) r cur beads) 0) as [E|E].
  - injection HS as <- <-. apply count_images_zero in E. destruct E as [E0 [E1 E2]]. split; [exact E0|].
    split; [exact E1|]. split; [exact E2|]. exists t, f. split; [exact Ot|]. split; [exact Of|]. reflexivity.
  - apply IH in HS. destruct HS as [HS _]. contradiction.
Qed.
Lemma secondP_wasted tries k c b1 r cur beads : c <> 0%nat -> fst (second_periodic rand lo hi dx theta phi tries k c b1 r cur beads) = None.
Proof.
  intros Hc. destruct (second_periodic rand lo hi dx theta phi tries k c b1 r cur beads) as [[b2|] k'] eqn:E; [|reflexivity].
  apply secondP_props in E. destruct E as [E _]. contradiction.
Qed.

Definition goodP (r : R) (b1 b2 : vec) (l : list (R * vec)) : Prop :=
  in_box lo hi b1 /\ freeI r b1 l /\ freeI r b2 l /\ step b1 b2.
Lemma freeI_app r p l m : freeI r p (l ++ m) <-> freeI r p l /\ freeI r p m.
Proof.
  split.
  - intros F. split; intros r' p' a b Ha Hb I; apply F; try assumption; apply in_or_app; auto.
  - intros [F G] r' p' a b Ha Hb I. apply in_app_or in I. destruct I as [I|I]; [apply F|apply G]; assumption.
Qed.
Lemma place_periodic_good fuel : forall k r cur beads b1 b2 k', place_periodic rand lo hi dx theta phi fuel k r cur beads = Some (b1, b2, k') ->
  goodP r b1 b2 (cur ++ beads).
Proof.
  induction fuel as [|fuel IH]; intros k r cur beads b1 b2 k' HS; [discriminate|]. cbn [place_periodic] in HS.
  destruct (Nat.eqb_spec (count_images lo hi 0 (point k) r cur beads) 0) as [E|E]; [|apply IH in HS; exact HS].
  destruct (second_periodic _ _ _ _ _ _ 100 _ _ _ _ _ _) as [[b|] k1] eqn:S2; [|apply IH in HS; exact HS].
  injection HS as <- <- <-. apply count_images_zero in E. destruct E as [_ [E1 E2]].
  apply secondP_props in S2. destruct S2 as [_ [F1 [F2 X]]].
  split; [apply point_in; assumption|]. rewrite !freeI_app. auto.
Qed.

Definition d0 : vec * vec := (v3 0 0 0, v3 0 0 0).
Definition end_ (b : bool) (p : vec * vec) : vec := if b then snd p else fst p.
Lemma places_periodic_good fuel sizes : forall k cur beads ds k', places_periodic rand lo hi dx theta phi fuel k sizes cur beads = Some (ds, k') ->
  exists raw, length raw = length sizes /\
  map (fun d => fst d) ds = map (fun p => (wrap lo hi (vscal (1 / 2) (vadd (fst p) (snd p))), vsub (snd p) (fst p))) raw /\
  (forall i, (i < length raw)%nat -> goodP (nth i sizes 0) (fst (nth i raw d0)) (snd (nth i raw d0)) (cur ++ beads)) /\
  (forall i j, (i < j)%nat -> (j < length raw)%nat -> forall bi bj m n, (-1 <= m <= 1)%Z -> (-1 <= n <= 1)%Z ->
     apart (nth j sizes 0) (end_ bj (nth j raw d0)) (nth i sizes 0) (image (end_ bi (nth i raw d0)) m n)).
Proof.
  induction sizes as [|r sizes IH]; intros k cur beads ds k' HS; cbn [places_periodic] in HS.
  { injection HS as <- <-. exists []. split; [reflexivity|]. split; [reflexivity|]. split; [intros i Hi|intros i j Hi Hj]; simpl in *; lia. }
  destruct (place_periodic rand lo hi dx theta phi fuel k r cur beads) as [[[b1 b2] k1]|] eqn:E; [|discriminate].
  destruct (places_periodic rand lo hi dx theta phi fuel k1 sizes cur (beads ++ [(r, b1); (r, b2)])) as [[qs k2]|] eqn:E2; [|discriminate].
  injection HS as <- <-. apply place_periodic_good in E.
  apply IH in E2. destruct E2 as [raw [L [M [A B]]]]. exists ((b1, b2) :: raw). split; [simpl; lia|].
  split; [cbn [map fst snd]; rewrite M; reflexivity|]. split.
  - intros [|i] Hi; cbn [nth length] in *; [exact E|].
    destruct (A i ltac:(lia)) as [A1 [A2 [A3 A4]]]. rewrite app_assoc, freeI_app in A2, A3. split; [exact A1|]. tauto.
  - intros [|i] [|j] Hij Hj bi bj m n Hm Hn; cbn [nth length] in *; try lia.
    + destruct (A j ltac:(lia)) as [_ [A2 [A3 _]]].
      assert (I : In (r, end_ bi (b1, b2)) (cur ++ beads ++ [(r, b1); (r, b2)])).
      { do 2 (apply in_or_app; right). destruct bi; simpl; auto. }
      destruct bj; [apply A3|apply A2]; assumption.
    + apply B; try assumption; lia.
Qed.

Lemma closest_ge b1 b2 beads q : q <= 1000 ->
  (forall r p d, In (r, p) beads -> In d (images lo hi) -> q <= dist3 b1 (vadd p d) /\ q <= dist3 b2 (vadd p d)) -> q <= closest lo hi b1 b2 beads.
Proof.
  intros Hq F. unfold closest.
  assert (G : forall s, In s (firstn (Nat.div2 (length beads)) beads) -> In s beads).
  { intros s. clear. generalize (Nat.div2 (length beads)). intros n. revert n. induction beads as [|x l IH]; intros [|n] I; simpl in *; try contradiction. destruct I; auto. right. eapply IH; eassumption. }
  set (bs := firstn _ _) in *. clearbody bs. revert Hq. generalize 1000.
  assert (I : forall d, In d (images lo hi) -> In d (images lo hi)) by auto. revert I. generalize (images lo hi) at 1 3.
  intros ims. induction ims as [|d ims IH]; intros I x Hx; cbn [fold_left]; [exact Hx|].
  apply IH; [intros e He; apply I; right; exact He|]. clear IH.
  assert (Id := I d (or_introl eq_refl)). clear I. revert x Hx. induction bs as [|[r p] bs IHb]; intros x Hx; cbn [fold_left]; [exact Hx|].
  apply IHb; [intros s Hs; apply G; right; exact Hs|]. cbn [snd].
  destruct (F r p d (G (r, p) (or_introl eq_refl)) Id) as [F1 F2]. apply Rmin_glb; [apply Rmin_glb; [exact Hx|exact F2]|exact F1].
Qed.
Lemma no_shell fuel sizes : (forall r, In r sizes -> 1 / 10 <= r) ->
  forall k cur beads ds k', (forall r p, In (r, p) beads -> 1 / 10 <= r) ->
  places_periodic rand lo hi dx theta phi fuel k sizes cur beads = Some (ds, k') ->
  forall d, In d ds -> snd d = false.
Proof.
  induction sizes as [|r sizes IH]; intros Hs k cur beads ds k' Hb HS; cbn [places_periodic] in HS; [injection HS as <- <-; intros d []|].
  destruct (place_periodic rand lo hi dx theta phi fuel k r cur beads) as [[[b1 b2] k1]|] eqn:E; [|discriminate].
  destruct (places_periodic rand lo hi dx theta phi fuel k1 sizes cur (beads ++ [(r, b1); (r, b2)])) as [[qs k2]|] eqn:E2; [|discriminate].
  injection HS as <- <-. pose proof (Hs r (or_introl eq_refl)) as Hr. intros d [<-|I].
  - cbn [snd]. unfold shell, Rltb. destruct (Rlt_dec _ _) as [C|]; [|reflexivity]. exfalso.
    assert (G : 2 / 10 <= closest lo hi b1 b2 beads); [|lra]. apply closest_ge; [lra|].
    apply place_periodic_good in E. destruct E as [_ [A1 [A2 _]]]. rewrite freeI_app in A1, A2.
    intros r' p d Ip Id. apply in_images in Id. destruct Id as [m [n [Hm [Hn ->]]]]. pose proof (Hb r' p Ip).
    destruct A1 as [_ A1]. destruct A2 as [_ A2].
    specialize (A1 r' p m n Hm Hn Ip). specialize (A2 r' p m n Hm Hn Ip). apply apart_image in A1, A2. unfold apart in *. split; lra.
  - refine (IH _ _ _ _ _ _ _ E2 d I); [intros x Hx; apply Hs; right; exact Hx|].
    intros r' p' I'. apply in_app_or in I'. destruct I' as [I'|[I'|[I'|[]]]]; [exact (Hb _ _ I')| |]; injection I' as <- _; exact Hr.
Qed.
End P.
