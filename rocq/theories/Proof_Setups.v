(** The example setups: no overlaps. *)
From Coq Require Import Reals List Arith ZArith Bool Lra Lia FunctionalExtensionality.
From Verif Require Import Base Py Model_Mob Model_Close Model_Place Model_Frame Model_Inputs Model_Setups Spec_Place Spec_Setups Proof_Place Prop_Place.
Import ListNotations.
Local Open Scope R_scope.

Lemma FOP_app {A} (P : A -> A -> Prop) l1 l2 :
  ForallOrdPairs P l1 -> ForallOrdPairs P l2 -> (forall x y, In x l1 -> In y l2 -> P x y) -> ForallOrdPairs P (l1 ++ l2).
Proof.
  intros H1 H2 H. induction H1 as [|a l1 Ha H1 IH]; [exact H2|]. cbn. constructor.
  - apply Forall_app. split; [exact Ha|]. apply Forall_forall. intros y Hy. apply H; [left; reflexivity|exact Hy].
  - apply IH. intros x y Hx Hy. apply H; [right; exact Hx|exact Hy].
Qed.
Lemma FOP_map_seq {A} (P : A -> A -> Prop) f n : forall s,
  (forall i j, (s <= i < j)%nat -> (j < s + n)%nat -> P (f i) (f j)) -> ForallOrdPairs P (map f (seq s n)).
Proof.
  induction n as [|n IH]; intros s H; [constructor|]. cbn. constructor.
  - apply Forall_forall. intros y Hy. apply in_map_iff in Hy. destruct Hy as (j & <- & Hj). apply in_seq in Hj. apply H; lia.
  - apply IH. intros i j Hi Hj. apply H; lia.
Qed.

Lemma dist_ge p q d k : 0 <= d -> (k < 3)%nat -> d <= Rabs (p k - q k) -> d <= dist3 p q.
Proof.
  intros Hd Hk H. unfold dist3. rewrite <- (sqrt_pow2 d Hd). apply sqrt_le_1_alt.
  assert (S : d ^ 2 <= (p k - q k) ^ 2) by (rewrite <- (pow2_abs (p k - q k)); apply pow_incr; lra).
  pose proof (pow2_ge_0 (p 0%nat - q 0%nat)). pose proof (pow2_ge_0 (p 1%nat - q 1%nat)). pose proof (pow2_ge_0 (p 2%nat - q 2%nat)).
  destruct k as [|[|[|k]]]; [lra|lra|lra|lia].
Qed.
Lemma Rabs_ge_either d x : d <= x \/ d <= - x -> d <= Rabs x.
Proof. intros [H|H]; [apply Rle_trans with x; [exact H|apply Rle_abs]|rewrite <- Rabs_Ropp; apply Rle_trans with (- x); [exact H|apply Rle_abs]]. Qed.
Ltac fops := repeat match goal with |- ForallOrdPairs _ _ => constructor | |- Forall _ _ => constructor end.
Ltac far k := apply (dist_ge _ _ _ k); [lra|lia|cbn; apply Rabs_ge_either; lra].

(** combine with equal sizes *)
Lemma combine_repeat (r : R) (l : list vec) : combine (repeat r (length l)) l = map (fun x => (r, x)) l.
Proof. induction l as [|x l IH]; [reflexivity|]. cbn. rewrite IH. reflexivity. Qed.

Definition apart2 (r : R) (x y : vec) : Prop := apart r x r y.
Lemma FOP_map {A B} (P : B -> B -> Prop) (f : A -> B) l : ForallOrdPairs (fun x y => P (f x) (f y)) l -> ForallOrdPairs P (map f l).
Proof. induction 1 as [|a l Ha H IH]; cbn; constructor; [|exact IH]. apply Forall_map. exact Ha. Qed.

Lemma spheres_sound r l : 0 < r -> ForallOrdPairs (apart2 r) l -> sound_setup (spheres_only (repeat r (length l)) l).
Proof.
  intros Hr H. unfold sound_setup, spheres_only, all_beads, no_overlap. cbn. rewrite app_nil_r, combine_repeat.
  split; [rewrite repeat_length; reflexivity|]. split; [reflexivity|]. split; [reflexivity|]. split.
  - intros r' x Hx. apply in_map_iff in Hx. destruct Hx as (y & E & _). injection E as <- _. exact Hr.
  - apply FOP_map. exact H.
Qed.
Lemma spheres_planar r l : (forall x, In x l -> x 1%nat = 0) -> planar (spheres_only (repeat r (length l)) l).
Proof.
  intros H r' x. unfold all_beads. cbn. rewrite app_nil_r, combine_repeat. intros Hx. apply in_map_iff in Hx.
  destruct Hx as (y & E & Hy). injection E as _ <-. apply H, Hy.
Qed.

(** Walls *)
Lemma wall_length z : length (wall z) = 45%nat.
Proof. unfold wall. rewrite map_length, seq_length. reflexivity. Qed.
Lemma wall_in z x : In x (wall z) -> x 1%nat = 0 /\ x 2%nat = z.
Proof. intros H. apply in_map_iff in H. destruct H as (i & <- & _). split; reflexivity. Qed.
Lemma wall_apart z : ForallOrdPairs (apart2 1) (wall z).
Proof.
  apply FOP_map_seq. intros i j Hi Hj. unfold apart2, apart. apply (dist_ge _ _ _ 0); [lra|lia|]. cbn [v3].
  apply Rabs_ge_either. right. assert (INR i + 1 <= INR j) by (rewrite <- S_INR; apply le_INR; lia). lra.
Qed.

(** The setups. *)
Lemma setup1 : sound_setup (spheres_only (repeat 1 15) (map (fun i => v3 (4 * INR i) 0 0) (seq 0 15))).
Proof.
  apply (spheres_sound 1 (map (fun i => v3 (4 * INR i) 0 0) (seq 0 15))); [lra|].
  apply FOP_map_seq. intros i j Hi Hj. unfold apart2, apart. apply (dist_ge _ _ _ 0); [lra|lia|]. cbn [v3].
  apply Rabs_ge_either. right. assert (INR i + 1 <= INR j) by (rewrite <- S_INR; apply le_INR; lia). lra.
Qed.
Lemma setup2 : sound_setup (spheres_only [1; 1; 1] [v3 (- (5)) 0 0; v3 0 0 0; v3 7 0 0]).
Proof.
  apply (spheres_sound 1 [v3 (- (5)) 0 0; v3 0 0 0; v3 7 0 0]); [lra|].
  fops; unfold apart2, apart; far 0%nat.
Qed.
Lemma setup3 : sound_setup (spheres_only (repeat 1 8) (fst (fst (simple_cubic_8 8)))).
Proof.
  apply (spheres_sound 1 (fst (fst (simple_cubic_8 8)))); [lra|]. cbn.
  fops; unfold apart2, apart; first [far 0%nat|far 1%nat|far 2%nat].
Qed.
Lemma sqrt2_bounds : 14 / 10 < sqrt 2 < 15 / 10.
Proof.
  split.
  - rewrite <- (sqrt_pow2 (14 / 10)) by lra. apply sqrt_lt_1_alt. lra.
  - rewrite <- (sqrt_pow2 (15 / 10)) by lra. apply sqrt_lt_1_alt. lra.
Qed.
Lemma setup4 : sound_setup (mkSetup [1; 1] [v3 0 0 0; v3 (45 / 10) 0 (45 / 10)] [1 / 10; 1 / 10]
                       [v3 (45 / 10) 0 0; v3 0 0 (45 / 10)] [v3 (sqrt 2) 0 (sqrt 2); v3 (sqrt 2) 0 (sqrt 2)]).
Proof.
  pose proof sqrt2_bounds. unfold sound_setup, all_beads, no_overlap. cbn [u_sp u_ss u_dp u_ds u_dx combine flat_map app length fst snd].
  split; [reflexivity|]. split; [reflexivity|]. split; [reflexivity|]. split.
  - intros r x Hx. repeat (destruct Hx as [E|Hx]; [injection E as <- _; lra|]). destruct Hx.
  - unfold bead. fops; unfold apart; cbn [fst snd]; first [far 0%nat|far 2%nat].
Qed.
Lemma setup7 : sound_setup (spheres_only (repeat 1 (45 * 2 + 9))
  ((wall (- (5)) ++ wall 5) ++ flat_map (fun i => map (fun j => v3 i 0 j) [- (25 / 10); 0; 25 / 10]) [- (4); 0; 4])).
Proof.
  set (mid := flat_map _ _).
  replace (45 * 2 + 9)%nat with (length ((wall (- (5)) ++ wall 5) ++ mid)) by (rewrite !app_length, !wall_length; reflexivity).
  apply spheres_sound; [lra|]. apply FOP_app; [apply FOP_app; try apply wall_apart| |].
  - intros x y Hx Hy. apply wall_in in Hx, Hy. destruct Hx as [_ Hx], Hy as [_ Hy]. unfold apart2, apart.
    apply (dist_ge _ _ _ 2); [lra|lia|]. rewrite Hx, Hy. apply Rabs_ge_either. lra.
  - unfold mid. cbn. fops; unfold apart2, apart; first [far 0%nat|far 2%nat].
  - intros x y Hx Hy. assert (Z : x 2%nat = - (5) \/ x 2%nat = 5).
    { apply in_app_or in Hx. destruct Hx as [Hx|Hx]; apply wall_in in Hx; [left|right]; apply Hx. }
    assert (W : - (25 / 10) <= y 2%nat <= 25 / 10).
    { unfold mid in Hy. cbn in Hy. repeat (destruct Hy as [<-|Hy]; [cbn; lra|]). destruct Hy. }
    unfold apart2, apart. apply (dist_ge _ _ _ 2); [lra|lia|]. apply Rabs_ge_either. lra.
Qed.

Lemma setup7_planar : planar (spheres_only (repeat 1 (45 * 2 + 9))
  ((wall (- (5)) ++ wall 5) ++ flat_map (fun i => map (fun j => v3 i 0 j) [- (25 / 10); 0; 25 / 10]) [- (4); 0; 4])).
Proof.
  set (mid := flat_map _ _).
  replace (45 * 2 + 9)%nat with (length ((wall (- (5)) ++ wall 5) ++ mid)) by (rewrite !app_length, !wall_length; reflexivity).
  apply spheres_planar. intros x Hx. apply in_app_or in Hx. destruct Hx as [Hx|Hx].
  - apply in_app_or in Hx. destruct Hx as [Hx|Hx]; apply wall_in in Hx; apply Hx.
  - unfold mid in Hx. cbn in Hx. repeat (destruct Hx as [<-|Hx]; [reflexivity|]). destruct Hx.
Qed.

Section Rand.
Variable rand : nat -> R.
Hypothesis Hr : forall n, 0 <= rand n < 1.
Variable fuel : nat.

Lemma FOP_nth {A} (P : A -> A -> Prop) (d : A) l :
  (forall i j, (i < j < length l)%nat -> P (nth i l d) (nth j l d)) -> ForallOrdPairs P l.
Proof.
  induction l as [|a l IH]; intros H; [constructor|]. constructor.
  - apply Forall_forall. intros y Hy. destruct (In_nth l y d Hy) as (j & Hj & <-). apply (H 0%nat (S j)). cbn. lia.
  - apply IH. intros i j Hij. apply (H (S i) (S j)). cbn. lia.
Qed.
Lemma nth_repeat' (r d : R) n i : (i < n)%nat -> nth i (repeat r n) d = r.
Proof. revert i; induction n as [|n IH]; intros [|i] Hi; cbn; try lia; [reflexivity|apply IH; lia]. Qed.

Lemma setup5 lo hi ps k : (forall i, (i < 3)%nat -> lo i <= hi i) ->
  randomise_spheres rand lo hi fuel 0 (repeat 1 41) [] = Some (Ok (ps, k)) ->
  sound_setup (spheres_only (repeat 1 41) ps) /\ forall x, In x ps -> in_box lo hi x.
Proof.
  intros Hb H. apply C39_spheres in H; [|exact Hr|exact Hb]. destruct H as (L & B & _ & A). rewrite repeat_length in L. split.
  - rewrite <- L. apply spheres_sound; [lra|]. apply (FOP_nth _ (v3 0 0 0)). intros i j Hij. specialize (A i j ltac:(lia) ltac:(lia) ltac:(lia)).
    rewrite !nth_repeat' in A by lia. exact A.
  - intros x Hx. destruct (In_nth ps x (v3 0 0 0) Hx) as (i & Hi & <-). apply B, Hi.
Qed.

Lemma setup6 ds k : randomise_dumbbells rand (v3 (- (17)) 0 (1 + 2 * (1 / 10))) (v3 17 0 (10 - 2 * (1 / 10))) 2 Random (Fixed 0)
              fuel 0 (repeat (1 / 10) (100 * 2)) [] = Some (Ok (ds, k)) ->
  let u := mkSetup (repeat 1 (45 * 2)) (wall 0 ++ wall 11) (repeat (1 / 10) (100 * 2)) (map fst ds) (map snd ds) in
  sound_setup u /\ planar u.
Proof.
  intros H u. apply C39_dumbbells in H; [|exact Hr|intros [|[|[|i]]] Hi; cbn; lra || lia].
  destruct H as (L & B & _ & A & _ & D). rewrite repeat_length in L.
  assert (EB : all_beads u = map (fun x => (1, x)) (wall 0 ++ wall 11)
               ++ flat_map (fun d => [(1 / 10, bead false d); (1 / 10, bead true d)]) ds).
  { unfold all_beads, u. cbn [u_ss u_sp u_ds u_dp u_dx]. apply f_equal2.
    - replace (45 * 2)%nat with (length (wall 0 ++ wall 11)) by (rewrite app_length, !wall_length; reflexivity). apply combine_repeat.
    - rewrite <- L. clear. generalize (1 / 10). intros r. induction ds as [|[x e] ds IH]; [reflexivity|]. cbn. rewrite IH. reflexivity. }
  assert (HB : forall d b, In d ds -> in_box (v3 (- (17)) 0 (1 + 2 * (1 / 10))) (v3 17 0 (10 - 2 * (1 / 10))) (bead b d)).
  { intros d b Hd. destruct (In_nth ds d (v3 0 0 0, v3 0 0 0) Hd) as (i & Hi & <-). apply B, Hi. }
  assert (HW : forall x, In x (wall 0 ++ wall 11) -> x 1%nat = 0 /\ (x 2%nat = 0 \/ x 2%nat = 11)).
  { intros x Hx. apply in_app_or in Hx. destruct Hx as [Hx|Hx]; apply wall_in in Hx; tauto. }
  split.
  - unfold sound_setup. rewrite EB. unfold u. cbn [u_ss u_sp u_ds u_dp u_dx].
    split; [rewrite app_length, !wall_length, repeat_length; reflexivity|].
    split; [rewrite map_length, repeat_length; exact L|]. split; [rewrite map_length, repeat_length; exact L|]. split.
    + intros r x Hx. apply in_app_or in Hx. destruct Hx as [Hx|Hx].
      * apply in_map_iff in Hx. destruct Hx as (y & E & _). injection E as <- _. lra.
      * apply in_flat_map in Hx. destruct Hx as (d & _ & [E|[E|[]]]); injection E as <- _; lra.
    + unfold no_overlap. apply FOP_app.
      * apply FOP_map. cbn [fst snd]. apply FOP_app; [apply wall_apart|apply wall_apart|].
        intros x y Hx Hy. apply wall_in in Hx, Hy. destruct Hx as [_ Hx], Hy as [_ Hy]. unfold apart.
        apply (dist_ge _ _ _ 2); [lra|lia|]. rewrite Hx, Hy. apply Rabs_ge_either. lra.
      * assert (G : forall n s, (s + n <= length ds)%nat ->
          ForallOrdPairs (fun a b => apart (fst a) (snd a) (fst b) (snd b))
            (flat_map (fun i => [(1 / 10, bead false (nth i ds (v3 0 0 0, v3 0 0 0))); (1 / 10, bead true (nth i ds (v3 0 0 0, v3 0 0 0)))]) (seq s n))).
        { induction n as [|n IH]; intros s Hs; [constructor|]. cbn [seq flat_map app].
          assert (F : forall b, Forall (fun q => apart (1 / 10) (bead b (nth s ds (v3 0 0 0, v3 0 0 0))) (fst q) (snd q))
            (flat_map (fun i => [(1 / 10, bead false (nth i ds (v3 0 0 0, v3 0 0 0))); (1 / 10, bead true (nth i ds (v3 0 0 0, v3 0 0 0)))]) (seq (S s) n))).
          { intros b. apply Forall_forall. intros q Hq. apply in_flat_map in Hq. destruct Hq as (j & Hj & Hq). apply in_seq in Hj.
            destruct Hq as [<-|[<-|[]]]; cbn [fst snd];
              [pose proof (A s j b false ltac:(lia) ltac:(lia) ltac:(lia)) as K|pose proof (A s j b true ltac:(lia) ltac:(lia) ltac:(lia)) as K];
              rewrite !nth_repeat' in K by lia; exact K. }
          constructor.
          - constructor; [|apply F]. cbn [fst snd]. unfold apart. rewrite dist_sym, D by lia. rewrite Rabs_right by lra. lra.
          - constructor; [apply F|]. apply IH. lia. }
        specialize (G (length ds) 0%nat ltac:(lia)).
        replace (flat_map (fun d => [(1 / 10, bead false d); (1 / 10, bead true d)]) ds) with
          (flat_map (fun i => [(1 / 10, bead false (nth i ds (v3 0 0 0, v3 0 0 0))); (1 / 10, bead true (nth i ds (v3 0 0 0, v3 0 0 0)))]) (seq 0 (length ds)));
          [exact G|].
        clear. rewrite !flat_map_concat_map. f_equal.
        rewrite <- (map_map (fun i => nth i ds (v3 0 0 0, v3 0 0 0)) (fun d => [(1 / 10, bead false d); (1 / 10, bead true d)])). f_equal.
        clear. induction ds as [|d ds IH]; [reflexivity|]. cbn. f_equal. rewrite <- seq_shift, map_map. exact IH.
      * intros p q Hp Hq. apply in_map_iff in Hp. destruct Hp as (x & <- & Hx). apply HW in Hx. destruct Hx as [_ Hx].
        apply in_flat_map in Hq. destruct Hq as (d & Hd & Hq).
        assert (Q : fst q = 1 / 10 /\ 12 / 10 <= snd q 2%nat <= 98 / 10).
        { destruct Hq as [<-|[<-|[]]]; cbn [fst snd]; (split; [reflexivity|]);
            [pose proof (HB d false Hd 2%nat ltac:(lia)) as K|pose proof (HB d true Hd 2%nat ltac:(lia)) as K]; cbn [v3] in K; lra. }
        destruct Q as [-> Q]. cbn [fst snd]. unfold apart. apply (dist_ge _ _ _ 2); [lra|lia|]. apply Rabs_ge_either. lra.
  - intros r x. rewrite EB. intros Hx. apply in_app_or in Hx. destruct Hx as [Hx|Hx].
    + apply in_map_iff in Hx. destruct Hx as (y & E & Hy). injection E as _ <-. apply HW, Hy.
    + apply in_flat_map in Hx. destruct Hx as (d & Hd & [E|[E|[]]]); injection E as _ <-;
        [pose proof (HB d false Hd 1%nat ltac:(lia)) as K|pose proof (HB d true Hd 1%nat ltac:(lia)) as K]; cbn [v3] in K; lra.
Qed.
End Rand.

(** The simple cubic array. *)
Definition side_bit (s : R) (b : bool) : R := if b then s / 4 else - s / 4.
Definition corner (s : R) (c : bool * bool * bool) : vec := let '(x, y, z) := c in v3 (side_bit s x) (side_bit s y) (side_bit s z).
Definition corners : list (bool * bool * bool) :=
  flat_map (fun i => flat_map (fun j => map (fun k => (i, j, k)) [false; true]) [false; true]) [false; true].
Lemma cubic_corners s : fst (fst (simple_cubic_8 s)) = map (corner s) corners.
Proof. reflexivity. Qed.
Lemma corner_index c : exists i, (i < 8)%nat /\ nth i corners (false, false, false) = c.
Proof.
  destruct c as [[x y] z]. exists ((if x then 4 else 0) + (if y then 2 else 0) + (if z then 1 else 0))%nat.
  destruct x, y, z; cbn; split; lia || reflexivity.
Qed.
Lemma corner_inj i j : (i < 8)%nat -> (j < 8)%nat -> nth i corners (false, false, false) = nth j corners (false, false, false) -> i = j.
Proof.
  intros Hi Hj. do 8 (destruct i as [|i]; [do 8 (destruct j as [|j]; [cbn; intros E; reflexivity || discriminate E|]); lia|]). lia.
Qed.
Definition half (b : bool) (m : Z) : Z := (2 * m + (if b then 0 else -1))%Z.
Lemma half_eq s b m : side_bit s b + s * IZR m = s / 4 + s / 2 * IZR (half b m).
Proof. unfold half, side_bit. rewrite plus_IZR, mult_IZR. destruct b; field. Qed.
Lemma half_split a : exists b m, half b m = a.
Proof.
  unfold half. destruct (Z.Even_or_Odd a) as [[k E]|[k E]]; [exists true, k; lia|exists false, (k + 1)%Z; lia].
Qed.
Lemma half_inj b m b' m' : half b m = half b' m' -> b = b' /\ m = m'.
Proof. unfold half. destruct b, b'; intros H; split; try reflexivity; lia. Qed.
Definition halves (c : bool * bool * bool) (m : Z * Z * Z) : Z * Z * Z :=
  let '(x, y, z) := c in let '(p, q, r) := m in (half x p, half y q, half z r).
Lemma image_corner s c m : image s (corner s c) m = cubic s (halves c m).
Proof. destruct c as [[x y] z], m as [[p q] r]. cbn -[half]. rewrite <- !half_eq. reflexivity. Qed.
Lemma nth_cubic s i : (i < 8)%nat -> nth i (fst (fst (simple_cubic_8 s))) (v3 0 0 0) = corner s (nth i corners (false, false, false)).
Proof.
  intros Hi. rewrite cubic_corners. rewrite (nth_indep _ _ (corner s (false, false, false))) by (rewrite map_length; exact Hi).
  apply map_nth.
Qed.
Lemma halves_split a : exists c m, halves c m = a.
Proof.
  destruct a as [[x y] z]. destruct (half_split x) as (b1 & m1 & E1), (half_split y) as (b2 & m2 & E2), (half_split z) as (b3 & m3 & E3).
  exists (b1, b2, b3), (m1, m2, m3). cbn. rewrite E1, E2, E3. reflexivity.
Qed.
Lemma halves_inj c m c' m' : halves c m = halves c' m' -> c = c' /\ m = m'.
Proof.
  destruct c as [[x y] z], m as [[p q] r], c' as [[x' y'] z'], m' as [[p' q'] r']. cbn. intros H. injection H as H1 H2 H3.
  apply half_inj in H1, H2, H3. destruct H1, H2, H3. subst. split; reflexivity.
Qed.
Lemma cubic_dist s a b : 0 < s -> a <> b -> s / 2 <= dist3 (cubic s a) (cubic s b).
Proof.
  intros Hs H. destruct a as [[x y] z], b as [[x' y'] z'].
  assert (K : forall p q : Z, p <> q -> s / 2 <= Rabs (s / 4 + s / 2 * IZR p - (s / 4 + s / 2 * IZR q))).
  { intros p q N. apply Rabs_ge_either. destruct (Z.lt_trichotomy p q) as [L|[L|L]]; [right|contradiction|left].
    - assert (IZR p + 1 <= IZR q) by (rewrite <- plus_IZR; apply IZR_le; lia). nra.
    - assert (IZR q + 1 <= IZR p) by (rewrite <- plus_IZR; apply IZR_le; lia). nra. }
  destruct (Z.eq_dec x x') as [->|N]; [|apply (dist_ge _ _ _ 0); [lra|lia|apply K, N]].
  destruct (Z.eq_dec y y') as [->|N]; [|apply (dist_ge _ _ _ 1); [lra|lia|apply K, N]].
  destruct (Z.eq_dec z z') as [->|N]; [contradiction|apply (dist_ge _ _ _ 2); [lra|lia|apply K, N]].
Qed.

(** Distances along the x axis. *)
Lemma dist_x a b : a <= b -> dist3 (v3 a 0 0) (v3 b 0 0) = b - a.
Proof.
  intros H. unfold dist3. cbn [v3]. replace ((a - b) ^ 2 + (0 - 0) ^ 2 + (0 - 0) ^ 2) with ((b - a) ^ 2) by ring. apply sqrt_pow2. lra.
Qed.

(** Dumbbells that were placed are returned. *)
Lemma dumbbells_return rand lo hi dx theta phi fuel k sizes e :
  (forall n, 0 <= rand n < 1) -> (forall i, (i < 3)%nat -> lo i <= hi i) -> 0 < dx -> sizes <> [] ->
  randomise_dumbbells rand lo hi dx theta phi fuel k sizes [] <> Some (Raise e).
Proof.
  intros Hr Hb Hd Hs H. unfold randomise_dumbbells in H.
  destruct (place_dumbbells rand lo hi dx theta phi fuel k sizes [] []) as [[ds k1]|] eqn:E; [|discriminate].
  destruct (place_dumbbells_good rand lo hi Hr Hb dx theta phi fuel sizes _ _ _ _ _ E) as [L [A _]].
  destruct ds as [|d ds]; [destruct sizes; [contradiction|discriminate L]|].
  specialize (A 0%nat ltac:(cbn; lia)). cbn [nth] in A. destruct d as [x y]. apply good_length in A. destruct A as (t & f & _ & _ & D).
  rewrite (some_distance_two _ (length ((x, y) :: ds)) 0) in H; [discriminate| | |].
  - rewrite app_length, !map_length. cbn. lia.
  - rewrite app_length, !map_length. cbn. lia.
  - rewrite (app_nth2 _ _ _ (n := length ((x, y) :: ds))) by (rewrite map_length; lia).
    rewrite map_length, Nat.sub_diag. cbn [map app nth fst snd].
    replace (dist3 _ _) with dx; [exact Hd|]. unfold dist3, vadd, vsub, vscal. rewrite !D. unfold direction. cbn [v3].
    replace (_ + _ + _) with (dx * dx * (sin t * cos f * (sin t * cos f) + sin t * sin f * (sin t * sin f) + cos t * cos t)) by field.
    rewrite direction_unit, Rmult_1_r. symmetry. apply sqrt_Rsqr. lra.
Qed.

(** A saved frame gives back the arrangement. *)
Lemma map_nth_seq {A} (d : A) l : map (fun i => nth i l d) (seq 0 (length l)) = l.
Proof.
  induction l as [|a l IH]; [reflexivity|]. cbn. f_equal. rewrite <- seq_shift, map_map. exact IH.
Qed.
Lemma replicate frames k u Ns Nd : nth_error frames k = Some (snap Ns (config_of u)) ->
  length (u_sp u) = Ns -> length (u_dp u) = Nd -> length (u_dx u) = Nd ->
  forall a b, same_setup_as (mkSaved Ns Nd frames) (Z.of_nat k) a b = Ok (mkSetup (repeat a Ns) (u_sp u) (repeat b Nd) (u_dp u) (u_dx u)).
Proof.
  intros H H1 H2 H3 a b. unfold same_setup_as. cbn [w_Ns w_Nd w_frames].
  destruct (Z.ltb_spec (Z.of_nat k) 0); [lia|]. destruct (Z.ltb_spec (Z.of_nat k) 0); [lia|]. rewrite Nat2Z.id, H. cbn [n_pos n_dx snap].
  f_equal. f_equal.
  - transitivity (map (fun i => nth i (u_sp u) (v3 0 0 0)) (seq 0 Ns)); [|rewrite <- H1; apply map_nth_seq].
    apply map_ext_in. intros i Hi. apply in_seq in Hi. unfold append_rows. destruct (Nat.ltb_spec i Ns); [reflexivity|lia].
  - transitivity (map (fun i => nth i (u_dp u) (v3 0 0 0)) (seq 0 Nd)); [|rewrite <- H2; apply map_nth_seq].
    replace (seq Ns Nd) with (map (fun i => (Ns + i)%nat) (seq 0 Nd)).
    + rewrite map_map. apply map_ext_in. intros i Hi. unfold append_rows. destruct (Nat.ltb_spec (Ns + i) Ns); [lia|].
      replace (Ns + i - Ns)%nat with i by lia. reflexivity.
    + clear. induction Ns as [|n IH]; [rewrite map_id; reflexivity|]. rewrite <- seq_shift, <- IH, map_map. reflexivity.
  - rewrite <- H3. apply map_nth_seq.
Qed.
