(** C61: the position setups. *)
From Coq Require Import Reals List Arith ZArith Bool Lra Lia.
From Verif Require Import Base Py Model_Mob Model_Close Model_Place Model_Frame Model_Inputs Model_Setups
  Spec_Place Spec_Setups Proof_Place Prop_Place Proof_Setups Proof_Setups2.
Import ListNotations.
Local Open Scope R_scope.

(** Numbers of spheres and of dumbbells of setups 1 to 7. *)
Definition advertised (n : Z) : nat * nat :=
  match n with 1%Z => (15, 0) | 2%Z => (3, 0) | 3%Z => (8, 0) | 4%Z => (2, 2) | 5%Z => (41, 0) | 6%Z => (90, 200) | _ => (99, 0) end%nat.

(** Whatever the random numbers, setups 1 to 7 do not raise, and when they
    return, nothing overlaps; all but the cubic array are planar. *)
Theorem C61_setups rand fuel file n :
  (forall k, 0 <= rand k < 1) -> (1 <= n <= 7)%Z ->
  (forall e, pos_setup rand fuel file n <> Some (Raise e)) /\
  (forall u, pos_setup rand fuel file n = Some (Ok u) ->
     sound_setup u /\ (length (u_sp u), length (u_dp u)) = advertised n /\ (n <> 3%Z -> planar u)) /\
  (n <> 5%Z -> n <> 6%Z -> pos_setup rand fuel file n <> None).
Proof.
  intros Hr Hn.
  assert (C : n = 1%Z \/ n = 2%Z \/ n = 3%Z \/ n = 4%Z \/ n = 5%Z \/ n = 6%Z \/ n = 7%Z) by lia. clear Hn.
  destruct C as [-> | [-> | [-> | [-> | [-> | [-> | ->]]]]]].
  - split; [discriminate|]. split; [|discriminate]. intros u H. injection H as <-. split; [exact setup1|]. split; [reflexivity|].
    intros _. apply (spheres_planar 1 (map (fun i => v3 (4 * INR i) 0 0) (seq 0 15))).
    intros x Hx. apply in_map_iff in Hx. destruct Hx as (i & <- & _). reflexivity.
  - split; [discriminate|]. split; [|discriminate]. intros u H. injection H as <-. split; [exact setup2|]. split; [reflexivity|].
    intros _. apply (spheres_planar 1 [v3 (- (5)) 0 0; v3 0 0 0; v3 7 0 0]).
    intros x Hx. repeat (destruct Hx as [<-|Hx]; [reflexivity|]). destruct Hx.
  - split; [discriminate|]. split; [|discriminate]. intros u H. injection H as <-. split; [exact setup3|]. split; [reflexivity|]. congruence.
  - split; [discriminate|]. split; [|discriminate]. intros u H. injection H as <-. split; [exact setup4|]. split; [reflexivity|].
    intros _ r x Hx. unfold all_beads, bead in Hx. cbn in Hx. repeat (destruct Hx as [E|Hx]; [injection E as _ <-; cbn; lra|]). destruct Hx.
  - unfold pos_setup. change (5 <? 0)%Z with false. cbv iota beta zeta. set (lo := v3 _ _ _). set (hi := v3 _ _ _).
    assert (Hb : forall i, (i < 3)%nat -> lo i <= hi i) by (intros [|[|[|i]]] Hi; cbn; lra || lia).
    split; [|split; [|congruence]].
    + intros e. unfold randomise_spheres.
      destruct (place_spheres rand lo hi fuel 0 (repeat 1 41) []) as [[ps k]|] eqn:E; [|discriminate].
      pose proof (C39_spheres_return rand lo hi fuel 0 (repeat 1 41) [] ps k ltac:(rewrite repeat_length; lia)
                    ltac:(intros r Hx; apply repeat_spec in Hx; lra) Hr Hb E) as K.
      unfold randomise_spheres in K. rewrite E in K. injection K as K. rewrite K. discriminate.
    + intros u H. destruct (randomise_spheres rand lo hi fuel 0 (repeat 1 41) []) as [[[ps k]|e]|] eqn:E; [|discriminate|discriminate].
      injection H as <-. pose proof E as E'. apply setup5 in E; [|exact Hr|exact Hb]. destruct E as [S B].
      destruct (C39_spheres _ _ _ _ _ _ _ _ _ Hr Hb E') as [L _]. rewrite repeat_length in L.
      split; [exact S|]. split; [unfold spheres_only; cbn [u_sp u_dp]; rewrite L; reflexivity|].
      intros _. refine (eq_ind (length ps) (fun m => planar (spheres_only (repeat 1 m) ps)) _ 41%nat L).
      apply spheres_planar. intros x Hx. specialize (B x Hx 1%nat ltac:(lia)). cbn in B. lra.
  - unfold pos_setup. change (6 <? 0)%Z with false. cbv iota beta zeta.
    split; [|split; [|congruence]].
    + intros e. destruct (randomise_dumbbells rand _ _ _ _ _ _ _ _ _) as [[[ds k]|e']|] eqn:E; [discriminate| |discriminate].
      apply dumbbells_return in E; [destruct E|exact Hr|intros [|[|[|i]]] Hi; cbn; lra || lia|lra|discriminate].
    + intros u H. destruct (randomise_dumbbells rand _ _ _ _ _ _ _ _ _) as [[[ds k]|e']|] eqn:E; [|discriminate|discriminate].
      injection H as <-. pose proof E as E'. apply setup6 in E; [|exact Hr]. split; [apply E|]. split; [|intros _; apply E].
      apply C39_dumbbells in E'; [|exact Hr|intros [|[|[|i]]] Hi; cbn; lra || lia]. destruct E' as [L _]. rewrite repeat_length in L.
      rewrite <- (map_length fst) in L. cbn [u_sp u_dp]. rewrite L. reflexivity.
  - split; [discriminate|]. split; [|discriminate]. intros u H. injection H as <-. split; [exact setup7|]. split; [reflexivity|].
    intros _. exact setup7_planar.
Qed.
Print Assumptions C61_setups.

Lemma nth_wall z i : (i < 45)%nat -> nth i (wall z) (v3 0 0 0) = v3 (200001 / 100000 * INR i - 22 * (200001 / 100000)) 0 z.
Proof.
  intros Hi. unfold wall. cbv zeta.
  rewrite (nth_indep _ _ (v3 (200001 / 100000 * INR 0 - 22 * (200001 / 100000)) 0 z)) by (rewrite map_length, seq_length; exact Hi).
  rewrite (map_nth (fun i => v3 (200001 / 100000 * INR i - 22 * (200001 / 100000)) 0 z)), seq_nth by exact Hi. reflexivity.
Qed.
(** The spheres of setup 5 lie, surfaces included, in a box 16.2 wide and high;
    both beads of each dumbbell of setup 6 lie, surfaces included, in the gap
    between the surfaces of the walls, which are at heights 0 and 11, and the beads
    are 2 apart. *)
Theorem C61_random rand fuel file u : (forall k, 0 <= rand k < 1) ->
  (pos_setup rand fuel file 5 = Some (Ok u) -> forall r x, In (r, x) (all_beads u) ->
     r = 1 /\ - (162 / 10) / 2 <= x 0%nat - r /\ x 0%nat + r <= 162 / 10 / 2 /\ - (162 / 10) / 2 <= x 2%nat - r /\ x 2%nat + r <= 162 / 10 / 2) /\
  (pos_setup rand fuel file 6 = Some (Ok u) ->
     (forall i, (i < 90)%nat -> nth i (u_ss u) 0 = 1 /\ nth i (u_sp u) (v3 0 0 0) 2%nat = if Nat.ltb i 45 then 0 else 11) /\
     forall i b, (i < 200)%nat ->
       let r := nth i (u_ds u) 0 in let d := (nth i (u_dp u) (v3 0 0 0), nth i (u_dx u) (v3 0 0 0)) in
       r = 1 / 10 /\ -17 <= bead b d 0%nat <= 17 /\ 0 + 1 < bead b d 2%nat - r /\ bead b d 2%nat + r < 11 - 1 /\
       dist3 (bead true d) (bead false d) = 2).
Proof.
  intros Hr. split; intros H; unfold pos_setup in H.
  - change (5 <? 0)%Z with false in H. cbv iota beta zeta in H.
    destruct (randomise_spheres rand _ _ _ _ _ _) as [[[ps k]|e']|] eqn:E; [|discriminate|discriminate]. injection H as <-.
    apply C39_spheres in E; [|exact Hr|intros [|[|[|i]]] Hi; cbn; lra || lia]. destruct E as (L & B & _).
    intros r x Hx. unfold all_beads, spheres_only in Hx. cbn [u_ss u_sp u_ds] in Hx. change (combine (A:=R) (B:=vec*vec) [] _) with (@nil (R * (vec * vec))) in Hx. cbn [flat_map] in Hx. rewrite app_nil_r in Hx.
    pose proof (in_combine_l _ _ _ _ Hx) as H1. pose proof (in_combine_r _ _ _ _ Hx) as H2.
    change (In r (repeat 1 41)) in H1. apply repeat_spec in H1. subst r. apply (In_nth _ _ (v3 0 0 0)) in H2. destruct H2 as (i & Hi & <-).
    specialize (B i Hi). pose proof (B 0%nat ltac:(lia)) as B0. pose proof (B 2%nat ltac:(lia)) as B2. cbn [v3] in B0, B2.
    split; [reflexivity|]. lra.
  - change (6 <? 0)%Z with false in H. cbv iota beta zeta in H.
    destruct (randomise_dumbbells rand _ _ _ _ _ _ _ _ _) as [[[ds k]|e']|] eqn:E; [|discriminate|discriminate]. assert (Hu : u = mkSetup (repeat 1 (45 * 2)) (wall 0 ++ wall 11) (repeat (1 / 10) (100 * 2)) (map fst ds) (map snd ds)) by (injection H; intros Hu; rewrite <- Hu; reflexivity). clear H. subst u.
    apply C39_dumbbells in E; [|exact Hr|intros [|[|[|i]]] Hi; cbn; lra || lia]. destruct E as (L & B & _ & _ & _ & D).
    rewrite repeat_length in L. split.
    + intros i Hi. cbn [u_sp u_ss]. split; [exact (nth_repeat' 1 0 90 i Hi)|]. destruct (Nat.ltb_spec i 45) as [C|C].
      * rewrite app_nth1 by (unfold wall; rewrite map_length, seq_length; exact C). rewrite nth_wall by exact C. reflexivity.
      * rewrite app_nth2 by (unfold wall; rewrite map_length, seq_length; exact C).
        replace (length (wall 0)) with 45%nat by (unfold wall; rewrite map_length, seq_length; reflexivity). rewrite nth_wall by lia. reflexivity.
    + intros i b Hi r d. assert (Er : r = 1 / 10) by exact (nth_repeat' (1 / 10) 0 200 i Hi). clearbody r. subst r.
      assert (Ed : d = nth i ds (v3 0 0 0, v3 0 0 0)).
      { unfold d. cbn [u_dp u_dx]. rewrite (map_nth fst ds (v3 0 0 0, v3 0 0 0) i : nth i (map fst ds) (v3 0 0 0) = _), (map_nth snd ds (v3 0 0 0, v3 0 0 0) i : nth i (map snd ds) (v3 0 0 0) = _). destruct (nth i ds _); reflexivity. }
      rewrite Ed. clear d Ed. assert (Hl : (i < length ds)%nat) by lia. specialize (B i b Hl). specialize (D i Hl). cbv zeta in B, D.
      split; [reflexivity|].
      pose proof (B 0%nat ltac:(lia)) as B0. pose proof (B 2%nat ltac:(lia)) as B2. cbn [v3] in B0, B2.
      split; [lra|]. split; [lra|]. split; [lra|]. rewrite D. apply Rabs_right. lra.
Qed.
Print Assumptions C61_random.

(** The walls of setups 6 and 7: the spheres 45h to 45h+44 are in a row at one
    height, neighbours 2.00001 apart (so near contact, not in contact). *)
Theorem C61_walls rand fuel file n u hw i :
  (n = 6 \/ n = 7)%Z -> pos_setup rand fuel file n = Some (Ok u) -> (hw < 2)%nat -> (i < 44)%nat ->
  let x := fun k => nth (45 * hw + k) (u_sp u) (v3 0 0 0) in
  dist3 (x i) (x (i + 1)%nat) = 200001 / 100000 /\ x (i + 1)%nat 2%nat = x i 2%nat /\ x (i + 1)%nat 1%nat = x i 1%nat /\
  nth (45 * hw + i) (u_ss u) 0 = 1 /\ nth (45 * hw + (i + 1)) (u_ss u) 0 = 1.
Proof.
  intros Hn H Hw Hi.
  assert (W : exists z1 z2 r m, u_sp u = (wall z1 ++ wall z2) ++ r /\ u_ss u = repeat 1 (90 + m)).
  { destruct Hn as [-> | ->]; unfold pos_setup in H.
    - change (6 <? 0)%Z with false in H. cbv iota beta zeta in H.
      destruct (randomise_dumbbells rand _ _ _ _ _ _ _ _ _) as [[[ds k]|e']|] eqn:E; [|discriminate|discriminate].
      injection H as <-. exists 0, 11, [], 0%nat. cbn [u_sp u_ss]. rewrite app_nil_r. split; reflexivity.
    - change (7 <? 0)%Z with false in H. cbv iota beta zeta in H. injection H as <-.
      eexists _, _, _, 9%nat. split; reflexivity. }
  destruct W as (z1 & z2 & r & m & Ep & Es). cbv zeta. rewrite Ep, Es.
  assert (N : forall k, (k < 45)%nat -> nth (45 * hw + k) ((wall z1 ++ wall z2) ++ r) (v3 0 0 0) =
     v3 (200001 / 100000 * INR k - 22 * (200001 / 100000)) 0 (if Nat.eqb hw 0 then z1 else z2)).
  { intros k Hk. rewrite app_nth1 by (rewrite app_length, !wall_length; lia).
    assert (Q : forall z, nth k (wall z) (v3 0 0 0) = v3 (200001 / 100000 * INR k - 22 * (200001 / 100000)) 0 z).
    { intros z. unfold wall. cbv zeta. set (F := fun i => v3 (200001 / 100000 * INR i - 22 * (200001 / 100000)) 0 z).
      rewrite nth_indep with (d' := F 0%nat) by (rewrite map_length, seq_length; lia).
      rewrite map_nth, seq_nth by lia. reflexivity. }
    destruct hw as [|[|hw]]; [| |lia].
    - rewrite app_nth1 by (rewrite wall_length; lia). apply Q.
    - rewrite app_nth2 by (rewrite wall_length; lia). rewrite wall_length. replace (45 * 1 + k - 45)%nat with k by lia. apply Q. }
  rewrite !N by lia.
  assert (R1 : forall k, (k < 90)%nat -> nth k (repeat 1 (90 + m)) 0 = 1).
  { intros k Hk. apply (repeat_spec (90 + m) 1). apply nth_In. rewrite repeat_length. lia. }
  rewrite !R1 by lia. split; [|repeat split].
  unfold dist3, v3. rewrite plus_INR. cbn [INR].
  match goal with |- sqrt ?e = _ => replace e with (Rsqr (200001 / 100000)) by (unfold Rsqr; ring) end.
  apply sqrt_Rsqr. lra.
Qed.
Print Assumptions C61_walls.

(** The test setups: two spheres on the x axis, the first to the left, at the
    scaled separations 2.1 (odd numbers) and 3.9 (even numbers). *)
Theorem C61_tests n : (-8 <= n <= -1)%Z ->
  exists a1 a2 x1 x2, pos_setup_tests n = Ok (spheres_only [a1; a2] [v3 x1 0 0; v3 x2 0 0]) /\ x1 < x2 /\
    (a1 = if (n <? -4)%Z then 1 / 10 else 1) /\ (a2 = if ((n <? -6) || ((-5 <? n) && (n <? -2)))%Z%bool then 1 / 10 else 1) /\
    scaled_separation a1 (v3 x1 0 0) a2 (v3 x2 0 0) = (if Z.odd n then 21 / 10 else 39 / 10) /\
    sound_setup (spheres_only [a1; a2] [v3 x1 0 0; v3 x2 0 0]).
Proof.
  intros Hn.
  assert (S : forall a1 a2 x1 x2, 0 < a1 -> 0 < a2 -> a1 + a2 <= x2 - x1 -> sound_setup (spheres_only [a1; a2] [v3 x1 0 0; v3 x2 0 0])).
  { intros a1 a2 x1 x2 H1 H2 H. unfold sound_setup, all_beads, no_overlap. cbn.
    split; [reflexivity|]. split; [reflexivity|]. split; [reflexivity|]. split.
    - intros r x Hx. repeat (destruct Hx as [E|Hx]; [injection E as <- _; lra|]). destruct Hx.
    - fops. unfold apart. cbn [fst snd]. rewrite dist_x by lra. exact H. }
  assert (C : n = (-1)%Z \/ n = (-2)%Z \/ n = (-3)%Z \/ n = (-4)%Z \/ n = (-5)%Z \/ n = (-6)%Z \/ n = (-7)%Z \/ n = (-8)%Z) by lia.
  unfold scaled_separation.
  destruct C as [-> | [-> | [-> | [-> | [-> | [-> | [-> | ->]]]]]]]; cbn -[Rplus Rmult Rdiv Ropp];
    do 4 eexists; (split; [reflexivity|]); rewrite dist_x by lra; (split; [lra|]); (split; [lra|]); (split; [lra|]); (split; [lra|]); apply S; lra.
Qed.
Print Assumptions C61_tests.

(** Any other number stops the program. *)
Theorem C61_unknown rand fuel file n : (n = 0 \/ 8 < n \/ n < -8)%Z -> pos_setup rand fuel file n = Some (Raise SystemExit).
Proof.
  intros H. unfold pos_setup. destruct (Z.ltb_spec n 0).
  - assert (K : forall p, (8 < p)%positive -> pos_setup_tests (Zneg p) = Raise SystemExit).
    { intros p Hp. unfold pos_setup_tests. do 4 (destruct p as [p|p|]; try reflexivity; try lia). }
    destruct n as [|p|p]; [lia|lia|]. rewrite K by lia. reflexivity.
  - destruct n as [|p|p]; [reflexivity| |lia]. do 4 (destruct p as [p|p|]; try reflexivity; try lia).
Qed.
Print Assumptions C61_unknown.

(** The periodic images of the spheres of [simple_cubic_8] are the points of
    the simple cubic lattice of spacing s/2, each once. *)
Theorem C61_cubic_lattice s : 0 < s ->
  let '(ps, bl, tr) := simple_cubic_8 s in
  length ps = 8%nat /\ (forall i k, (i < 8)%nat -> (k < 3)%nat -> bl k < nth i ps (v3 0 0 0) k < tr k) /\
  (forall k, (k < 3)%nat -> tr k - bl k = s) /\
  (forall a, exists i m, (i < 8)%nat /\ image s (nth i ps (v3 0 0 0)) m = cubic s a) /\
  (forall i m, (i < 8)%nat -> exists a, image s (nth i ps (v3 0 0 0)) m = cubic s a) /\
  (forall i m j n, (i < 8)%nat -> (j < 8)%nat -> (i, m) <> (j, n) ->
     s / 2 <= dist3 (image s (nth i ps (v3 0 0 0)) m) (image s (nth j ps (v3 0 0 0)) n)).
Proof.
  intros Hs. destruct (simple_cubic_8 s) as [[ps bl] tr] eqn:E.
  assert (Eps : ps = fst (fst (simple_cubic_8 s))) by (rewrite E; reflexivity).
  assert (Ebl : bl = v3 (- s / 2) (- s / 2) (- s / 2)) by (unfold simple_cubic_8 in E; injection E as _ <- _; reflexivity).
  assert (Etr : tr = v3 (s / 2) (s / 2) (s / 2)) by (unfold simple_cubic_8 in E; injection E as _ _ <-; reflexivity).
  clear E. subst ps bl tr. split; [reflexivity|]. split; [|split; [|split; [|split]]].
  - intros i k Hi Hk. rewrite nth_cubic by exact Hi. destruct (nth i corners (false, false, false)) as [[x y] z].
    idx3 Hk; cbn; unfold side_bit; [destruct x|destruct y|destruct z]; lra.
  - intros k Hk. idx3 Hk; cbn; lra.
  - intros a. destruct (halves_split a) as (c & m & <-). destruct (corner_index c) as (i & Hi & <-).
    exists i, m. split; [exact Hi|]. rewrite nth_cubic by exact Hi. apply image_corner.
  - intros i m Hi. rewrite nth_cubic by exact Hi. rewrite image_corner. eexists. reflexivity.
  - intros i m j n Hi Hj N. rewrite !nth_cubic by assumption. rewrite !image_corner. apply cubic_dist; [exact Hs|].
    intros H. apply halves_inj in H. destruct H as [H ->]. apply corner_inj in H; [|assumption|assumption]. subst j. apply N. reflexivity.
Qed.
Print Assumptions C61_cubic_lattice.

(** The orientation points of every setup are on the surfaces of the spheres. *)
Theorem C61_orientation u i j : 0 <= nth i (u_ss u) 0 -> (j < 2)%nat ->
  dist3 (c_srot (config_of u) i j) (c_spos (config_of u) i) = c_ssizes (config_of u) i.
Proof.
  intros H Hj. unfold config_of, add_sphere_rotations. cbn [c_srot c_spos c_ssizes].
  set (r := nth i (u_ss u) 0) in *. set (x := nth i (u_sp u) (v3 0 0 0)). unfold dist3.
  transitivity (sqrt (r ^ 2)); [|apply sqrt_pow2, H]. f_equal. clearbody x.
  destruct j as [|[|j]]; [| |lia]; cbn [axes_xz v3]; ring.
Qed.
Print Assumptions C61_orientation.

(** [same_setup_as] gives back the arrangement of the saved frame... *)
Theorem C61_replicate frames k u : nth_error frames k = Some (snap (length (u_sp u)) (config_of u)) -> length (u_dx u) = length (u_dp u) ->
  forall a b, (forall r, In r (u_ss u) -> r = a) -> (forall r, In r (u_ds u) -> r = b) ->
  length (u_ss u) = length (u_sp u) -> length (u_ds u) = length (u_dp u) ->
  same_setup_as (mkSaved (length (u_sp u)) (length (u_dp u)) frames) (Z.of_nat k) a b = Ok u.
Proof.
  intros H L a b Ha Hb L1 L2. rewrite (replicate frames k u _ _ H eq_refl eq_refl L).
  assert (R : forall (c : R) l, (forall r, In r l -> r = c) -> repeat c (length l) = l).
  { intros c l Hl. induction l as [|r l IH]; [reflexivity|]. cbn. rewrite (Hl r (or_introl eq_refl)), IH; [reflexivity|].
    intros r' Hr'. apply Hl. right. exact Hr'. }
  rewrite <- L1, <- L2, (R a _ Ha), (R b _ Hb). destruct u. reflexivity.
Qed.
Print Assumptions C61_replicate.
(** ... counting negative frame numbers from the end. *)
Theorem C61_replicate_frames file z a b : let n := Z.of_nat (length (w_frames file)) in
  ((- n <= z < 0)%Z -> same_setup_as file z a b = same_setup_as file (n + z) a b) /\
  ((z < - n \/ n <= z)%Z -> same_setup_as file z a b = Raise IndexError) /\
  ((0 <= z < n)%Z -> exists u, same_setup_as file z a b = Ok u).
Proof.
  intros n. unfold same_setup_as. fold n. split; [|split].
  - intros H. destruct (Z.ltb_spec z 0); [|lia]. assert (E : (n + z <? 0)%Z = false) by (apply Z.ltb_ge; lia). rewrite !E. reflexivity.
  - intros H. destruct (Z.ltb_spec z 0).
    + destruct (Z.ltb_spec (n + z) 0); [reflexivity|lia].
    + destruct (Z.ltb_spec z 0); [lia|]. rewrite (proj2 (nth_error_None _ _)); [reflexivity|lia].
  - intros H. destruct (Z.ltb_spec z 0); [lia|]. destruct (Z.ltb_spec z 0); [lia|].
    destruct (nth_error (w_frames file) (Z.to_nat z)) as [s|] eqn:E; [eexists; reflexivity|]. apply nth_error_None in E. lia.
Qed.
Print Assumptions C61_replicate_frames.

(** (Finding) The file does not hold the radii: setup 8 replicates a saved
    frame of the non-overlapping test setup -3 with overlapping spheres. *)
Theorem C61_replicate_refuted rand fuel :
  exists u v, pos_setup_tests (-3) = Ok u /\ sound_setup u /\
    pos_setup rand fuel (mkSaved 2 0 [snap 2 (config_of u)]) 8 = Some (Ok v) /\
    u_sp v = u_sp u /\ ~ no_overlap (all_beads v).
Proof.
  destruct (C61_tests (-3) ltac:(lia)) as (a1 & a2 & x1 & x2 & E & _ & _ & _ & _ & S). exists (spheres_only [a1; a2] [v3 x1 0 0; v3 x2 0 0]).
  exists (mkSetup [1; 1] [v3 x1 0 0; v3 x2 0 0] [] [] []). split; [exact E|]. split; [exact S|].
  split; [|split; [reflexivity|]].
  - unfold pos_setup. change (8 <? 0)%Z with false. cbv iota beta zeta. apply f_equal.
    exact (replicate [snap 2 (config_of (spheres_only [a1; a2] [v3 x1 0 0; v3 x2 0 0]))] 0 (spheres_only [a1; a2] [v3 x1 0 0; v3 x2 0 0]) 2 0
             eq_refl eq_refl eq_refl eq_refl 1 (1 / 10)).
  - unfold pos_setup_tests in E. injection E as _ _ E1 E2. apply (f_equal (fun v => v 0%nat)) in E1, E2. cbn [v3] in E1, E2. subst x1 x2.
    intros N. inversion N as [|p l H _ E1]. subst. cbn in H. inversion H as [|q l' H' _]. subst. unfold apart in H'. cbn [fst snd] in H'.
    rewrite dist_x in H' by lra. lra.
Qed.
Print Assumptions C61_replicate_refuted.

(** Examples. *)
Example C61_example_counts : advertised 4 = (2, 2)%nat /\ exists u, pos_setup (fun _ => 0) 0 (mkSaved 0 0 []) 4 = Some (Ok u) /\ length (u_dp u) = 2%nat.
Proof. split; [reflexivity|]. eexists. split; reflexivity. Qed.
(** There are random numbers with which the random setups return. *)
Example C61_example_random file : (forall k, 0 <= rand5 k < 1) /\ (exists u, pos_setup rand5 1 file 5 = Some (Ok u)) /\
  (forall k, 0 <= rand6 k < 1) /\ (exists u, pos_setup rand6 1 file 6 = Some (Ok u)).
Proof. split; [exact rand5_ok|]. split; [apply setup5_returns|]. split; [exact rand6_ok|apply setup6_returns]. Qed.
(** A frame of setup 4 is replicated by setup 8. *)
Example C61_example_replicate : exists u, pos_setup (fun _ => 0) 0 (mkSaved 0 0 []) 4 = Some (Ok u) /\
  pos_setup (fun _ => 0) 0 (mkSaved 2 2 [snap 2 (config_of u)]) 8 = Some (Ok u).
Proof.
  exists (mkSetup [1; 1] [v3 0 0 0; v3 (45 / 10) 0 (45 / 10)] [1 / 10; 1 / 10]
            [v3 (45 / 10) 0 0; v3 0 0 (45 / 10)] [v3 (sqrt 2) 0 (sqrt 2); v3 (sqrt 2) 0 (sqrt 2)]).
  split; [reflexivity|]. set (u := mkSetup _ _ _ _ _). unfold pos_setup. change (8 <? 0)%Z with false. cbv iota beta zeta. apply f_equal.
  apply (C61_replicate [snap 2 (config_of u)] 0 u eq_refl eq_refl 1 (1 / 10)); cbn; try reflexivity;
    intros r Hr; repeat (destruct Hr as [<-|Hr]; [reflexivity|]); destruct Hr.
Qed.
(** In the array of side 8, spheres of radius 1 are 4 apart: images touch for side 4. *)
Example C61_example_lattice : image 8 (nth 7 (fst (fst (simple_cubic_8 8))) (v3 0 0 0)) (0, 0, 0)%Z 0%nat = 2
  /\ image 8 (nth 0 (fst (fst (simple_cubic_8 8))) (v3 0 0 0)) (1, 0, 0)%Z 0%nat = 6.
Proof. split; cbn; lra. Qed.
