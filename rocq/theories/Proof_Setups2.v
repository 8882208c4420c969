(** Random numbers with which the random setups 5 and 6 return. *)
From Coq Require Import Reals List Arith ZArith Bool Lra Lia.
From Verif Require Import Base Py Model_Mob Model_Close Model_Place Model_Frame Model_Inputs Model_Setups Spec_Place Spec_Setups
  Proof_Polygon Proof_Place Prop_Place Proof_Setups.
Import ListNotations.
Local Open Scope R_scope.

Section Spheres.
Variables (rand : nat -> R) (lo hi : vec) (r : R).
Let pt (i : nat) : vec := random_point_in_box rand lo hi (3 * i).
Lemma grid_spheres N : (forall i j, (i < j < N)%nat -> apart r (pt j) r (pt i)) -> forall n i, (i + n = N)%nat ->
  place_spheres rand lo hi 1 (3 * i) (repeat r n) (map (fun j => (r, pt j)) (seq 0 i)) = Some (map pt (seq i n), (3 * N)%nat).
Proof.
  intros A. induction n as [|n IH]; intros i Hi; [cbn; do 2 f_equal; lia|]. cbn [repeat place_spheres place_sphere].
  fold (pt i). rewrite (proj2 (Nat.eqb_eq _ 0)).
  - specialize (IH (S i) ltac:(lia)). rewrite seq_S, map_app in IH. cbn [map Nat.add] in IH.
    replace (3 * S i)%nat with (3 * i + 3)%nat in IH by lia. rewrite IH. reflexivity.
  - apply count_zero. intros r' p' H. apply in_map_iff in H. destruct H as (j & E & Hj). injection E as <- <-. apply in_seq in Hj. apply A. lia.
Qed.
End Spheres.

Section Dumbbells.
Variables (rand : nat -> R) (lo hi : vec) (dx r : R).
Let b1 (i : nat) : vec := random_point_in_box rand lo hi (4 * i).
Let b2 (i : nat) : vec := vadd (b1 i) (vscal dx (v3 (sin (rand (4 * i + 3)%nat * (PI * 2)) * cos 0) (sin (rand (4 * i + 3)%nat * (PI * 2)) * sin 0)
                                                    (cos (rand (4 * i + 3)%nat * (PI * 2))))).
Let bs (b : bool) := if b then b2 else b1.
Lemma grid_dumbbells N : (forall i j b c, (i < j < N)%nat -> apart r (bs b j) r (bs c i)) -> (forall i, (i < N)%nat -> inside_box lo hi (b2 i) = true) ->
  forall n i, (i + n = N)%nat ->
  exists ds, place_dumbbells rand lo hi dx Random (Fixed 0) 1 (4 * i) (repeat r n) [] (flat_map (fun j => [(r, b1 j); (r, b2 j)]) (seq 0 i)) = Some (ds, (4 * N)%nat).
Proof.
  intros A B. induction n as [|n IH]; intros i Hi; [exists []; cbn; do 2 f_equal; lia|]. cbn [repeat place_dumbbells place_dumbbell].
  fold (b1 i).
  assert (F : forall b, free r (bs b i) (flat_map (fun j => [(r, b1 j); (r, b2 j)]) (seq 0 i))).
  { intros b r' p' H. apply in_flat_map in H. destruct H as (j & Hj & H). apply in_seq in Hj.
    destruct H as [H|[H|[]]]; injection H as <- <-; [apply (A j i b false)|apply (A j i b true)]; lia. }
  assert (E : forall b, count_both 0 (bs b i) r [] (flat_map (fun j => [(r, b1 j); (r, b2 j)]) (seq 0 i)) = 0%nat).
  { intros b. apply count_both_zero. split; [reflexivity|]. split; [intros r' p' []|apply F]. }
  pose proof (E false) as E1. pose proof (E true) as E2. unfold bs in E1, E2. rewrite E1. change (Nat.eqb 0 0) with true. cbv iota.
  assert (SB : forall t, second_bead rand lo hi dx Random (Fixed 0) (S t) (4 * i + 3) 0 (b1 i) r []
                           (flat_map (fun j => [(r, b1 j); (r, b2 j)]) (seq 0 i)) = (Some (b2 i), S (4 * i + 3))).
  { intros t. cbn [second_bead draw]. fold (b2 i). rewrite (B i) by lia. cbv zeta. rewrite E2. reflexivity. }
  rewrite (SB 99%nat).
  destruct (IH (S i) ltac:(lia)) as [ds H]. rewrite seq_S, flat_map_app in H. cbn [flat_map app Nat.add] in H.
  replace (4 * S i)%nat with (S (4 * i + 3)) in H by lia. rewrite H. eexists. reflexivity.
Qed.
End Dumbbells.

Definition rand5 (k : nat) : R :=
  let i := (k / 3)%nat in match (k mod 3)%nat with 0%nat => INR (i mod 7) / 7 | 1%nat => 0 | _ => INR ((i / 7) mod 7) / 7 end.
Definition rand6 (k : nat) : R :=
  let i := (k / 4)%nat in match (k mod 4)%nat with 0%nat => INR (i mod 80) / 80 | 1%nat => 0 | 2%nat => INR ((i / 80) mod 3) * (23 / 86) | _ => 0 end.
Lemma INR_mod a b : (0 < b)%nat -> 0 <= INR (a mod b) <= INR b - 1.
Proof. intros H. pose proof (Nat.mod_upper_bound a b ltac:(lia)). split; [apply pos_INR|]. assert (INR (S (a mod b)) <= INR b) by (apply le_INR; lia). rewrite S_INR in *. lra. Qed.
Lemma rand5_ok k : 0 <= rand5 k < 1.
Proof.
  unfold rand5. pose proof (INR_mod (k / 3) 7 ltac:(lia)). pose proof (INR_mod (k / 3 / 7) 7 ltac:(lia)). replace (INR 7) with 7 in * by (cbn; lra).
  destruct (k mod 3)%nat as [|[|?]]; lra.
Qed.
Lemma rand6_ok k : 0 <= rand6 k < 1.
Proof.
  unfold rand6. pose proof (INR_mod (k / 4) 80 ltac:(lia)). pose proof (INR_mod (k / 4 / 80) 3 ltac:(lia)).
  replace (INR 80) with 80 in * by (cbn; lra). replace (INR 3) with 3 in * by (cbn; lra).
  destruct (k mod 4)%nat as [|[|[|?]]]; lra.
Qed.
Lemma div_at b i j : (j < b)%nat -> ((b * i + j) / b = i)%nat /\ ((b * i + j) mod b = j)%nat.
Proof.
  intros H. split.
  - symmetry. apply (Nat.div_unique _ _ _ j); [exact H|reflexivity].
  - symmetry. apply (Nat.mod_unique _ _ i); [exact H|reflexivity].
Qed.
Lemma INR_apart a b : a <> b -> INR a + 1 <= INR b \/ INR b + 1 <= INR a.
Proof. intros H. destruct (Nat.lt_trichotomy a b) as [L|[L|L]]; [left|contradiction|right]; rewrite <- S_INR; apply le_INR; lia. Qed.

Lemma same_cell a b i j : a <> 0%nat -> (i mod a = j mod a)%nat -> (i < j < a * b)%nat -> ((i / a) mod b <> (j / a) mod b)%nat.
Proof.
  intros Ha E H. pose proof (Nat.div_mod_eq i a) as Hi. pose proof (Nat.div_mod_eq j a) as Hj.
  assert (i / a < b)%nat by (apply Nat.div_lt_upper_bound; lia). assert (j / a < b)%nat by (apply Nat.div_lt_upper_bound; lia).
  rewrite (Nat.mod_small (i / a) b), (Nat.mod_small (j / a) b) by assumption. intros K. rewrite K, E, <- Hj in Hi. lia.
Qed.

Lemma setup5_returns file : exists u, pos_setup rand5 1 file 5 = Some (Ok u).
Proof.
  unfold pos_setup. change (5 <? 0)%Z with false. cbv iota beta zeta. set (lo := v3 _ _ _). set (hi := v3 _ _ _).
  assert (Hb : forall i, (i < 3)%nat -> lo i <= hi i) by (intros [|[|[|i]]] Hi; cbn; lra || lia).
  assert (P : forall N, (N <= 49)%nat ->
    place_spheres rand5 lo hi 1 0 (repeat 1 N) [] = Some (map (fun i => random_point_in_box rand5 lo hi (3 * i)) (seq 0 N), (3 * N)%nat)).
  { intros N L41.
    refine (grid_spheres rand5 lo hi 1 N _ N 0 eq_refl). intros i j Hij. unfold apart.
    assert (X : forall i, random_point_in_box rand5 lo hi (3 * i) 0%nat = lo 0%nat + INR (i mod 7) / 7 * (hi 0%nat - lo 0%nat)).
    { intros k. unfold random_point_in_box, rand5. destruct (div_at 3 k 0 ltac:(lia)) as [-> ->]. reflexivity. }
    assert (Z : forall i, random_point_in_box rand5 lo hi (3 * i) 2%nat = lo 2%nat + INR ((i / 7) mod 7) / 7 * (hi 2%nat - lo 2%nat)).
    { intros k. unfold random_point_in_box, rand5. destruct (div_at 3 k 2 ltac:(lia)) as [-> ->]. reflexivity. }
    destruct (Nat.eq_dec (i mod 7) (j mod 7)) as [E|E].
    - assert (Ne : ((i / 7) mod 7 <> (j / 7) mod 7)%nat).
      { apply (same_cell 7 7); lia. }
      apply INR_apart in Ne. apply (dist_ge _ _ _ 2); [lra|lia|]. rewrite !Z. unfold lo, hi. cbn [v3]. apply Rabs_ge_either. lra.
    - apply INR_apart in E. apply (dist_ge _ _ _ 0); [lra|lia|]. rewrite !X. unfold lo, hi. cbn [v3]. apply Rabs_ge_either. lra. }
  specialize (P 41%nat ltac:(lia)). apply C39_spheres_return in P; [|rewrite repeat_length; lia|intros r Hx; apply repeat_spec in Hx; lra|exact rand5_ok|exact Hb].
  rewrite P. eexists. cbn [bind]. reflexivity.
Qed.

Lemma setup6_when rand fuel file ds k :
  randomise_dumbbells rand (v3 (- (17)) 0 (1 + 2 * (1 / 10))) (v3 17 0 (10 - 2 * (1 / 10))) 2 Random (Fixed 0) fuel 0 (repeat (1 / 10) (100 * 2)) [] = Some (Ok (ds, k)) ->
  exists u, pos_setup rand fuel file 6 = Some (Ok u).
Proof. intros H. unfold pos_setup. change (6 <? 0)%Z with false. cbv iota beta zeta. rewrite H. eexists. reflexivity. Qed.
Lemma dumbbells_when rand lo hi fuel n ds k :
  (forall n, 0 <= rand n < 1) -> (forall i, (i < 3)%nat -> lo i <= hi i) -> (0 < n)%nat ->
  place_dumbbells rand lo hi 2 Random (Fixed 0) fuel 0 (repeat (1 / 10) n) [] [] = Some (ds, k) ->
  randomise_dumbbells rand lo hi 2 Random (Fixed 0) fuel 0 (repeat (1 / 10) n) [] = Some (Ok (ds, k)).
Proof.
  intros Hr Hb Hn P.
  destruct (randomise_dumbbells rand lo hi 2 Random (Fixed 0) fuel 0 (repeat (1 / 10) n) []) as [[[ds' k']|e]|] eqn:E.
  - unfold randomise_dumbbells in E. rewrite P in E. destruct (some_distance _); [symmetry; exact E|discriminate].
  - apply dumbbells_return in E; [destruct E|exact Hr|exact Hb|lra|destruct n; [lia|discriminate]].
  - unfold randomise_dumbbells in E. rewrite P in E. discriminate.
Qed.
Lemma setup6_returns file : exists u, pos_setup rand6 1 file 6 = Some (Ok u).
Proof.
  set (lo := v3 (- (17)) 0 (1 + 2 * (1 / 10))). set (hi := v3 17 0 (10 - 2 * (1 / 10))).
  assert (Hb : forall i, (i < 3)%nat -> lo i <= hi i) by (intros [|[|[|i]]] Hi; cbn; lra || lia).
  assert (X : forall i, random_point_in_box rand6 lo hi (4 * i) 0%nat = - (17) + INR (i mod 80) / 80 * 34).
  { intros k. unfold random_point_in_box, rand6. destruct (div_at 4 k 0 ltac:(lia)) as [-> ->]. unfold lo, hi. cbn [v3]. lra. }
  assert (Y : forall i, random_point_in_box rand6 lo hi (4 * i) 1%nat = 0).
  { intros k. unfold random_point_in_box, rand6. destruct (div_at 4 k 1 ltac:(lia)) as [-> ->]. unfold lo, hi. cbn [v3]. lra. }
  assert (Z : forall i, random_point_in_box rand6 lo hi (4 * i) 2%nat = 12 / 10 + INR ((i / 80) mod 3) * (23 / 10)).
  { intros k. unfold random_point_in_box, rand6. destruct (div_at 4 k 2 ltac:(lia)) as [-> ->]. unfold lo, hi. cbn [v3]. lra. }
  assert (T : forall i, rand6 (4 * i + 3) = 0).
  { intros k. unfold rand6. destruct (div_at 4 k 3 ltac:(lia)) as [-> ->]. reflexivity. }
  set (b2 := fun i => vadd (random_point_in_box rand6 lo hi (4 * i)) (vscal 2 (v3 (sin (rand6 (4 * i + 3)%nat * (PI * 2)) * cos 0) (sin (rand6 (4 * i + 3)%nat * (PI * 2)) * sin 0)
                                                    (cos (rand6 (4 * i + 3)%nat * (PI * 2)))))).
  assert (X2 : forall i, b2 i 0%nat = - (17) + INR (i mod 80) / 80 * 34).
  { intros i. unfold b2, vadd, vscal. rewrite T, Rmult_0_l, sin_0, X. cbn [v3]. lra. }
  assert (Y2 : forall i, b2 i 1%nat = 0).
  { intros i. unfold b2, vadd, vscal. rewrite T, Rmult_0_l, sin_0, Y. cbn [v3]. lra. }
  assert (Z2 : forall i, b2 i 2%nat = 32 / 10 + INR ((i / 80) mod 3) * (23 / 10)).
  { intros i. unfold b2, vadd, vscal. rewrite T, Rmult_0_l, cos_0, Z. cbn [v3]. lra. }
  assert (P : forall N, (N <= 240)%nat ->
    exists ds, place_dumbbells rand6 lo hi 2 Random (Fixed 0) 1 0 (repeat (1 / 10) N) [] [] = Some (ds, (4 * N)%nat)).
  { intros N L200.
    refine (grid_dumbbells rand6 lo hi 2 (1 / 10) N _ _ N 0 eq_refl).
    - intros i j b c Hij. change (1 / 10 + 1 / 10 <= dist3 ((if b then b2 else fun i => random_point_in_box rand6 lo hi (4 * i)) j)
                                       ((if c then b2 else fun i => random_point_in_box rand6 lo hi (4 * i)) i)).
      assert (XX : forall (b : bool) i, (if b then b2 else fun i => random_point_in_box rand6 lo hi (4 * i)) i 0%nat = - (17) + INR (i mod 80) / 80 * 34)
        by (intros [|] k; [apply X2|apply X]).
      assert (ZZ : forall (b : bool) i, (if b then b2 else fun i => random_point_in_box rand6 lo hi (4 * i)) i 2%nat = (if b then 32 / 10 else 12 / 10) + INR ((i / 80) mod 3) * (23 / 10))
        by (intros [|] k; [apply Z2|apply Z]).
      destruct (Nat.eq_dec (i mod 80) (j mod 80)) as [E|E].
      + assert (Ne : ((i / 80) mod 3 <> (j / 80) mod 3)%nat).
        { apply (same_cell 80 3); lia. }
        apply INR_apart in Ne. apply (dist_ge _ _ _ 2); [lra|lia|]. rewrite !ZZ. apply Rabs_ge_either. destruct b, c; lra.
      + apply INR_apart in E. apply (dist_ge _ _ _ 0); [lra|lia|]. rewrite !XX. apply Rabs_ge_either. lra.
    - intros i Hi. change (inside_box lo hi (b2 i) = true). unfold inside_box. rewrite X2, Y2, Z2. unfold lo, hi. cbn [v3].
      pose proof (INR_mod i 80 ltac:(lia)). pose proof (INR_mod (i / 80) 3 ltac:(lia)).
      replace (INR 80) with 80 in * by (cbn; lra). replace (INR 3) with 3 in * by (cbn; lra).
      repeat (rewrite (proj2 (Rleb_t _ _)) by lra). reflexivity. }
  destruct (P (100 * 2)%nat ltac:(lia)) as [ds P']. apply (setup6_when rand6 1 file ds (4 * (100 * 2))).
  apply dumbbells_when; [exact rand6_ok|exact Hb|lia|exact P'].
Qed.
