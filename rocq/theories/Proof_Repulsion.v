(** Repulsion forces. *)
From Coq Require Import Reals List Arith Bool Lia Lra FunctionalExtensionality.
From Verif Require Import Base Py Model_Mob Model_Close Spec_Close Model_Repulsion Spec_Repulsion Proof_Close Proof_Minf2.
Import ListNotations.
Local Open Scope R_scope.

(** ** Sums over lists *)
Fixpoint tally {A} (g : A -> R) (l : list A) : R := match l with [] => 0 | p :: t => g p + tally g t end.
Lemma tally_app {A} (g : A -> R) l m : tally g (l ++ m) = tally g l + tally g m.
Proof. induction l as [|p l IH]; simpl; [ring|rewrite IH; ring]. Qed.
Lemma tally_map {A B} (g : B -> R) (f : A -> B) l : tally g (map f l) = tally (fun p => g (f p)) l.
Proof. induction l as [|p l IH]; simpl; [reflexivity|rewrite IH; reflexivity]. Qed.
Lemma tally_flat {A B} (g : B -> R) (f : A -> list B) l : tally g (flat_map f l) = tally (fun p => tally g (f p)) l.
Proof. induction l as [|p l IH]; simpl; [reflexivity|rewrite tally_app, IH; reflexivity]. Qed.
Lemma tally_filter {A} (g : A -> R) (c : A -> bool) l : tally g (filter c l) = tally (fun p => if c p then g p else 0) l.
Proof. induction l as [|p l IH]; simpl; [reflexivity|]. destruct (c p); simpl; rewrite IH; ring. Qed.
Lemma tally_ext {A} (g h : A -> R) l : (forall p, g p = h p) -> tally g l = tally h l.
Proof. intros H. induction l as [|p l IH]; simpl; [reflexivity|rewrite H, IH; reflexivity]. Qed.
Lemma tally_seq g s n : tally g (seq s n) = rsum n (fun i => g (s + i)%nat).
Proof.
  induction n as [|n IH]; [reflexivity|]. rewrite seq_S, tally_app, IH. cbn [tally rsum]. ring.
Qed.

Section Pairs.
Variables (strength tau : R) (Ns Nd : nat).
Variables (spos dpos ddx : nat -> vec) (ssizes dsizes : nat -> R).
Let x := bead_positions Ns Nd spos dpos ddx.
Let a := bead_sizes Ns Nd ssizes dsizes.
Let n := (Ns + 2 * Nd)%nat.
Notation sdm := (scaled_distance_matrix Ns Nd spos dpos ddx ssizes dsizes).

Lemma sdm_eq i j : sdm i j = scaled_distance x a i j.
Proof.
  unfold scaled_distance_matrix, scaled_distance. fold x a. unfold Rdiv at 1. rewrite Rinv_mult.
  replace (/ (5 / 10)) with 2 by field. rewrite (Rplus_comm (a j)). unfold Rdiv. ring.
Qed.
Lemma sd_sym i j : scaled_distance x a i j = scaled_distance x a j i.
Proof. unfold scaled_distance. rewrite norm_vsub_sym, (Rplus_comm (a i)). reflexivity. Qed.

Definition push (i j : nat) : vec := fun l =>
  if Rlt_dec 0 (scaled_distance x a i j) then
    if Rlt_dec (scaled_distance x a i j) (11 / 5) then
      repulsion_size strength tau (a i) (a j) (scaled_distance x a i j - 2) * direction x i j l
    else 0
  else 0.
Lemma push_spec i j l : push i j l = - repulsion strength tau x a i j l.
Proof. unfold push, repulsion. do 2 (destruct (Rlt_dec _ _); [|ring]). ring. Qed.
Lemma direction_anti i j l : direction x i j l = - direction x j i l.
Proof. unfold direction, vscal, vsub at 2 4. rewrite (norm_vsub_sym (x j)). ring. Qed.
Lemma size_sym a1 a2 g : repulsion_size strength tau a1 a2 g = repulsion_size strength tau a2 a1 g.
Proof. unfold repulsion_size. rewrite (Rplus_comm a1). unfold Rdiv. ring. Qed.
Lemma push_anti i j l : push i j l = - push j i l.
Proof.
  unfold push. rewrite (sd_sym i j), direction_anti, size_sym.
  do 2 (destruct (Rlt_dec _ _); [|ring]). ring.
Qed.
Lemma push_self i l : push i i l = 0.
Proof. pose proof (push_anti i i l). lra. Qed.

(** What one pass of the loop adds to the force of bead k. *)
Definition share (k : nat) (l : nat) (p : nat * nat) : R :=
  let f := repel strength tau Ns Nd spos dpos ddx ssizes dsizes (fun _ _ => 0) p in f k l.

Lemma repel_add f p k l : repel strength tau Ns Nd spos dpos ddx ssizes dsizes f p k l = f k l + share k l p.
Proof. unfold share, repel, add_at. cbv zeta. destruct (Nat.eqb k (snd p)), (Nat.eqb k (fst p)); ring. Qed.
Lemma fold_repel L f k l :
  fold_left (repel strength tau Ns Nd spos dpos ddx ssizes dsizes) L f k l = f k l + tally (share k l) L.
Proof.
  revert f. induction L as [|p L IH]; intros f; cbn [fold_left tally]; [ring|]. rewrite IH, repel_add. ring.
Qed.

Lemma share_eq k l i j :
  (if (Rltb 0 (sdm i j) && (Rltb (sdm i j) (22 / 10) && Nat.leb i j))%bool then share k l (i, j) else 0)
  = if Nat.leb i j then (if Nat.eqb k i then push i j l else 0) - (if Nat.eqb k j then push i j l else 0) else 0.
Proof.
  rewrite andb_assoc. destruct (Nat.leb i j); [|rewrite andb_false_r; reflexivity]. rewrite andb_true_r.
  unfold Rltb. rewrite sdm_eq. unfold push.
  destruct (Rlt_dec 0 (scaled_distance x a i j)) as [H0|H0]; cbn [andb]; [|destruct (Nat.eqb k i), (Nat.eqb k j); ring].
  replace (22 / 10) with (11 / 5) by field.
  destruct (Rlt_dec (scaled_distance x a i j) (11 / 5)) as [H1|H1]; cbn [andb]; [|destruct (Nat.eqb k i), (Nat.eqb k j); ring].
  unfold share, repel, add_at. cbn [fst snd]. cbv zeta. rewrite sdm_eq. fold x a.
  assert (E : (if Rleb 0 (scaled_distance x a i j - 2)
               then strength * (2 * a i * a j / (a i + a j)) * exp (- tau * (scaled_distance x a i j - 2))
               else strength * (2 * a i * a j / (a i + a j)))
              = repulsion_size strength tau (a i) (a j) (scaled_distance x a i j - 2)).
  { unfold repulsion_size, Rleb. destruct (Rle_dec 0 (scaled_distance x a i j - 2)).
    - rewrite Rmax_right by assumption. f_equal. f_equal. ring.
    - rewrite Rmax_left by lra. rewrite Rmult_0_r, Ropp_0, exp_0. ring. }
  rewrite E. unfold direction, vscal, Rdiv.
  destruct (Nat.eqb k i), (Nat.eqb k j); ring.
Qed.

Lemma bead_force_eq k l : (k < n)%nat ->
  bead_force strength tau Ns Nd spos dpos ddx ssizes dsizes k l = rsum n (fun q => push k q l).
Proof.
  intros Hk. unfold bead_force. rewrite fold_repel. unfold overlapping_or_close_pairs. rewrite tally_filter, tally_flat, tally_seq.
  fold n. rewrite Rplus_0_l.
  rewrite (rsum_ext n _ (fun i => rsum n (fun j =>
     if Nat.leb i j then (if Nat.eqb k i then push i j l else 0) - (if Nat.eqb k j then push i j l else 0) else 0))).
  2: { intros i Hi. rewrite tally_map, tally_seq. apply rsum_ext. intros j Hj. cbn [Nat.add fst snd]. rewrite <- share_eq. reflexivity. }
  rewrite (rsum_ext n _ (fun i => (if Nat.eqb k i then rsum n (fun j => if Nat.leb k j then push k j l else 0) else 0)
                                  + (if Nat.leb i k then push k i l else 0))).
  2: { intros i Hi. destruct (Nat.eqb_spec k i) as [->|Hne].
       - rewrite Nat.leb_refl, push_self, Rplus_0_r. apply rsum_ext. intros j Hj. destruct (Nat.leb i j); [|reflexivity].
         destruct (Nat.eqb_spec i j) as [->|]; [rewrite push_self|]; ring.
       - rewrite Rplus_0_l, (rsum_single n k) by (first [exact Hk | intros j Hj Hjk; destruct (Nat.leb i j); [|reflexivity];
           (destruct (Nat.eqb_spec k j); [congruence|ring])]).
         rewrite Nat.eqb_refl. destruct (Nat.leb i k); [|reflexivity]. rewrite (push_anti i k). ring. }
  rewrite rsum_plus. rewrite (rsum_single n k).
  - rewrite Nat.eqb_refl, <- rsum_plus. apply rsum_ext. intros q Hq.
    destruct (Nat.leb_spec k q), (Nat.leb_spec q k); try lia; try ring.
    replace q with k by lia. rewrite push_self. ring.
  - exact Hk.
  - intros i Hi Hne. destruct (Nat.eqb_spec k i); [congruence|reflexivity].
Qed.
End Pairs.

(** ** Independent description *)
Definition repulsion_statement strength tau Ns Nd spos dpos ddx ssizes dsizes lid (Fa Fb DFb Fa' Fb' DFb' : nat -> vec) : Prop :=
  let x := all_beads Ns Nd spos (fun i l => dpos i l - ddx i l / 2) (fun i l => dpos i l + ddx i l / 2) in
  let a := all_beads Ns Nd ssizes dsizes dsizes in
  let total := total_repulsion strength tau x a (Ns + 2 * Nd) in
  (forall i l, (i < Ns)%nat -> Fa' i l = Fa i l + if Nat.leb (2 * lid) i then total i l else 0) /\
  (forall i l, (i < Nd)%nat ->
     Fb' i l = Fb i l + (total (Ns + i)%nat l + total (Ns + Nd + i)%nat l) /\
     DFb' i l = DFb i l + (total (Ns + Nd + i)%nat l - total (Ns + i)%nat l)).

Lemma positions_eq Ns Nd spos dpos ddx :
  bead_positions Ns Nd spos dpos ddx = all_beads Ns Nd spos (fun i l => dpos i l - ddx i l / 2) (fun i l => dpos i l + ddx i l / 2).
Proof.
  apply functional_extensionality. intros b. unfold bead_positions, all_beads.
  destruct (Nat.ltb b Ns); [reflexivity|]. destruct (Nat.ltb b (Ns + Nd)); apply functional_extensionality; intros l; field.
Qed.
Lemma sizes_eq Ns Nd ssizes dsizes : bead_sizes Ns Nd ssizes dsizes = all_beads Ns Nd ssizes dsizes dsizes.
Proof. reflexivity. Qed.

Lemma force_total strength tau Ns Nd spos dpos ddx ssizes dsizes k l : (k < Ns + 2 * Nd)%nat ->
  bead_force strength tau Ns Nd spos dpos ddx ssizes dsizes k l =
  - total_repulsion strength tau (all_beads Ns Nd spos (fun i l => dpos i l - ddx i l / 2) (fun i l => dpos i l + ddx i l / 2))
      (all_beads Ns Nd ssizes dsizes dsizes) (Ns + 2 * Nd) k l.
Proof.
  intros Hk. rewrite bead_force_eq by exact Hk. unfold total_repulsion. rewrite <- rsum_opp. apply rsum_ext. intros q Hq.
  rewrite push_spec, positions_eq, sizes_eq. reflexivity.
Qed.

Lemma repulsion_correct strength tau Ns Nd spos dpos ddx ssizes dsizes lid Fa Fb DFb Fa' Fb' DFb' :
  repulsion_forces strength tau Ns Nd spos dpos ddx ssizes dsizes lid Fa Fb DFb = Ok (Fa', Fb', DFb') ->
  repulsion_statement strength tau Ns Nd spos dpos ddx ssizes dsizes lid Fa Fb DFb Fa' Fb' DFb'.
Proof.
  unfold repulsion_statement, repulsion_forces. cbv zeta. destruct (_ && _)%bool; [discriminate|].
  set (m := (2 * lid)%nat). intros E. injection E as <- <- <-. split.
  - intros i l Hi. destruct (Nat.leb m i); cbn [andb]; [|ring].
    destruct (Nat.ltb_spec i Ns); [|lia]. rewrite force_total by lia. unfold Rminus at 1. rewrite Ropp_involutive. reflexivity.
  - intros i l Hi. rewrite !force_total by lia. split; (apply Rplus_eq_compat_l with (r := Fb i l) || apply Rplus_eq_compat_l with (r := DFb i l)); unfold vec; ring.
Qed.

(** ** Properties of the sums *)
Section Sums.
Variables (strength tau : R) (x : nat -> vec) (a : nat -> R).
Notation rep := (repulsion strength tau x a).

Lemma rep_anti p q l : rep p q l = - rep q p l.
Proof.
  unfold repulsion, scaled_distance, direction, vscal, repulsion_size. rewrite (norm_vsub_sym (x q)), (Rplus_comm (a p)).
  do 2 (destruct (Rlt_dec _ _); [|ring]). unfold vsub, Rdiv. ring.
Qed.
Lemma rep_total n l : rsum n (fun p => total_repulsion strength tau x a n p l) = 0.
Proof.
  unfold total_repulsion. set (S := rsum n _).
  assert (E : S = - S).
  { unfold S at 1. rewrite rsum_swap. unfold S. rewrite <- rsum_opp. apply rsum_ext. intros p _. rewrite <- rsum_opp.
    apply rsum_ext. intros q _. apply rep_anti. }
  lra.
Qed.
Lemma rep_torque n l : (l < 3)%nat -> rsum n (fun p => cross (x p) (total_repulsion strength tau x a n p) l) = 0.
Proof.
  intros Hl. set (S := rsum n _).
  assert (D : S = rsum n (fun p => rsum n (fun q => cross (x p) (rep p q) l))).
  { unfold S. apply rsum_ext. intros p _. unfold total_repulsion. idx3 Hl; unfold cross, v3; rewrite <- !rsum_scal_l, <- rsum_minus; reflexivity. }
  assert (E : S = - S).
  { rewrite D at 1. rewrite rsum_swap. rewrite D, <- rsum_opp. apply rsum_ext. intros p _. rewrite <- rsum_opp.
    apply rsum_ext. intros q _.
    assert (P : forall i, (x q i - x p i) * 0 = 0) by (intros; ring).
    assert (C : cross (vsub (x q) (x p)) (rep q p) l = 0).
    { unfold repulsion, direction, vscal, cross, vsub.
      destruct (Rlt_dec _ _); [destruct (Rlt_dec _ _)|]; idx3 Hl; cbn [v3]; ring. }
    assert (A : cross (vsub (x q) (x p)) (rep q p) l = cross (x q) (rep q p) l + cross (x p) (rep p q) l).
    { unfold cross, vsub. rewrite !(rep_anti p q). idx3 Hl; cbn [v3]; ring. }
    lra. }
  lra.
Qed.
Lemma rep_away p q : 0 <= strength -> 0 < a p -> 0 < a q -> 0 <= dot3 (rep p q) (vsub (x p) (x q)).
Proof.
  intros Hs Hp Hq. unfold dot3, repulsion, direction, vscal.
  destruct (Rlt_dec _ _) as [H0|]; [|lra]. destruct (Rlt_dec _ _) as [H1|]; [|lra].
  set (c := repulsion_size _ _ _ _ _). set (r := / norm _).
  replace (_ + _ + _) with (c * (r * (vsub (x p) (x q) 0%nat ^ 2 + vsub (x p) (x q) 1%nat ^ 2 + vsub (x p) (x q) 2%nat ^ 2))) by (unfold vsub; ring).
  assert (Hn : 0 <= norm (vsub (x q) (x p))) by apply norm_nonneg.
  apply Rmult_le_pos; [|apply Rmult_le_pos].
  - unfold c, repulsion_size. apply Rmult_le_pos; [apply Rmult_le_pos; [exact Hs|]|left; apply exp_pos].
    apply Rmult_le_pos; [nra|]. left. apply Rinv_0_lt_compat. lra.
  - destruct Hn as [Hn|Hn]; [left; apply Rinv_0_lt_compat; exact Hn|]. unfold r. rewrite <- Hn, Rinv_0. lra.
  - pose proof (pow2_ge_0 (vsub (x p) (x q) 0%nat)). pose proof (pow2_ge_0 (vsub (x p) (x q) 1%nat)).
    pose proof (pow2_ge_0 (vsub (x p) (x q) 2%nat)). lra.
Qed.
Lemma rep_line p q : 0 <= strength -> 0 < a p -> 0 < a q ->
  exists c, 0 <= c /\ forall l, rep p q l = c * vsub (x p) (x q) l.
Proof.
  intros Hs Hp Hq. unfold repulsion.
  destruct (Rlt_dec _ _) as [H0|]; [|exists 0; split; [lra|intros; ring]].
  destruct (Rlt_dec _ _) as [H1|]; [|exists 0; split; [lra|intros; ring]].
  exists (repulsion_size strength tau (a p) (a q) (scaled_distance x a p q - 2) * / norm (vsub (x q) (x p))). split.
  - apply Rmult_le_pos.
    + unfold repulsion_size. apply Rmult_le_pos; [apply Rmult_le_pos; [exact Hs|]|left; apply exp_pos].
      apply Rmult_le_pos; [nra|]. left. apply Rinv_0_lt_compat. lra.
    + destruct (norm_nonneg (vsub (x q) (x p))) as [Hn|Hn]; [left; apply Rinv_0_lt_compat; exact Hn|].
      rewrite <- Hn, Rinv_0. lra.
  - intros l. unfold direction, vscal, vsub. ring.
Qed.
Lemma rep_size p q : 0 <= strength -> 0 < a p -> 0 < a q ->
  norm (rep p q) = if Rlt_dec 0 (scaled_distance x a p q) then
                     if Rlt_dec (scaled_distance x a p q) (11 / 5)
                     then repulsion_size strength tau (a p) (a q) (scaled_distance x a p q - 2) else 0
                   else 0.
Proof.
  intros Hs Hp Hq.
  assert (Z : norm (fun _ : nat => 0) = 0) by (unfold norm; replace (_ + _ + _) with 0 by ring; apply sqrt_0).
  destruct (Rlt_dec 0 (scaled_distance x a p q)) as [H0|H0];
   [destruct (Rlt_dec (scaled_distance x a p q) (11 / 5)) as [H1|H1]|].
  - rewrite (norm_ext3 _ (vscal (- repulsion_size strength tau (a p) (a q) (scaled_distance x a p q - 2)) (direction x p q))).
    2: { intros i _. unfold repulsion, vscal. destruct (Rlt_dec 0 _); [|contradiction]. destruct (Rlt_dec _ (11 / 5)); [ring|contradiction]. }
    rewrite norm_vscal, Rabs_Ropp, Rabs_right.
    2: { apply Rle_ge. unfold repulsion_size. apply Rmult_le_pos; [apply Rmult_le_pos; [exact Hs|]|left; apply exp_pos].
         apply Rmult_le_pos; [nra|]. left. apply Rinv_0_lt_compat. lra. }
    unfold direction. rewrite norm_vscal.
    assert (Hn : 0 < norm (vsub (x q) (x p))).
    { destruct (norm_nonneg (vsub (x q) (x p))) as [H|H]; [exact H|].
      unfold scaled_distance in H0. rewrite <- H in H0. unfold Rdiv in H0. rewrite Rmult_0_r, Rmult_0_l in H0. lra. }
    rewrite Rabs_right by (apply Rle_ge; left; apply Rinv_0_lt_compat; exact Hn). rewrite Rinv_l by lra. ring.
  - rewrite (norm_ext3 _ (fun _ => 0)); [exact Z|]. intros i _. unfold repulsion.
    destruct (Rlt_dec 0 _); [|reflexivity]. destruct (Rlt_dec _ (11 / 5)); [contradiction|reflexivity].
  - rewrite (norm_ext3 _ (fun _ => 0)); [exact Z|]. intros i _. unfold repulsion.
    destruct (Rlt_dec 0 _); [contradiction|reflexivity].
Qed.
Lemma size_decreasing a1 a2 g g' : 0 <= strength -> 0 <= tau -> 0 < a1 -> 0 < a2 -> g <= g' ->
  repulsion_size strength tau a1 a2 g' <= repulsion_size strength tau a1 a2 g.
Proof.
  intros Hs Ht H1 H2 Hg. unfold repulsion_size. apply Rmult_le_compat_l.
  - apply Rmult_le_pos; [exact Hs|]. apply Rmult_le_pos; [nra|]. left. apply Rinv_0_lt_compat. lra.
  - assert (M : Rmax 0 g <= Rmax 0 g') by (apply Rle_max_compat_l; exact Hg).
    assert (E : - (tau * Rmax 0 g') <= - (tau * Rmax 0 g)) by nra.
    destruct E as [E| ->]; [left; apply exp_increasing; exact E|right; reflexivity].
Qed.
End Sums.

(** ** Totals over the suspension *)
Lemma beads_sum Ns Nd (f : nat -> R) :
  rsum (Ns + 2 * Nd) f = rsum Ns f + rsum Nd (fun i => f (Ns + i)%nat + f (Ns + Nd + i)%nat).
Proof.
  rewrite rsum_app. replace (2 * Nd)%nat with (Nd + Nd)%nat by lia. rewrite rsum_app, rsum_plus.
  f_equal. f_equal. apply rsum_ext. intros i _. f_equal. lia.
Qed.
Lemma suspension_balance strength tau Ns Nd spos dpos ddx ssizes dsizes Fa Fb DFb Fa' Fb' DFb' :
  repulsion_forces strength tau Ns Nd spos dpos ddx ssizes dsizes 0 Fa Fb DFb = Ok (Fa', Fb', DFb') ->
  (forall l, rsum Ns (fun i => Fa' i l) + rsum Nd (fun i => Fb' i l) = rsum Ns (fun i => Fa i l) + rsum Nd (fun i => Fb i l)) /\
  (forall l, (l < 3)%nat ->
     rsum Ns (fun i => cross (spos i) (vsub (Fa' i) (Fa i)) l)
     + rsum Nd (fun i => cross (dpos i) (vsub (Fb' i) (Fb i)) l + cross (vscal (1 / 2) (ddx i)) (vsub (DFb' i) (DFb i)) l) = 0).
Proof.
  intros H. apply repulsion_correct in H.
  unfold repulsion_statement in H. cbv zeta in H.
  set (x := all_beads Ns Nd spos (fun i l => dpos i l - ddx i l / 2) (fun i l => dpos i l + ddx i l / 2)) in *.
  set (a := all_beads Ns Nd ssizes dsizes dsizes) in *.
  destruct H as [HA HB].
  set (T := total_repulsion strength tau x a (Ns + 2 * Nd)) in *.
  assert (HA' : forall i l, (i < Ns)%nat -> Fa' i l = Fa i l + T i l).
  { intros i l Hi. rewrite HA by exact Hi. reflexivity. }
  assert (HB' : forall i l, (i < Nd)%nat ->
     Fb' i l = Fb i l + (T (Ns + i)%nat l + T (Ns + Nd + i)%nat l) /\
     DFb' i l = DFb i l + (T (Ns + Nd + i)%nat l - T (Ns + i)%nat l)) by exact HB.
  clear HA HB. rename HB' into HB.
  assert (XS : forall i, (i < Ns)%nat -> x i = spos i).
  { intros i Hi. unfold x, all_beads. destruct (Nat.ltb_spec i Ns); [reflexivity|lia]. }
  assert (X1 : forall i, (i < Nd)%nat -> x (Ns + i)%nat = fun l => dpos i l - ddx i l / 2).
  { intros i Hi. unfold x, all_beads. destruct (Nat.ltb_spec (Ns + i) Ns); [lia|]. destruct (Nat.ltb_spec (Ns + i) (Ns + Nd)); [|lia].
    replace (Ns + i - Ns)%nat with i by lia. reflexivity. }
  assert (X2 : forall i, (i < Nd)%nat -> x (Ns + Nd + i)%nat = fun l => dpos i l + ddx i l / 2).
  { intros i Hi. unfold x, all_beads. destruct (Nat.ltb_spec (Ns + Nd + i) Ns); [lia|]. destruct (Nat.ltb_spec (Ns + Nd + i) (Ns + Nd)); [lia|].
    replace (Ns + Nd + i - Ns - Nd)%nat with i by lia. reflexivity. }
  split.
  - intros l. pose proof (rep_total strength tau x a (Ns + 2 * Nd) l) as Z. fold T in Z. rewrite beads_sum in Z.
    rewrite (rsum_ext Ns _ (fun i => Fa i l + T i l)) by (intros; apply HA'; assumption).
    rewrite (rsum_ext Nd (fun i => Fb' i l) (fun i => Fb i l + (T (Ns + i)%nat l + T (Ns + Nd + i)%nat l))) by (intros i Hi; apply (HB i l Hi)).
    rewrite !rsum_plus in *. lra.
  - intros l Hl. pose proof (rep_torque strength tau x a (Ns + 2 * Nd) l Hl) as Z. fold T in Z. rewrite beads_sum in Z.
    rewrite <- Z. f_equal.
    + apply rsum_ext. intros i Hi. rewrite XS by exact Hi. unfold cross, vsub. rewrite !HA' by exact Hi. idx3 Hl; cbn [v3]; ring.
    + apply rsum_ext. intros i Hi. rewrite X1, X2 by exact Hi. unfold cross, vsub, vscal.
      rewrite !(proj1 (HB i _ Hi)), !(proj2 (HB i _ Hi)). idx3 Hl; cbn [v3]; field.
Qed.
