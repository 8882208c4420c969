(** The velocities of spheres and dumbbells on which forces and torques act. *)
From Coq Require Import Reals Arith Bool List Lia Lra FunctionalExtensionality.
From Verif Require Import Base Py Model_Pack Model_Mob Model_Layout Model_Minf Model_L Spec_L Spec_Layout Spec_Minf Spec_Rotate Spec_Convert Spec_Push Spec_Tow
  Proof_Layout Proof_Mob Proof_Minf Proof_L Proof_Minf2 Proof_Minf3 Proof_Minf4 Proof_Rotate5 Proof_Push1 Proof_Push2.
Import ListNotations.
Local Open Scope R_scope.

Section Rows.
Variables (bb : bool) (p : posdata) (mu : R) (w u : vec) (F T B D : nat -> vec).
Let Ns := num_spheres p.
Let Nd := num_dumbbells p.
Let n := (11 * Ns + 6 * Nd)%nat.
Let nb := (Ns + 2 * Nd)%nat.
Let x := bead_positions p.
Let a := bead_sizes p.
Let c := 1 / (8 * PI * mu).
Let L := minf_loop bb p mu.
Let G := bead_force Ns Nd F B D.
Let H := bead_torque Ns T.
Hypothesis Hmu : 0 < mu.
Hypothesis Ha : forall b, (b < nb)%nat -> 0 < a b.
Hypothesis Hx : forall b b', (b < nb)%nat -> (b' < nb)%nat -> b <> b' -> / 10 ^ 8 < norm (vsub (x b) (x b')).
Hypothesis HM : linrel n (generate_Minfinity bb p mu) w u.
Hypothesis HF : forall b l, (b < Ns)%nat -> (l < 3)%nat -> w (kstart Ns KU b + l)%nat = F b l.
Hypothesis HT : forall b l, (b < Ns)%nat -> (l < 3)%nat -> w (kstart Ns KO b + l)%nat = T b l.
Hypothesis HS : forall b l, (b < Ns)%nat -> (l < 5)%nat -> w (kstart Ns KS b + l)%nat = 0.
Hypothesis HB : forall d l, (d < Nd)%nat -> (l < 3)%nat -> w (11 * Ns + 3 * d + l)%nat = B d l.
Hypothesis HD : forall d l, (d < Nd)%nat -> (l < 3)%nat -> w (11 * Ns + 3 * Nd + 3 * d + l)%nat = D d l.

(** The forces on the beads. *)
Let f : vec := fun i =>
  if Nat.ltb i (11 * Ns) then w i
  else if Nat.ltb i (11 * Ns + 3 * Nd) then (w i - w (i + 3 * Nd)%nat) / 2 else (w i + w (i - 3 * Nd)%nat) / 2.
Lemma totals i : (i < n)%nat -> total_and_difference Ns Nd f i = w i.
Proof.
  intros Hi. unfold total_and_difference, f, n in *.
  destruct (Nat.ltb_spec i (11 * Ns)); [reflexivity|].
  destruct (Nat.ltb_spec i (11 * Ns + 3 * Nd)).
  - destruct (Nat.ltb_spec (i + 3 * Nd) (11 * Ns)); [lia|]. destruct (Nat.ltb_spec (i + 3 * Nd) (11 * Ns + 3 * Nd)); [lia|].
    replace (i + 3 * Nd - 3 * Nd)%nat with i by lia. field.
  - destruct (Nat.ltb_spec (i - 3 * Nd) (11 * Ns)); [lia|]. destruct (Nat.ltb_spec (i - 3 * Nd) (11 * Ns + 3 * Nd)); [|lia].
    replace (i - 3 * Nd + 3 * Nd)%nat with i by lia. field.
Qed.
Let v := mvec n L f.
Lemma motion i : (i < n)%nat -> u i = mean_and_half_difference Ns Nd v i.
Proof.
  intros Hi. unfold v, L, n in *. rewrite <- minf_transform_mobility by exact Hi. rewrite (HM i Hi). unfold mvec. apply rsum_ext. intros j Hj.
  rewrite totals by exact Hj. f_equal. exact (gen_transform bb p mu i j Hi Hj).
Qed.
Lemma f_sphere k b i : k <> KB -> (b < Ns)%nat -> (i < ksize k)%nat -> f (kstart Ns k b + i)%nat = w (kstart Ns k b + i)%nat.
Proof. intros N Hb Hi. unfold f. destruct (Nat.ltb_spec (kstart Ns k b + i) (11 * Ns)); [reflexivity|]. destruct k; cbn [kstart ksize] in *; congruence || lia. Qed.
Lemma f_bead d l : (d < 2 * Nd)%nat -> (l < 3)%nat -> f (kstart Ns KB (Ns + d) + l)%nat = G (Ns + d)%nat l.
Proof.
  intros Hd Hl. unfold f, G, bead_force. cbn [kstart]. replace (Ns + d - Ns)%nat with d by lia.
  destruct (Nat.ltb_spec (11 * Ns + 3 * d + l) (11 * Ns)); [lia|]. destruct (Nat.ltb_spec (Ns + d) Ns); [lia|].
  destruct (Nat.ltb_spec (Ns + d) (Ns + Nd)); destruct (Nat.ltb_spec (11 * Ns + 3 * d + l) (11 * Ns + 3 * Nd)); try lia.
  - rewrite HB by lia. replace (11 * Ns + 3 * d + l + 3 * Nd)%nat with (11 * Ns + 3 * Nd + 3 * d + l)%nat by lia. rewrite HD by lia. reflexivity.
  - replace (11 * Ns + 3 * d + l - 3 * Nd)%nat with (11 * Ns + 3 * (d - Nd) + l)%nat by lia. rewrite (HB (d - Nd)) by lia.
    replace (11 * Ns + 3 * d + l)%nat with (11 * Ns + 3 * Nd + 3 * (d - Nd) + l)%nat by lia. rewrite (HD (d - Nd)%nat) by lia. lra.
Qed.

Definition kof (b : nat) : kind := if Nat.ltb b Ns then KU else KB.
Lemma kof_valid b : (b < nb)%nat -> kvalid Ns Nd (kof b) b.
Proof. intros Hb. unfold kof, nb in *. destruct (Nat.ltb_spec b Ns); cbn; lia. Qed.
Lemma row k b i : kvalid Ns Nd k b -> (i < ksize k)%nat ->
  v (kstart Ns k b + i)%nat = rsum nb (fun j => rsum 3 (fun l => ent Ns L k b (kof j) j i l * G j l)
     + if Nat.ltb j Ns then rsum 3 (fun l => ent Ns L k b KO j i l * T j l) else 0).
Proof.
  intros Hk Hi. unfold v, mvec, n. rewrite rsum_blocks.
  rewrite (rsum_zero Ns (fun q => rsum 5 (fun l => L (kstart Ns k b + i)%nat (kstart Ns KS q + l)%nat * f (kstart Ns KS q + l)%nat))).
  2:{ intros j Hj. apply rsum_zero. intros l Hl. rewrite f_sphere by (try assumption; discriminate). rewrite HS by assumption. ring. }
  rewrite Rplus_0_r. unfold nb. rewrite rsum_app. rewrite <- rsum_plus. f_equal.
  - apply rsum_ext. intros j Hj. unfold kof, G, bead_force. destruct (Nat.ltb_spec j Ns); [|lia].
    f_equal; apply rsum_ext; intros l Hl; rewrite f_sphere by (try assumption; discriminate); [rewrite HF by assumption|rewrite HT by assumption]; reflexivity.
  - apply rsum_ext. intros d Hd. unfold kof. destruct (Nat.ltb_spec (Ns + d) Ns); [lia|]. rewrite Rplus_0_r.
    apply rsum_ext. intros l Hl. rewrite f_bead by assumption. reflexivity.
Qed.

Lemma pair_ent k b j k' i l : kvalid Ns Nd k b -> kvalid Ns Nd k' j -> (i < ksize k)%nat -> (l < ksize k')%nat -> b <> j ->
  ent Ns L k b k' j i l = match k, k', bb with KB, KB, false => 0
    | _, _, _ => pmob k k' (fst (pair_geometry (x b) (x j) (a b) (a j))) (used_separation (x b) (x j) (a b) (a j)) (a b) (a j) c mu i l end.
Proof.
  intros V1 V2 Hi Hl Ne.
  assert (Hb : (b < nb)%nat) by (unfold nb; destruct k; cbn in V1; lia). assert (Hj : (j < nb)%nat) by (unfold nb; destruct k'; cbn in V2; lia).
  pose proof (Ha b Hb) as A1. pose proof (Ha j Hj) as A2. pose proof (Hx b j Hb Hj Ne) as X.
  destruct (geom_used (x b) (x j) (a b) (a j) ltac:(lra) X) as (G1 & _ & _).
  unfold L, minf_loop. fold Ns Nd. rewrite loop_pair; try assumption.
  - unfold bead_mobility. fold x a. rewrite G1. destruct (Nat.eqb_spec b j) as [|_]; [contradiction|]. rewrite orb_false_r. destruct k, k', bb; reflexivity.
  - fold a. lra.
  - fold x. pose proof e8. unfold tiny in *. lra.
Qed.
Lemma self_ent k b k' i l : kvalid Ns Nd k b -> kvalid Ns Nd k' b -> (i < ksize k)%nat -> (l < ksize k')%nat ->
  ent Ns L k b k' b i l = self_value k k' (a b) mu i l.
Proof. intros. unfold L, minf_loop. apply loop_self; assumption. Qed.

Ltac three := try assumption; try lra; apply Hx; (assumption || congruence).
Lemma H_bead j : (Ns <= j)%nat -> H j = v3 0 0 0.
Proof. intros Hj. apply functional_extensionality. intros l. unfold H, bead_torque. destruct (Nat.ltb_spec j Ns); [lia|]. destruct l as [|[|[|l]]]; reflexivity. Qed.
Lemma H_sphere j : (j < Ns)%nat -> H j = T j.
Proof. intros Hj. apply functional_extensionality. intros l. unfold H, bead_torque. destruct (Nat.ltb_spec j Ns); [reflexivity|lia]. Qed.

Theorem towed_row b l : (b < nb)%nat -> (l < 3)%nat -> v (kstart Ns (kof b) b + l)%nat = towed_velocity bb mu Ns nb x a G H b l.
Proof.
  intros Hb Hl. pose proof (kof_valid b Hb) as Vb. rewrite (row (kof b) b l Vb) by (unfold kof; destruct (Nat.ltb b Ns); exact Hl). unfold towed_velocity.
  assert (E : G b l / (6 * PI * mu * a b) = rsum nb (fun j => delta b j * (G j l / (6 * PI * mu * a j)))) by (symmetry; apply (rsum_delta_l nb b (fun j => G j l / (6 * PI * mu * a j))); exact Hb).
  rewrite E, <- rsum_plus. apply rsum_ext. intros j Hj. pose proof (kof_valid j Hj) as Vj.
  assert (K3 : forall y, ksize (kof y) = 3%nat) by (intros y; unfold kof; destruct (Nat.ltb y Ns); reflexivity).
  unfold delta, felt. destruct (Nat.eqb_spec b j) as [<-|Ne]; cbn [negb andb].
  - rewrite (rsum_ext 3 _ (fun m => delta l m * (G b m / (6 * PI * mu * a b)))).
    2:{ intros m Hm. rewrite self_ent by (try assumption; rewrite K3; assumption). unfold kof. destruct (Nat.ltb b Ns); cbn [self_value]; unfold Rdiv; ring. }
    rewrite (rsum_delta_l 3 l (fun m => G b m / (6 * PI * mu * a b)) Hl).
    destruct (Nat.ltb_spec b Ns) as [Lb|Lb]; [|ring]. rewrite rsum_zero; [ring|]. intros m Hm. rewrite self_ent; try assumption; [|rewrite K3; assumption].
    unfold kof. destruct (Nat.ltb_spec b Ns); [|lia]. cbn [self_value]. ring.
  - pose proof (Ha b Hb). pose proof (Ha j Hj). rewrite Rmult_0_l, Rplus_0_l.
    rewrite (rsum_ext 3 _ (fun m => (if (bb || Nat.ltb b Ns || Nat.ltb j Ns)%bool then pmob KU KU (fst (pair_geometry (x b) (x j) (a b) (a j))) (used_separation (x b) (x j) (a b) (a j)) (a b) (a j) c mu l m else 0) * G j m)).
    2:{ intros m Hm. rewrite pair_ent by (try assumption; rewrite K3; assumption). unfold kof. destruct (Nat.ltb b Ns), (Nat.ltb j Ns), bb; reflexivity. }
    destruct (Nat.ltb_spec j Ns) as [Lj|Lj].
    + rewrite !orb_true_r. rewrite <- swept_sum. rewrite (H_sphere j Lj).
      rewrite <- (uu (x b) (x j) (a b) (a j) mu (G j)) by three. rewrite <- (uo (x b) (x j) (a b) (a j) mu (T j)) by three. f_equal.
      apply rsum_ext. intros m Hm. rewrite pair_ent by (try assumption; rewrite K3; assumption). unfold kof. destruct (Nat.ltb b Ns); reflexivity.
    + rewrite orb_false_r, Rplus_0_r. rewrite (H_bead j Lj). destruct (bb || Nat.ltb b Ns)%bool.
      * rewrite <- (uu (x b) (x j) (a b) (a j) mu (G j)) by three. reflexivity.
      * apply rsum_zero. intros m Hm. ring.
Qed.
Theorem spun_row b l : (b < Ns)%nat -> (l < 3)%nat -> v (kstart Ns KO b + l)%nat = towed_spin bb mu Ns nb x a G H b l.
Proof.
  intros Hb Hl. assert (Hb' : (b < nb)%nat) by (unfold nb; lia). rewrite (row KO b l Hb) by exact Hl. unfold towed_spin.
  assert (E : H b l / (8 * PI * mu * a b ^ 3) = rsum nb (fun j => delta b j * (H j l / (8 * PI * mu * a j ^ 3)))) by (symmetry; apply (rsum_delta_l nb b (fun j => H j l / (8 * PI * mu * a j ^ 3))); exact Hb').
  rewrite E, <- rsum_plus. apply rsum_ext. intros j Hj. pose proof (kof_valid j Hj) as Vj.
  assert (K3 : forall y, ksize (kof y) = 3%nat) by (intros y; unfold kof; destruct (Nat.ltb y Ns); reflexivity).
  unfold delta, felt. destruct (Nat.eqb_spec b j) as [<-|Ne]; cbn [negb andb].
  - rewrite rsum_zero. 2:{ intros m Hm. rewrite self_ent by (try assumption; rewrite K3; assumption). unfold kof. destruct (Nat.ltb b Ns); cbn [self_value]; ring. }
    destruct (Nat.ltb_spec b Ns) as [_|]; [|lia]. rewrite (rsum_ext 3 _ (fun m => delta l m * (T b m / (8 * PI * mu * a b ^ 3)))).
    2:{ intros m Hm. rewrite self_ent by assumption. cbn [self_value]. unfold Rdiv. ring. }
    rewrite (rsum_delta_l 3 l (fun m => T b m / (8 * PI * mu * a b ^ 3)) Hl). rewrite (H_sphere b Hb). ring.
  - pose proof (Ha b Hb'). pose proof (Ha j Hj). rewrite Rmult_0_l, Rplus_0_l.
    assert (Lb : Nat.ltb b Ns = true) by (apply Nat.ltb_lt; exact Hb). rewrite Lb, orb_true_r. cbn [orb].
    rewrite (rsum_ext 3 _ (fun m => pmob KO KU (fst (pair_geometry (x b) (x j) (a b) (a j))) (used_separation (x b) (x j) (a b) (a j)) (a b) (a j) c mu l m * G j m)).
    2:{ intros m Hm. rewrite pair_ent by (try assumption; rewrite K3; assumption). unfold kof. destruct (Nat.ltb j Ns); reflexivity. }
    destruct (Nat.ltb_spec j Ns) as [Lj|Lj].
    + rewrite <- swirled_sum. rewrite (H_sphere j Lj).
      rewrite <- (ou (x b) (x j) (a b) (a j) mu (G j)) by three. rewrite <- (oo (x b) (x j) (a b) (a j) mu (T j)) by three. f_equal.
      apply rsum_ext. intros m Hm. rewrite pair_ent by assumption. reflexivity.
    + rewrite Rplus_0_r, (H_bead j Lj). rewrite <- (ou (x b) (x j) (a b) (a j) mu (G j)) by three. reflexivity.
Qed.
Theorem strained_row b m : (b < Ns)%nat -> (m < 5)%nat -> v (kstart Ns KS b + m)%nat = condense_idx (towed_strain bb mu Ns nb x a G H b) m.
Proof.
  intros Hb Hm. assert (Hb' : (b < nb)%nat) by (unfold nb; lia). rewrite (row KS b m Hb) by exact Hm.
  assert (K3 : forall y, ksize (kof y) = 3%nat) by (intros y; unfold kof; destruct (Nat.ltb y Ns); reflexivity).
  assert (Lb : Nat.ltb b Ns = true) by (apply Nat.ltb_lt; exact Hb).
  transitivity (rsum nb (fun j => condense_idx (fun k l => if felt bb Ns b j then strained mu (x b) (x j) (a b) (a j) (G j) (H j) k l else 0) m)).
  - apply rsum_ext. intros j Hj. pose proof (kof_valid j Hj) as Vj. unfold felt. rewrite Lb, orb_true_r. cbn [orb]. rewrite andb_true_r.
    destruct (Nat.eqb_spec b j) as [<-|Ne]; cbn [negb].
    + rewrite rsum_zero. 2:{ intros l Hl. rewrite self_ent by (try assumption; rewrite K3; assumption). unfold kof. rewrite Lb. cbn [self_value]. ring. }
      rewrite Lb, rsum_zero; [unfold condense_idx, rsum; ring|]. intros l Hl. rewrite self_ent by assumption. cbn [self_value]. ring.
    + pose proof (Ha b Hb'). pose proof (Ha j Hj).
      rewrite (rsum_ext 3 _ (fun l => pmob KS KU (fst (pair_geometry (x b) (x j) (a b) (a j))) (used_separation (x b) (x j) (a b) (a j)) (a b) (a j) c mu m l * G j l)).
      2:{ intros l Hl. rewrite pair_ent by (try assumption; rewrite K3; assumption). unfold kof. destruct (Nat.ltb j Ns); reflexivity. }
      destruct (Nat.ltb_spec j Ns) as [Lj|Lj].
      * rewrite (H_sphere j Lj).
        rewrite (condense_ext _ (fun k l => strained mu (x b) (x j) (a b) (a j) (G j) (v3 0 0 0) k l + strained mu (x b) (x j) (a b) (a j) (v3 0 0 0) (T j) k l)) by (intros; symmetry; apply strained_sum; assumption).
        transitivity (condense_idx (strained mu (x b) (x j) (a b) (a j) (G j) (v3 0 0 0)) m + condense_idx (strained mu (x b) (x j) (a b) (a j) (v3 0 0 0) (T j)) m); [|unfold condense_idx, rsum; ring].
        rewrite <- (su (x b) (x j) (a b) (a j) mu (G j)) by three. rewrite <- (so (x b) (x j) (a b) (a j) mu (T j)) by three. f_equal.
        apply rsum_ext. intros l Hl. rewrite pair_ent by assumption. reflexivity.
      * rewrite Rplus_0_r, (H_bead j Lj). rewrite <- (su (x b) (x j) (a b) (a j) mu (G j)) by three. reflexivity.
  - unfold condense_idx, towed_strain. rewrite rsum_swap. apply rsum_ext. intros k Hk. rewrite rsum_swap. apply rsum_ext. intros l Hl. apply rsum_scal_l.
Qed.

(** The answers, in the coordinates of the grand vector. *)
Theorem towed_sphere b l : (b < Ns)%nat -> (l < 3)%nat -> u (kstart Ns KU b + l)%nat = towed_velocity bb mu Ns nb x a G H b l.
Proof.
  intros Hb Hl. rewrite motion by (unfold n; cbn [kstart]; lia). unfold mean_and_half_difference. destruct (Nat.ltb_spec (kstart Ns KU b + l) (11 * Ns)); [|cbn [kstart] in *; lia].
  rewrite <- towed_row by (try assumption; unfold nb; lia). unfold kof. destruct (Nat.ltb_spec b Ns); [reflexivity|lia].
Qed.
Theorem towed_turn b l : (b < Ns)%nat -> (l < 3)%nat -> u (kstart Ns KO b + l)%nat = towed_spin bb mu Ns nb x a G H b l.
Proof.
  intros Hb Hl. rewrite motion by (unfold n; cbn [kstart]; lia). unfold mean_and_half_difference. destruct (Nat.ltb_spec (kstart Ns KO b + l) (11 * Ns)); [|cbn [kstart] in *; lia].
  apply spun_row; assumption.
Qed.
Theorem towed_stretch b m : (b < Ns)%nat -> (m < 5)%nat -> u (kstart Ns KS b + m)%nat = condense_idx (towed_strain bb mu Ns nb x a G H b) m.
Proof.
  intros Hb Hl. rewrite motion by (unfold n; cbn [kstart]; lia). unfold mean_and_half_difference. destruct (Nat.ltb_spec (kstart Ns KS b + m) (11 * Ns)); [|cbn [kstart] in *; lia].
  apply strained_row; assumption.
Qed.
Lemma bead_row d l : (d < 2 * Nd)%nat -> (l < 3)%nat -> v (11 * Ns + 3 * d + l)%nat = towed_velocity bb mu Ns nb x a G H (Ns + d) l.
Proof.
  intros Hd Hl. rewrite <- towed_row by (try assumption; unfold nb; lia). unfold kof. destruct (Nat.ltb_spec (Ns + d) Ns); [lia|]. cbn [kstart].
  f_equal. lia.
Qed.
Theorem towed_centre d l : (d < Nd)%nat -> (l < 3)%nat ->
  u (11 * Ns + 3 * d + l)%nat = (towed_velocity bb mu Ns nb x a G H (Ns + d) l + towed_velocity bb mu Ns nb x a G H (Ns + Nd + d) l) / 2.
Proof.
  intros Hd Hl. rewrite motion by (unfold n; lia). unfold mean_and_half_difference.
  destruct (Nat.ltb_spec (11 * Ns + 3 * d + l) (11 * Ns)); [lia|]. destruct (Nat.ltb_spec (11 * Ns + 3 * d + l) (11 * Ns + 3 * Nd)); [|lia].
  rewrite bead_row by lia. replace (11 * Ns + 3 * d + l + 3 * Nd)%nat with (11 * Ns + 3 * (Nd + d) + l)%nat by lia. rewrite bead_row by lia.
  rewrite Nat.add_assoc. reflexivity.
Qed.
Theorem towed_half d l : (d < Nd)%nat -> (l < 3)%nat ->
  u (11 * Ns + 3 * Nd + 3 * d + l)%nat = (towed_velocity bb mu Ns nb x a G H (Ns + Nd + d) l - towed_velocity bb mu Ns nb x a G H (Ns + d) l) / 2.
Proof.
  intros Hd Hl. rewrite motion by (unfold n; lia). unfold mean_and_half_difference.
  destruct (Nat.ltb_spec (11 * Ns + 3 * Nd + 3 * d + l) (11 * Ns)); [lia|]. destruct (Nat.ltb_spec (11 * Ns + 3 * Nd + 3 * d + l) (11 * Ns + 3 * Nd)); [lia|].
  replace (11 * Ns + 3 * Nd + 3 * d + l - 3 * Nd)%nat with (11 * Ns + 3 * d + l)%nat by lia. rewrite bead_row by lia.
  replace (11 * Ns + 3 * Nd + 3 * d + l)%nat with (11 * Ns + 3 * (Nd + d) + l)%nat by lia. rewrite bead_row by lia.
  rewrite Nat.add_assoc. reflexivity.
Qed.
End Rows.
