(** Self blocks, repaired separation, drag approximation. *)
From Coq Require Import Reals Arith Bool List Lia Lra FunctionalExtensionality.
From Verif Require Import Base Model_Pack Model_Mob Model_Layout Model_Minf Model_L Model_Grand Spec_Layout Spec_Minf
  Spec_Calc Proof_Fold Proof_Layout Proof_Calc Proof_Mob Proof_Mob2 Proof_Minf Proof_L Proof_Minf2 Proof_Minf3.
Import ListNotations.
Local Open Scope R_scope.

(** ** Self blocks *)
Lemma loop_self bb x a Ns Nd c mu k1 k2 p i j :
  kvalid Ns Nd k1 p -> kvalid Ns Nd k2 p -> (i < ksize k1)%nat -> (j < ksize k2)%nat ->
  ent Ns (generate_Minfinity_loop bb x a Ns Nd c mu) k1 p k2 p i j = self_value k1 k2 (a p) mu i j.
Proof.
  intros V1 V2 Hi Hj.
  transitivity (bead_mobility bb (fun p q => pair_geometry (x p) (x q) (a p) (a q)) a c mu k1 p k2 p i j).
  - destruct (le_lt_dec (kstart Ns k1 p + i) (kstart Ns k2 p + j)) as [Hle|Hgt].
    { apply loop_upper; assumption. }
    unfold ent. rewrite loop_sym by (apply block_range; assumption).
    change (generate_Minfinity_loop bb x a Ns Nd c mu (kstart Ns k2 p + j)%nat (kstart Ns k1 p + i)%nat)
      with (ent Ns (generate_Minfinity_loop bb x a Ns Nd c mu) k2 p k1 p j i).
    rewrite loop_upper by (try assumption; lia). apply self_sym; assumption.
  - unfold bead_mobility. rewrite geom_self, Nat.eqb_refl, orb_true_r. cbn [fst snd].
    assert (T : ~ tiny < 0) by exact tiny_not_0.
    assert (Hr : vopp (vsub (x p) (x p)) = vsub (x p) (x p)).
    { apply functional_extensionality. intros t. unfold vopp, vsub. ring. }
    assert (Z12 : forall r b1 b2 i j, M12 r 0 b1 b2 i j c mu = 0).
    { intros. unfold M12. destruct (Rlt_dec tiny 0); [contradiction|reflexivity]. }
    assert (Z13 : forall r b1 b2 i j l, M13 r 0 b1 b2 i j l c mu = 0).
    { intros. unfold M13. destruct (Rlt_dec tiny 0); [contradiction|reflexivity]. }
    assert (Z11 : forall u v i j, M11 u v 0 (a p) (a p) i j c mu = delta i j / (6 * PI * mu * a p)).
    { intros. unfold M11. destruct (Rlt_dec tiny 0); [contradiction|reflexivity]. }
    destruct k1, k2; unfold pmob, self_value; rewrite ?Hr;
      try (apply Z11); try (apply Z12);
      try (apply condense_zero; intros; (apply Z13 || apply M23_zero_self));
      try (simpl in V1, V2; lia).
    + unfold M22. destruct (Rlt_dec _ _) as [H|H]; [|reflexivity].
      exfalso. revert H. unfold vsub. rewrite !Rminus_diag_eq by reflexivity. rewrite Rabs_R0. pose proof tiny_pos. lra.
    + destruct (Rlt_dec tiny 0); [contradiction|reflexivity].
Qed.

Lemma gen_self bb p mu k1 k2 b i j :
  (b < num_spheres p)%nat -> k1 <> KB -> k2 <> KB -> (i < ksize k1)%nat -> (j < ksize k2)%nat ->
  generate_Minfinity bb p mu (kstart (num_spheres p) k1 b + i)%nat (kstart (num_spheres p) k2 b + j)%nat =
  self_value k1 k2 (sphere_sizes p b) mu i j.
Proof.
  intros Hb N1 N2 Hi Hj.
  assert (V1 : kvalid (num_spheres p) (num_dumbbells p) k1 b) by (destruct k1; simpl; congruence || assumption).
  assert (V2 : kvalid (num_spheres p) (num_dumbbells p) k2 b) by (destruct k2; simpl; congruence || assumption).
  rewrite gen_transform by (apply block_range; assumption).
  change (ent (num_spheres p) (minf_transform (num_spheres p) (num_dumbbells p) (minf_loop bb p mu)) k1 b k2 b i j
          = self_value k1 k2 (sphere_sizes p b) mu i j).
  rewrite transform_ent by assumption.
  replace (wsum _ _ _ _ _ _) with (ent (num_spheres p) (minf_loop bb p mu) k1 b k2 b i j)
    by (destruct k1, k2; try congruence; reflexivity).
  unfold minf_loop. rewrite loop_self by assumption. unfold bead_sizes.
  rewrite (proj2 (Nat.ltb_lt _ _) Hb). reflexivity.
Qed.

(** ** Only the first three components of the displacement matter *)
Lemma pmob_ext3 k1 k2 r r' s ap aq c mu i j :
  (i < ksize k1)%nat -> (j < ksize k2)%nat -> (forall t, (t < 3)%nat -> r t = r' t) ->
  pmob k1 k2 r s ap aq c mu i j = pmob k1 k2 r' s ap aq c mu i j.
Proof.
  intros Hi Hj H.
  assert (Hv : forall t, (t < 3)%nat -> vopp r t = vopp r' t) by (intros; unfold vopp; rewrite H by assumption; reflexivity).
  assert (A12 : forall r r' b1 b2 i j, (forall t, (t < 3)%nat -> r t = r' t) -> (i < 3)%nat -> (j < 3)%nat ->
      M12 r s b1 b2 i j c mu = M12 r' s b1 b2 i j c mu).
  { intros q q' b1 b2 m n Hq Hm Hn.
    transitivity (M12 (v3 (q 0%nat) (q 1%nat) (q 2%nat)) s b1 b2 m n c mu); [|rewrite !Hq by lia];
    idx3 Hm; idx3 Hn; reflexivity. }
  assert (A13 : forall r r' b1 b2 i j k, (forall t, (t < 3)%nat -> r t = r' t) -> (i < 3)%nat -> (j < 3)%nat -> (k < 3)%nat ->
      M13 r s b1 b2 i j k c mu = M13 r' s b1 b2 i j k c mu).
  { intros q q' b1 b2 m n l Hq Hm Hn Hl.
    transitivity (M13 (v3 (q 0%nat) (q 1%nat) (q 2%nat)) s b1 b2 m n l c mu); [|rewrite !Hq by lia];
    idx3 Hm; idx3 Hn; idx3 Hl; reflexivity. }
  assert (A23 : forall r r' b1 b2 i j k, (forall t, (t < 3)%nat -> r t = r' t) -> (i < 3)%nat -> (j < 3)%nat -> (k < 3)%nat ->
      M23 r s b1 b2 i j k c mu = M23 r' s b1 b2 i j k c mu).
  { intros q q' b1 b2 m n l Hq Hm Hn Hl.
    transitivity (M23 (v3 (q 0%nat) (q 1%nat) (q 2%nat)) s b1 b2 m n l c mu); [|rewrite !Hq by lia];
    idx3 Hm; idx3 Hn; idx3 Hl; reflexivity. }
  assert (A22 : forall r r' b1 b2 i j, (forall t, (t < 3)%nat -> r t = r' t) -> (i < 3)%nat -> (j < 3)%nat ->
      M22 r s b1 b2 i j c mu = M22 r' s b1 b2 i j c mu).
  { intros q q' b1 b2 m n Hq Hm Hn.
    transitivity (M22 (v3 (q 0%nat) (q 1%nat) (q 2%nat)) s b1 b2 m n c mu); [|rewrite !Hq by lia];
    idx3 Hm; idx3 Hn; reflexivity. }
  destruct k1, k2; unfold pmob; cbn [ksize] in Hi, Hj;
      try (rewrite !H by assumption; reflexivity);
      try (apply A12; assumption); try (apply A22; assumption);
      try (apply condense_ext; intros; solve [apply A13; assumption | apply A23; assumption]).
  destruct (Rlt_dec tiny s); [|reflexivity].
  apply condense_ext; intros k l Hk Hl. apply condense_ext; intros k' l' Hk' Hl'.
  transitivity (M33 (v3 (r 0%nat) (r 1%nat) (r 2%nat)) s ap aq k l k' l' c mu); [|rewrite !H by lia];
  idx3 Hk; idx3 Hl; idx3 Hk'; idx3 Hl'; reflexivity.
Qed.

Lemma geom_used x1 x2 a1 a2 : 0 < a1 + a2 -> / 10 ^ 8 < norm (vsub x1 x2) ->
  snd (pair_geometry x1 x2 a1 a2) = used_separation x1 x2 a1 a2 /\
  (forall i, (i < 3)%nat ->
     fst (pair_geometry x1 x2 a1 a2) i = along x1 x2 (used_separation x1 x2 a1 a2) i) /\
  norm (fst (pair_geometry x1 x2 a1 a2)) = used_separation x1 x2 a1 a2.
Proof.
  intros Ha H. set (r := vsub x1 x2) in *. set (s := norm r) in *.
  assert (Hs0 : 0 < s) by (pose proof e8; pose proof tiny_pos; unfold tiny in *; lra).
  assert (E : snd (pair_geometry x1 x2 a1 a2) = used_separation x1 x2 a1 a2 /\
     (forall i, (i < 3)%nat -> fst (pair_geometry x1 x2 a1 a2) i = along x1 x2 (used_separation x1 x2 a1 a2) i)).
  { unfold pair_geometry, used_separation, along. fold r s.
    destruct (Rlt_dec (/ 10 ^ 8) s) as [_|]; [|contradiction].
    destruct (Rlt_dec (2 * s / (a1 + a2)) (2001 / 1000)) as [H2|H2]; cbn [fst snd].
    - assert (s < 2001 / 1000 * ((a1 + a2) / 2)).
      { apply Rmult_lt_compat_r with (r := a1 + a2) in H2; [|exact Ha].
        replace (2 * s / (a1 + a2) * (a1 + a2)) with (2 * s) in H2 by (field; lra). lra. }
      rewrite Rmax_right by lra. split; [lra|].
      intros i Hi. unfold vscal. idx3 Hi; simpl; unfold Rdiv; ring.
    - assert (2001 / 1000 * ((a1 + a2) / 2) <= s).
      { apply Rnot_lt_le in H2. apply Rmult_le_compat_r with (r := a1 + a2) in H2; [|lra].
        replace (2 * s / (a1 + a2) * (a1 + a2)) with (2 * s) in H2 by (field; lra). lra. }
      rewrite Rmax_left by lra. split; [reflexivity|].
      intros i Hi. unfold vscal. field. lra. }
  destruct E as [E1 E2]. split; [exact E1|]. split; [exact E2|].
  rewrite <- E1. apply geom_far; [exact Ha|]. fold r s. pose proof e8. unfold tiny. lra.
Qed.

Lemma sphere_ent bb p mu k1 b k2 b' i j :
  (b < num_spheres p)%nat -> (b' < num_spheres p)%nat ->
  k1 <> KB -> k2 <> KB -> (i < ksize k1)%nat -> (j < ksize k2)%nat ->
  generate_Minfinity bb p mu (kstart (num_spheres p) k1 b + i)%nat (kstart (num_spheres p) k2 b' + j)%nat =
  ent (num_spheres p) (minf_loop bb p mu) k1 b k2 b' i j.
Proof.
  intros Hb Hb' N1 N2 Hi Hj.
  assert (V1 : kvalid (num_spheres p) (num_dumbbells p) k1 b) by (destruct k1; simpl; congruence || assumption).
  assert (V2 : kvalid (num_spheres p) (num_dumbbells p) k2 b') by (destruct k2; simpl; congruence || assumption).
  rewrite gen_transform by (apply block_range; assumption).
  change (ent (num_spheres p) (minf_transform (num_spheres p) (num_dumbbells p) (minf_loop bb p mu)) k1 b k2 b' i j
          = ent (num_spheres p) (minf_loop bb p mu) k1 b k2 b' i j).
  rewrite transform_ent by assumption.
  destruct k1, k2; try congruence; reflexivity.
Qed.

(** The block of two different spheres further apart than 1e-8. *)
Lemma loop_pair bb x a Ns Nd c mu k1 p k2 q i j :
  kvalid Ns Nd k1 p -> kvalid Ns Nd k2 q -> (i < ksize k1)%nat -> (j < ksize k2)%nat ->
  p <> q -> 0 < a p + a q -> tiny < norm (vsub (x p) (x q)) ->
  ent Ns (generate_Minfinity_loop bb x a Ns Nd c mu) k1 p k2 q i j =
  bead_mobility bb (fun p q => pair_geometry (x p) (x q) (a p) (a q)) a c mu k1 p k2 q i j.
Proof.
  intros V1 V2 Hi Hj Hne Ha Hx.
  destruct (le_lt_dec (kstart Ns k1 p + i) (kstart Ns k2 q + j)) as [Hle|Hgt].
  { apply loop_upper; assumption. }
  unfold ent. rewrite loop_sym by (apply block_range; assumption).
  change (generate_Minfinity_loop bb x a Ns Nd c mu (kstart Ns k2 q + j)%nat (kstart Ns k1 p + i)%nat)
    with (ent Ns (generate_Minfinity_loop bb x a Ns Nd c mu) k2 q k1 p j i).
  rewrite loop_upper by (try assumption; lia).
  rewrite (swap_entry bb x a c mu k2 q k1 p j i). unfold bead_mobility.
  destruct (geom_far (x p) (x q) (a p) (a q) Ha Hx) as [H1 H2].
  assert (Hfar : tiny < snd (pair_geometry (x p) (x q) (a p) (a q)) /\ tiny < L1 (fst (pair_geometry (x p) (x q) (a p) (a q)))).
  { split; [exact H1|]. apply Rlt_le_trans with (1 := H1). rewrite <- H2 at 1. apply norm_le_L1. }
  pose proof (pmob_swap k1 k2 _ _ (a p) (a q) c mu i j Hi Hj (fun _ => Hfar)) as E.
  destruct k1, k2; destruct (bb || Nat.eqb p q)%bool; try reflexivity; exact E.
Qed.

Lemma gen_pair_used bb p mu k1 b k2 b' i j :
  (b < num_spheres p)%nat -> (b' < num_spheres p)%nat -> b <> b' ->
  k1 <> KB -> k2 <> KB -> (i < ksize k1)%nat -> (j < ksize k2)%nat ->
  0 < sphere_sizes p b -> 0 < sphere_sizes p b' ->
  / 10 ^ 8 < norm (vsub (sphere_positions p b) (sphere_positions p b')) ->
  let l := used_separation (sphere_positions p b) (sphere_positions p b') (sphere_sizes p b) (sphere_sizes p b') in
  generate_Minfinity bb p mu (kstart (num_spheres p) k1 b + i)%nat (kstart (num_spheres p) k2 b' + j)%nat =
  pmob k1 k2 (along (sphere_positions p b) (sphere_positions p b') l) l
    (sphere_sizes p b) (sphere_sizes p b') (1 / (8 * PI * mu)) mu i j.
Proof.
  intros Hb Hb' Hne N1 N2 Hi Hj A1 A2 H8 l.
  rewrite sphere_ent by assumption.
  assert (V1 : kvalid (num_spheres p) (num_dumbbells p) k1 b) by (destruct k1; simpl; congruence || assumption).
  assert (V2 : kvalid (num_spheres p) (num_dumbbells p) k2 b') by (destruct k2; simpl; congruence || assumption).
  assert (P1 : bead_positions p b = sphere_positions p b) by (unfold bead_positions; rewrite (proj2 (Nat.ltb_lt _ _) Hb); reflexivity).
  assert (P2 : bead_positions p b' = sphere_positions p b') by (unfold bead_positions; rewrite (proj2 (Nat.ltb_lt _ _) Hb'); reflexivity).
  assert (S1 : bead_sizes p b = sphere_sizes p b) by (unfold bead_sizes; rewrite (proj2 (Nat.ltb_lt _ _) Hb); reflexivity).
  assert (S2 : bead_sizes p b' = sphere_sizes p b') by (unfold bead_sizes; rewrite (proj2 (Nat.ltb_lt _ _) Hb'); reflexivity).
  assert (H10 : tiny < norm (vsub (sphere_positions p b) (sphere_positions p b'))) by (pose proof e8; unfold tiny; lra).
  unfold minf_loop. rewrite loop_pair; try assumption.
  2:{ rewrite S1, S2. lra. }
  2:{ rewrite P1, P2. exact H10. }
  unfold bead_mobility. rewrite P1, P2, S1, S2.
  destruct (geom_used (sphere_positions p b) (sphere_positions p b') (sphere_sizes p b) (sphere_sizes p b') ltac:(lra) H8) as (E1 & E2 & _).
  rewrite E1. fold l.
  rewrite <- (pmob_ext3 k1 k2 _ _ l _ _ (1 / (8 * PI * mu)) mu i j Hi Hj E2).
  destruct k1, k2; try congruence; reflexivity.
Qed.

(** ** Drag approximation *)
Lemma drag_entry p mu k b i : (b < num_spheres p)%nat -> k <> KB -> (i < ksize k)%nat ->
  drag_Minfinity_inverse p mu (kstart (num_spheres p) k b + i)%nat (kstart (num_spheres p) k b + i)%nat =
  mu * match k with KU => sphere_sizes p b | KO => 4 / 3 * sphere_sizes p b ^ 3 | _ => 10 / 9 * sphere_sizes p b ^ 3 end.
Proof.
  intros Hb N Hi. unfold drag_Minfinity_inverse. rewrite Nat.eqb_refl. f_equal.
  destruct k; try congruence; cbn [kstart ksize] in *.
  - destruct (Nat.ltb_spec (3 * b + i) (3 * num_spheres p)); [|lia].
    f_equal. symmetry. apply (Nat.div_unique _ 3 b i); lia.
  - destruct (Nat.ltb_spec (3 * num_spheres p + 3 * b + i) (3 * num_spheres p)); [lia|].
    destruct (Nat.ltb_spec (3 * num_spheres p + 3 * b + i) (6 * num_spheres p)); [|lia].
    rewrite <- (Nat.div_unique (3 * num_spheres p + 3 * b + i - 3 * num_spheres p) 3 b i) by lia. field.
  - destruct (Nat.ltb_spec (6 * num_spheres p + 5 * b + i) (3 * num_spheres p)); [lia|].
    destruct (Nat.ltb_spec (6 * num_spheres p + 5 * b + i) (6 * num_spheres p)); [lia|].
    destruct (Nat.ltb_spec (6 * num_spheres p + 5 * b + i) (11 * num_spheres p)); [|lia].
    rewrite <- (Nat.div_unique (6 * num_spheres p + 5 * b + i - 6 * num_spheres p) 5 b i) by lia. field.
Qed.
Lemma drag_off p mu r t : r <> t -> drag_Minfinity_inverse p mu r t = 0.
Proof. intros H. unfold drag_Minfinity_inverse. destruct (Nat.eqb_spec r t); [contradiction|ring]. Qed.

Lemma drag_lone bb p mu r t : num_spheres p = 1%nat -> num_dumbbells p = 0%nat ->
  0 < mu -> 0 < sphere_sizes p 0%nat -> (r < 11)%nat -> (t < 11)%nat ->
  mmul 11 (drag_Minfinity_inverse p mu) (generate_Minfinity bb p mu) r t = / (6 * PI) * delta r t.
Proof.
  intros Es Ed Hmu Ha Hr Ht. pose proof PI_RGT_0 as HPI.
  unfold mmul. rewrite (rsum_single 11 r); [|exact Hr|].
  2:{ intros l Hl Hne. rewrite drag_off by congruence. ring. }
  destruct (block_cover 1 0 r ltac:(lia)) as (k1 & b & i & V1 & Hi & ->).
  destruct (block_cover 1 0 t ltac:(lia)) as (k2 & b' & j & V2 & Hj & ->).
  assert (N1 : k1 <> KB) by (intros ->; simpl in V1; lia).
  assert (N2 : k2 <> KB) by (intros ->; simpl in V2; lia).
  assert (b = 0 /\ b' = 0)%nat as [-> ->] by (destruct k1, k2; simpl in V1, V2; lia).
  pose proof (drag_entry p mu k1 0 i ltac:(lia) N1 Hi) as D.
  pose proof (gen_self bb p mu k1 k2 0 i j ltac:(lia) N1 N2 Hi Hj) as G.
  rewrite Es in D, G. rewrite D, G. clear D G.
  set (a := sphere_sizes p 0%nat) in *.
  destruct k1, k2; try congruence; cbn [self_value];
    try (rewrite (delta_diff (kstart 1 _ 0 + i) (kstart 1 _ 0 + j)) by (cbn [kstart ksize] in *; lia); ring).
  all: cbn [kstart ksize] in *.
  - replace (delta (3 * 0 + i) (3 * 0 + j)) with (delta i j) by (f_equal; lia). field. lra.
  - replace (delta (3 * 1 + 3 * 0 + i) (3 * 1 + 3 * 0 + j)) with (delta i j)
      by (unfold delta; destruct (Nat.eqb_spec i j), (Nat.eqb_spec (3 * 1 + 3 * 0 + i) (3 * 1 + 3 * 0 + j)); try lia; reflexivity).
    field. lra.
  - replace (delta (6 * 1 + 5 * 0 + i) (6 * 1 + 5 * 0 + j)) with (delta i j)
      by (unfold delta; destruct (Nat.eqb_spec i j), (Nat.eqb_spec (6 * 1 + 5 * 0 + i) (6 * 1 + 5 * 0 + j)); try lia; reflexivity).
    field. lra.
Qed.
