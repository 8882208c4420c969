(** The table with single-sphere drags subtracted. *)
From Coq Require Import Reals Arith Bool List Lia Lra FunctionalExtensionality.
From Verif Require Import Base Py Model_Pack Model_Mob Model_Layout Model_Minf Model_Grand Model_GrandP Model_L Model_Close Model_R2B Model_Subtract
  Spec_Layout Spec_Minf Spec_R2B Spec_Close Spec_Subtract
  Proof_Layout Proof_Minf Proof_Minf2 Proof_Minf3 Proof_Minf4 Proof_R2B Proof_R2B2 Proof_R2B3 Proof_R2B4 Proof_Close Proof_Interp
  Proof_GrandP Proof_Rotate3 Proof_Axi1 Proof_Axi2 Proof_Axi3 Proof_Subtract1 Proof_Subtract2 Proof_Subtract3 Proof_Subtract4.
Import ListNotations.
Local Open Scope R_scope.

Definition ones (g n : nat) : R :=
  match g, n with 0, 0 | 0, 1 | 0, 3 | 0, 4 | 0, 8 | 0, 9 | 0, 10 => 1%R | _, _ => 0%R end%nat.
Lemma extract_drag lam s n g : (n < 11)%nat -> (g < 2)%nat -> extract (Rinfinity_drag lam s) n g = ones g n.
Proof.
  intros Hn Hg. pose proof PI_nz as HP. pose proof s2_nz as H2. pose proof R_nz as HR.
  destruct g as [|[|g]]; [| |lia]; destruct n as [|[|[|[|[|[|[|[|[|[|[|n]]]]]]]]]]]; try lia;
  unfold extract, Rinfinity_drag; cbn [Nat.eqb nth ones]; field; repeat split; assumption || lra.
Qed.
Lemma interp_shift c x : forall l x0 y0 ys, length ys = length l ->
  interp_from x0 (y0 - c) x (combine l (map (fun y => y - c) ys)) = interp_from x0 y0 x (combine l ys) - c.
Proof.
  induction l as [|x1 l IH]; intros x0 y0 [|y1 ys] HL; cbn in HL; try discriminate; cbn [map combine interp_from]; [ring|].
  destruct (Rle_dec x x1); [unfold Rdiv; ring|]. apply IH. lia.
Qed.
Lemma lam_from_lt lam : forall table k t, lam_index_from k table lam = Some t -> (t < k + length table)%nat.
Proof.
  induction table as [|y l IH]; intros k t; cbn [lam_index_from]; [discriminate|]. destruct (isclose y lam).
  - intros E. inversion E. cbn. lia.
  - intros E. apply IH in E. cbn. lia.
Qed.
Lemma lam_ix_lt lams lam : lams <> [] -> (lam_ix lams lam < length lams)%nat.
Proof.
  intros N. unfold lam_ix, lam_index. destruct (lam_index_from 0 lams lam) as [t|] eqn:E; [apply lam_from_lt in E; exact E|].
  destruct lams; [congruence|cbn; lia].
Qed.
Lemma drag_scalar lams srange raw n g s lam : srange <> [] -> lams <> [] -> (n < 11)%nat -> (g < 2)%nat ->
  XYZ (subtract_R2Binfinitydrag lams srange raw) srange n g s (lam_ix lams lam) = XYZ raw srange n g s (lam_ix lams lam) - ones g n.
Proof.
  intros Hs Hl Hn Hg. pose proof (lam_ix_lt lams lam Hl) as Hx. unfold XYZ.
  replace (map (fun t => subtract_R2Binfinitydrag lams srange raw n g t (lam_ix lams lam)) (seq 0 (length srange)))
    with (map (fun y => y - ones g n) (map (fun t => raw n g t (lam_ix lams lam)) (seq 0 (length srange)))).
  - destruct srange as [|x0 l]; [congruence|]. cbn [length seq map combine np_interp]. destruct (Rle_dec s x0); [reflexivity|].
    apply interp_shift. rewrite map_length, seq_length. reflexivity.
  - rewrite map_map. apply map_ext_in. intros t Ht. apply in_seq in Ht. unfold subtract_R2Binfinitydrag, subtract_with.
    destruct (Nat.ltb_spec t (length srange)); [|lia]. destruct (Nat.ltb_spec (lam_ix lams lam) (length lams)); [|lia]. cbn [andb].
    rewrite extract_drag by assumption. reflexivity.
Qed.

Lemma condense_id i j : (i < 5)%nat -> (j < 5)%nat ->
  condense_idx (fun k l => condense_idx (fun m n => / 2 * (delta k m * delta l n + delta l m * delta k n) - / 3 * (delta k l * delta m n)) j) i = delta i j.
Proof.
  intros Hi Hj. pose proof (two_SS (fun _ => 1) i j Hi Hj) as E. cbn [two_body] in E.
  assert (C : condense_idx (fun k l => condense_idx (fun m n => / 2 * (delta k m * delta l n + delta l m * delta k n) - / 3 * (delta k l * delta m n)) j) i
    = cSS 1 1 0 i j); [|rewrite C; unfold delta; destruct i as [|[|[|[|[|i]]]]], j as [|[|[|[|[|j]]]]]; try lia; cbn [cSS Nat.eqb]; ring].
  assert (HP : 20 / 3 * PI <> 0) by (pose proof PI_nz; lra). apply (Rmult_eq_reg_l (20 / 3 * PI)); [|exact HP].
  transitivity (cSS (20 / 3 * PI * 1) (20 / 3 * PI * 1) (20 / 3 * PI * ((1 - 1) / 4)) i j).
  - rewrite <- E. rewrite pow1, Rmult_1_r. f_equal. apply condense_ext'. intros k l. apply condense_ext'. intros m n. unfold dev, trans.
    rewrite ?(delta_sym l m), ?(delta_sym m l), ?(delta_sym n l), ?(delta_sym k n). field.
  - destruct i as [|[|[|[|[|i]]]]], j as [|[|[|[|[|j]]]]]; try lia; cbn [cSS]; field.
Qed.
Definition same_kind (k1 k2 : kind) : bool := match k1, k2 with KU, KU | KO, KO | KS, KS => true | _, _ => false end.
Lemma two_ones g k1 k2 d a i j : (g < 2)%nat -> k1 <> KB -> k2 <> KB -> (mrank k2 <= mrank k1)%nat -> (i < ksize k1)%nat -> (j < ksize k2)%nat ->
  two_body (ones g) k1 k2 d a i j = if (Nat.eqb g 0 && same_kind k1 k2 && Nat.eqb i j)%bool then lone_drag k1 a else 0.
Proof.
  intros Hg N1 N2 Hr Hi Hj.
  assert (Z : forall m, condense_idx (fun _ _ => 0) m = 0).
  { intros m. unfold condense_idx. apply rsum_zero. intros. apply rsum_zero. intros. ring. }
  assert (D : forall b : nat, (if Nat.eqb i b then 1 else 0) = delta i b) by reflexivity.
  destruct k1, k2; cbn [mrank] in Hr; try lia; try congruence; cbn [two_body same_kind andb]; destruct g as [|[|g]]; try lia; cbn [ones Nat.eqb andb].
  all: try (destruct (Nat.eqb_spec i j) as [->|Ne]; unfold trans, lone_drag;
       [unfold delta; rewrite Nat.eqb_refl; ring|unfold delta; rewrite (proj2 (Nat.eqb_neq i j) Ne); ring]).
  all: try ring.
  all: try (destruct (Nat.eqb i j); ring).
  all: try (match goal with |- _ * condense_idx ?f ?m = _ => replace (condense_idx f m) with 0; [ring|symmetry; etransitivity; [|apply (Z m)]; apply condense_ext'; intros; ring] end).
  - rewrite (condense_ext' _ (fun k l => condense_idx (fun m n => / 2 * (delta k m * delta l n + delta l m * delta k n) - / 3 * (delta k l * delta m n)) j)).
    + rewrite condense_id by assumption. unfold delta, lone_drag. destruct (Nat.eqb i j); ring.
    + intros k l. apply condense_ext'. intros m n. unfold dev, trans. rewrite ?(delta_sym m l), ?(delta_sym n l), ?(delta_sym n k), ?(delta_sym m k). field.
  - match goal with |- _ * condense_idx ?f ?m = _ => replace (condense_idx f m) with 0; [ring|] end.
    symmetry. etransitivity; [|apply (Z i)]. apply condense_ext'. intros. etransitivity; [|apply (Z j)]. apply condense_ext'. intros. ring.
Qed.
Lemma two_ext11 f g k1 k2 d a i j : (forall n, (n < 11)%nat -> f n = g n) -> two_body f k1 k2 d a i j = two_body g k1 k2 d a i j.
Proof. intros H. destruct k1, k2; cbn [two_body]; rewrite ?(H 0%nat), ?(H 1%nat), ?(H 2%nat), ?(H 3%nat), ?(H 4%nat), ?(H 5%nat), ?(H 6%nat), ?(H 7%nat), ?(H 8%nat), ?(H 9%nat), ?(H 10%nat) by lia; reflexivity. Qed.

Section Drag.
Variables (bb : bool) (lams srange : list R) (raw : nat -> nat -> nat -> nat -> R) (p : posdata) (cf mu : R) (G Gd : mat).
Let Ns := num_spheres p.
Let nb := (num_spheres p + 2 * num_dumbbells p)%nat.
Let x := bead_positions p.
Let a := bead_sizes p.
Hypothesis Hs : srange <> []. Hypothesis Hl : lams <> [].
Hypothesis Hcf : 0 < cf. Hypothesis Ha : forall b, (b < nb)%nat -> 0 < a b.
Hypothesis HG : generate_R2Bexact_free (XYZ raw srange) lams bb p cf mu = Some G.
Hypothesis HGd : generate_R2Bexact_free (XYZ (subtract_R2Binfinitydrag lams srange raw) srange) lams bb p cf mu = Some Gd.

Lemma drag_value g s lam k1 k2 d b i j : (g < 2)%nat -> k1 <> KB -> k2 <> KB -> (mrank k2 <= mrank k1)%nat -> (i < ksize k1)%nat -> (j < ksize k2)%nat ->
  two_body (fun n => XYZ (subtract_R2Binfinitydrag lams srange raw) srange n g s (lam_ix lams lam)) k1 k2 d b i j
  = two_body (fun n => XYZ raw srange n g s (lam_ix lams lam)) k1 k2 d b i j - (if (Nat.eqb g 0 && same_kind k1 k2 && Nat.eqb i j)%bool then lone_drag k1 b else 0).
Proof.
  intros Hg N1 N2 Hr Hi Hj. rewrite <- (two_ones g k1 k2 d b i j) by assumption. rewrite <- two_body_minus by exact Hr. apply two_ext11. intros n Hn. apply drag_scalar; assumption.
Qed.
Lemma drag_upper k1 u k2 v i j : k1 <> KB -> k2 <> KB -> (u < Ns)%nat -> (v < Ns)%nat -> (i < ksize k1)%nat -> (j < ksize k2)%nat ->
  (mrank k1 <> mrank k2 \/ (u <= v)%nat) ->
  ent Ns Gd k1 u k2 v i j = ent Ns G k1 u k2 v i j - neighbour_drags x a nb cf mu k1 u k2 v i j.
Proof.
  intros N1 N2 Hu Hv Hi Hj Hor.
  assert (SK : forall z, neighbour_drags x a nb cf mu k1 u k2 v i j = z <->
    (if (same_kind k1 k2 && (Nat.eqb u v && Nat.eqb i j))%bool then mu * rsum nb (fun q' => if Nat.eqb q' u then 0 else if Rlt_dec (scaled_distance x a u q') (2 * cf) then 1 else 0) * lone_drag k1 (a u) else 0) = z).
  { intros z. unfold neighbour_drags. destruct k1, k2; cbn [same_kind andb]; tauto. }
  unfold Ns. rewrite (sphere_near _ _ _ _ _ _ _ _ _ _ _ _ _ Hcf Ha HG N1 N2 Hu Hv Hi Hj Hor).
  rewrite (sphere_near _ _ _ _ _ _ _ _ _ _ _ _ _ Hcf Ha HGd N1 N2 Hu Hv Hi Hj Hor).
  fold nb x a. rewrite (proj2 (SK _) eq_refl). clear SK. unfold free_resistance. destruct (Nat.eqb_spec u v) as [<-|Ne].
  - transitivity (mu * (rsum nb (fun w => if (negb (Nat.eqb w u) && (if Rlt_dec (scaled_distance x a u w) (2 * cf) then true else false))%bool
       then self_block (XYZ raw srange) (lam_ix lams) k1 k2 (direction x u w) (scaled_distance x a u w) (a u) (a w) i j else 0)
       - rsum nb (fun w => (if Nat.eqb w u then 0 else if Rlt_dec (scaled_distance x a u w) (2 * cf) then 1 else 0) * (if (same_kind k1 k2 && Nat.eqb i j)%bool then lone_drag k1 (a u) else 0)))).
    + f_equal. rewrite <- rsum_minus. apply rsum_ext. intros w Hw. destruct (Nat.eqb_spec w u) as [->|Nw]; cbn [negb andb]; [ring|].
      destruct (Rlt_dec _ _) as [Hd|_]; [|ring]. unfold self_block. destruct (Nat.leb_spec (mrank k2) (mrank k1)) as [L|L].
      * rewrite drag_value by (assumption || lia). cbn [Nat.eqb andb]. ring.
      * rewrite drag_value by (assumption || lia). destruct k1, k2; cbn [mrank] in L; try lia; try congruence; cbn [same_kind andb Nat.eqb]; ring.
    + rewrite rsum_scal_r. cbn [andb]. destruct (same_kind k1 k2 && Nat.eqb i j)%bool; ring.
  - cbn [andb]. rewrite Bool.andb_false_r, Rminus_0_r. f_equal. destruct k1, k2; try congruence; destruct (Rlt_dec _ _); try reflexivity;
    unfold cross_block; cbn [mrank Nat.leb]; rewrite drag_value by (congruence || lia || assumption || (cbn; lia)); cbn [Nat.eqb andb]; ring.
Qed.
Theorem near_drag k1 u k2 v i j : k1 <> KB -> k2 <> KB -> (u < Ns)%nat -> (v < Ns)%nat -> (i < ksize k1)%nat -> (j < ksize k2)%nat ->
  ent Ns Gd k1 u k2 v i j = ent Ns G k1 u k2 v i j - neighbour_drags x a nb cf mu k1 u k2 v i j.
Proof.
  intros N1 N2 Hu Hv Hi Hj. destruct (le_lt_dec u v) as [L|L]; [apply drag_upper; auto|].
  assert (V1 : kvalid Ns (num_dumbbells p) k1 u) by (destruct k1; cbn; lia || congruence).
  assert (V2 : kvalid Ns (num_dumbbells p) k2 v) by (destruct k2; cbn; lia || congruence).
  assert (F : neighbour_drags x a nb cf mu k1 u k2 v i j = neighbour_drags x a nb cf mu k2 v k1 u j i).
  { unfold neighbour_drags. destruct k1, k2; try reflexivity; rewrite (proj2 (Nat.eqb_neq u v)), (proj2 (Nat.eqb_neq v u)) by lia; reflexivity. }
  rewrite F. pose proof (drag_upper k2 v k1 u j i N2 N1 Hv Hu Hj Hi ltac:(right; lia)) as E. unfold ent in *.
  rewrite (gen_r2b_sym _ _ _ _ _ _ _ _ _ HGd) by (apply block_range; assumption).
  rewrite (gen_r2b_sym _ _ _ _ _ _ _ _ _ HG (kstart Ns k1 u + i)%nat) by (apply block_range; assumption). exact E.
Qed.
End Drag.
Lemma equal_some sc table bb p cf mu b0 : 0 < cf -> 0 < b0 -> (forall b, (b < num_spheres p + 2 * num_dumbbells p)%nat -> bead_sizes p b = b0) ->
  In 1 table -> exists G, generate_R2Bexact_free sc table bb p cf mu = Some G.
Proof.
  intros Hcf Hb Ha H1. unfold generate_R2Bexact_free, generate_R2Bexact.
  destruct (generate_R2Bexact_loop sc table bb (bead_sizes p) (num_spheres p) (num_dumbbells p) (close_particles_free (bead_positions p) (bead_sizes p) (num_spheres p + 2 * num_dumbbells p) cf)) as [M|] eqn:E; [eexists; reflexivity|exfalso].
  apply (loop_fails_iff sc table bb _ _ _ _ (num_spheres p + 2 * num_dumbbells p)%nat) in E; [|apply free_close_list; exact Hcf|intros; rewrite Ha by assumption; exact Hb].
  destruct E as (t & Ht & HN). apply free_in in Ht. destruct Ht as (Hbb & _ & Et).
  assert (R1 : cp_ratio t = 1). { rewrite Et. unfold free_record. cbn [cp_ratio]. rewrite !Ha by lia. field. lra. }
  assert (F : forall tb k, In 1 tb -> lam_index_from k tb 1 <> None).
  { induction tb as [|y l IH]; intros k HI; [destruct HI|]. cbn [lam_index_from]. destruct (isclose y 1) eqn:C; [discriminate|].
    destruct HI as [->|HI]; [|apply IH; exact HI]. exfalso. revert C. apply not_false_iff_true. apply isclose_true. rewrite Rminus_diag_eq by reflexivity. rewrite Rabs_R0, Rabs_R1.
    assert (0 < / 10 ^ 8) by (apply Rinv_0_lt_compat, pow_lt; lra). assert (0 < / 10 ^ 5) by (apply Rinv_0_lt_compat, pow_lt; lra). lra. }
  rewrite R1 in HN. replace (1 / 1) with 1 in HN by field. destruct HN as [HN|HN]; exact (F table 0%nat H1 HN).
Qed.
