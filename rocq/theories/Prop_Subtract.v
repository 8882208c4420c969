(** C67: the far field is subtracted from the tabulated resistance scalars, and
    what the simulation adds back makes pairs exact.
    C69: combining the near-field and mid-field tables. *)
From Coq Require Import Reals List Arith Bool Lia Lra Sorted Permutation.
From Verif Require Import Base Py Model_Pack Model_Mob Model_Layout Model_Minf Model_Grand Model_GrandP Model_L Model_Close Model_R2B Model_Table Model_Subtract
  Spec_Layout Spec_Minf Spec_R2B Spec_Close Spec_Subtract Spec_Posdef Spec_Wide
  Proof_Layout Proof_GrandP Proof_Posdef Proof_Table Proof_Wide3 Proof_MinfP8 Proof_Subtract2 Proof_Subtract3 Proof_Subtract4 Proof_Subtract5 Proof_Subtract6 Proof_Subtract7.
Import ListNotations.
Local Open Scope R_scope.

(** Far-field resistance of any pair (any positions, sizes and viscosity): it is
    the two-body resistance function of the 22 numbers that the script reads out
    of the pair on the x axis with radii 1 and the size ratio. *)
Theorem C67_pair_resistance bb x0 x1 a0 a1 mu I J k1 k2 q i j :
  let r := norm (vsub x1 x0) in
  0 < a0 -> 0 < a1 -> mu <> 0 -> / 10 ^ 8 < r -> / 10 ^ 8 < r / a0 ->
  is_inv 22 (generate_Minfinity bb (pair_posdata (a1 / a0) (2 * r / (a0 + a1))) 1) I ->
  is_inv 22 (generate_Minfinity bb (two_spheres x0 x1 a0 a1) mu) J ->
  (q < 2)%nat -> k1 <> KB -> k2 <> KB -> (mrank k2 <= mrank k1)%nat -> (i < ksize k1)%nat -> (j < ksize k2)%nat ->
  pair_block J k1 0 k2 q i j = mu * two_body (fun n => extract I n q) k1 k2 (vscal (/ r) (vsub x1 x0)) a0 i j.
Proof. intros r H0 H1 Hm H8 H8'. exact (pair_general bb x0 x1 a0 a1 mu H0 H1 Hm H8 H8' I J k1 k2 q i j). Qed.
Print Assumptions C67_pair_resistance.

(** The script reads scalars out of a matrix as the simulation puts them in: out
    of the near field of that pair, it reads the numbers in the table. *)
Theorem C67_extract_round_trip sc table bb lam s cf G n g :
  0 < lam -> 0 < s -> s < 2 * cf -> generate_R2Bexact_free sc table bb (pair_posdata lam s) cf 1 = Some G ->
  (n < 11)%nat -> (g < 2)%nat -> extract G n g = sc n g s (lam_ix table lam).
Proof. intros Hl Hs Hc HG. exact (round_trip sc table bb lam s cf G Hl Hs Hc HG n g). Qed.
Print Assumptions C67_extract_round_trip.

(** Any number of spheres (and dumbbells), each close pair at a tabulated
    separation and ratio: the near field from the subtracted table is that from
    the original table minus the sum over close pairs of their own far-field
    resistance. *)
Theorem C67_near_field inv bb lams srange raw p cf mu J G Gd :
  let Ns := num_spheres p in let nb := (num_spheres p + 2 * num_dumbbells p)%nat in
  let x := bead_positions p in let a := bead_sizes p in
  increasing srange -> distinguishable lams -> mu <> 0 -> 0 < cf -> (forall b, (b < nb)%nat -> 0 < a b) ->
  (forall lam s, In lam lams -> In s srange ->
     is_inv 22 (generate_Minfinity bb (pair_posdata lam s) 1) (inv 22%nat (generate_Minfinity bb (pair_posdata lam s) 1))) ->
  (forall u v, (u < nb)%nat -> (v < nb)%nat -> u <> v -> scaled_distance x a u v < 2 * cf ->
     In (scaled_distance x a u v) srange /\ In (a v / a u) lams /\
     / 10 ^ 8 < norm (vsub (x v) (x u)) /\ / 10 ^ 8 < norm (vsub (x v) (x u)) / a u /\ pair_resistances bb x a mu J u v) ->
  generate_R2Bexact_free (XYZ raw srange) lams bb p cf mu = Some G ->
  generate_R2Bexact_free (XYZ (subtract_R2Binfinity inv bb lams srange raw) srange) lams bb p cf mu = Some Gd ->
  forall k1 u k2 v i j, k1 <> KB -> k2 <> KB -> (u < Ns)%nat -> (v < Ns)%nat -> (i < ksize k1)%nat -> (j < ksize k2)%nat ->
  Gd (kstart Ns k1 u + i)%nat (kstart Ns k2 v + j)%nat =
  G (kstart Ns k1 u + i)%nat (kstart Ns k2 v + j)%nat - pairwise_far_field J x a nb cf k1 u k2 v i j.
Proof.
  intros Ns nb x a H1 H2 H3 H4 H5 H6 H7 HG HGd k1 u k2 v i j A B C D E F.
  pose proof (near_subtracted inv bb lams srange raw p cf mu J H1 H2 H3 H4 H5 H6 H7 G Gd HG HGd k1 u k2 v i j A B C D E F) as K.
  unfold ent in K. unfold Ns, nb, x, a in *. clear - K. lra.
Qed.
Print Assumptions C67_near_field.

(** Hence the grand resistance matrix of the simulation, which uses the
    subtracted table: inverse far-field mobility, plus the pair resistances of
    the original table, minus the far field of those pairs. *)
Theorem C67_grand_resistance inv bb lams srange raw p last cf verbose mu J G Gr mi :
  let Ns := num_spheres p in let nb := (num_spheres p + 2 * num_dumbbells p)%nat in
  let x := bead_positions p in let a := bead_sizes p in
  increasing srange -> distinguishable lams -> mu <> 0 -> 0 < cf -> (forall b, (b < nb)%nat -> 0 < a b) ->
  (forall lam s, In lam lams -> In s srange ->
     is_inv 22 (generate_Minfinity bb (pair_posdata lam s) 1) (inv 22%nat (generate_Minfinity bb (pair_posdata lam s) 1))) ->
  (forall u v, (u < nb)%nat -> (v < nb)%nat -> u <> v -> scaled_distance x a u v < 2 * cf ->
     In (scaled_distance x a u v) srange /\ In (a v / a u) lams /\
     / 10 ^ 8 < norm (vsub (x v) (x u)) /\ / 10 ^ 8 < norm (vsub (x v) (x u)) / a u /\ pair_resistances bb x a mu J u v) ->
  generate_R2Bexact_free (XYZ raw srange) lams bb p cf mu = Some G ->
  grand_resistance_free inv (XYZ (subtract_R2Binfinity inv bb lams srange raw) srange) lams bb p last true cf verbose false false mu = Ok (Gr, mi) ->
  forall k1 u k2 v i j, k1 <> KB -> k2 <> KB -> (u < Ns)%nat -> (v < Ns)%nat -> (i < ksize k1)%nat -> (j < ksize k2)%nat ->
  let r := (kstart Ns k1 u + i)%nat in let c := (kstart Ns k2 v + j)%nat in
  Gr r c = inv (11 * Ns + 6 * num_dumbbells p)%nat (generate_Minfinity bb p mu) r c
           + G r c - pairwise_far_field J x a nb cf k1 u k2 v i j.
Proof.
  intros Ns nb x a H1 H2 H3 H4 H5 H6 H7 HG HR k1 u k2 v i j A B C D E F r c.
  destruct (free_inv _ _ _ _ _ _ _ _ _ _ _ _ _ _ HR) as (Em & Ea & _).
  destruct (add_near_ok _ _ _ _ Ea) as [[X _]|[_ (Gd & HGd & ->)]]; [discriminate|].
  pose proof (C67_near_field inv bb lams srange raw p cf mu J G Gd H1 H2 H3 H4 H5 H6 H7 HG HGd k1 u k2 v i j A B C D E F) as K.
  cbv zeta in K. unfold madd, r, c, Ns, x, a, nb in *. rewrite K, Em. unfold Minfinity_inverse. cbn [negb]. ring.
Qed.
Print Assumptions C67_grand_resistance.

(** Two spheres alone, within the cutoff: the far field cancels, and all 22 by 22
    entries of the grand resistance matrix are those of the original table. *)
Theorem C67_isolated_pair inv bb lams srange raw x0 x1 a0 a1 last cf verbose mu G Gr mi :
  let p := two_spheres x0 x1 a0 a1 in let r := norm (vsub x1 x0) in
  increasing srange -> distinguishable lams -> mu <> 0 -> 0 < a0 -> 0 < a1 -> 2 * r / (a0 + a1) < 2 * cf ->
  / 10 ^ 8 < r -> / 10 ^ 8 < r / a0 -> / 10 ^ 8 < r / a1 ->
  In (2 * r / (a0 + a1)) srange -> In (a1 / a0) lams -> In (a0 / a1) lams ->
  (forall lam t, In lam lams -> In t srange ->
     is_inv 22 (generate_Minfinity bb (pair_posdata lam t) 1) (inv 22%nat (generate_Minfinity bb (pair_posdata lam t) 1))) ->
  is_inv 22 (generate_Minfinity bb p mu) (inv 22%nat (generate_Minfinity bb p mu)) ->
  generate_R2Bexact_free (XYZ raw srange) lams bb p cf mu = Some G ->
  grand_resistance_free inv (XYZ (subtract_R2Binfinity inv bb lams srange raw) srange) lams bb p last true cf verbose false false mu = Ok (Gr, mi) ->
  forall k l, (k < 22)%nat -> (l < 22)%nat -> Gr k l = G k l.
Proof.
  intros p r H1 H2 H3 H4 H5 H6 H7 H8 H9 H10 H11 H12 H13 H14 HG HR k l Hk Hl.
  destruct (free_inv _ _ _ _ _ _ _ _ _ _ _ _ _ _ HR) as (Em & Ea & _).
  destruct (add_near_ok _ _ _ _ Ea) as [[X _]|[_ (Gd & HGd & ->)]]; [discriminate|].
  rewrite <- (isolated inv bb lams srange raw x0 x1 a0 a1 cf mu H1 H2 H3 H4 H5 H6 H7 H8 H9 H10 H11 H12 H13 H14 G Gd HG HGd k l Hk Hl).
  unfold madd. rewrite Em. reflexivity.
Qed.
Print Assumptions C67_isolated_pair.

(** The other script: at every separation (tabulated or not), the drag of the
    lone sphere is subtracted once for each neighbour within the cutoff. *)
Theorem C67_drag_near_field bb lams srange raw p cf mu G Gd :
  let Ns := num_spheres p in let nb := (num_spheres p + 2 * num_dumbbells p)%nat in
  srange <> [] -> lams <> [] -> 0 < cf -> (forall b, (b < nb)%nat -> 0 < bead_sizes p b) ->
  generate_R2Bexact_free (XYZ raw srange) lams bb p cf mu = Some G ->
  generate_R2Bexact_free (XYZ (subtract_R2Binfinitydrag lams srange raw) srange) lams bb p cf mu = Some Gd ->
  forall k1 u k2 v i j, k1 <> KB -> k2 <> KB -> (u < Ns)%nat -> (v < Ns)%nat -> (i < ksize k1)%nat -> (j < ksize k2)%nat ->
  Gd (kstart Ns k1 u + i)%nat (kstart Ns k2 v + j)%nat =
  G (kstart Ns k1 u + i)%nat (kstart Ns k2 v + j)%nat - neighbour_drags (bead_positions p) (bead_sizes p) nb cf mu k1 u k2 v i j.
Proof.
  intros Ns nb H1 H2 H3 H4 HG HGd k1 u k2 v i j A B C D E F.
  exact (near_drag bb lams srange raw p cf mu G Gd H1 H2 H3 H4 HG HGd k1 u k2 v i j A B C D E F).
Qed.
Print Assumptions C67_drag_near_field.

(** Finding: with use_drag_Minfinity and that table two spheres alone do not get
    the resistances of the original table ("to make sure that the two-sphere case
    works", settings.py 139-142): the drag matrix of the code lacks the factor
    6 pi (C12), so all drags on the diagonal come out too small by that part. *)
Theorem C67_drag_pair_refuted inv bb lams srange raw x0 x1 a0 a1 last reg cf mu G Gr mi :
  let p := two_spheres x0 x1 a0 a1 in
  srange <> [] -> lams <> [] -> 0 < a0 -> 0 < a1 -> 0 < cf -> 2 * norm (vsub x1 x0) / (a0 + a1) < 2 * cf ->
  generate_R2Bexact_free (XYZ raw srange) lams bb p cf mu = Some G ->
  grand_resistance_free inv (XYZ (subtract_R2Binfinitydrag lams srange raw) srange) lams bb p last reg cf false true false mu = Ok (Gr, mi) ->
  (forall k u i, k <> KB -> (u < 2)%nat -> (i < ksize k)%nat ->
     let r := (kstart 2 k u + i)%nat in
     Gr r r = G r r - (1 - / (6 * PI)) * (mu * lone_drag k (sphere_sizes p u))) /\
  (0 < mu -> Gr 0%nat 0%nat < G 0%nat 0%nat).
Proof.
  intros p Hs Hl H0 H1 Hcf Hc HG HR.
  destruct (free_inv _ _ _ _ _ _ _ _ _ _ _ _ _ _ HR) as (Em & Ea & _).
  destruct (add_near_ok _ _ _ _ Ea) as [[X _]|[_ (Gd & HGd & ->)]]; [discriminate|].
  assert (Ha : forall b, (b < num_spheres p + 2 * num_dumbbells p)%nat -> 0 < bead_sizes p b).
  { intros [|[|b]] Hb; cbn in Hb; [exact H0|exact H1|lia]. }
  pose proof PI_RGT_0 as HP.
  assert (D01 : scaled_distance (bead_positions p) (bead_sizes p) 0 1 < 2 * cf) by exact Hc.
  assert (D10 : scaled_distance (bead_positions p) (bead_sizes p) 1 0 < 2 * cf) by (rewrite scaled_sym'; exact Hc).
  assert (K : forall k u i, k <> KB -> (u < 2)%nat -> (i < ksize k)%nat -> let r := (kstart 2 k u + i)%nat in
     madd Gd mi r r = G r r - (1 - / (6 * PI)) * (mu * lone_drag k (sphere_sizes p u))).
  { intros k u i Nk Hu Hi r. unfold madd.
    rewrite (C67_drag_near_field bb lams srange raw p cf mu G Gd Hs Hl Hcf Ha HG HGd k u k u i i Nk Nk Hu Hu Hi Hi : Gd r r = _).
    change (kstart (num_spheres p) k u + i)%nat with r. rewrite Em. unfold Minfinity_inverse, neighbour_drags.
    change (num_spheres p + 2 * num_dumbbells p)%nat with 2%nat. rewrite !Nat.eqb_refl. cbn [andb].
    assert (NB : rsum 2 (fun q' => if Nat.eqb q' u then 0 else if Rlt_dec (scaled_distance (bead_positions p) (bead_sizes p) u q') (2 * cf) then 1 else 0) = 1).
    { unfold rsum. destruct u as [|[|u]]; try lia; cbn [Nat.eqb]; destruct (Rlt_dec _ _); try contradiction; ring. }
    rewrite NB. clear NB. rewrite (bead_size2 p u eq_refl Hu).
    unfold r. destruct k; try congruence; cbn [ksize] in Hi; destruct u as [|[|u]]; try lia;
      (destruct i as [|[|[|[|[|i]]]]]; try lia); unfold drag_Minfinity_inverse;
      cbn [kstart num_spheres num_dumbbells p two_spheres Nat.ltb Nat.leb Nat.mul Nat.add Nat.eqb Nat.div Nat.divmod Nat.sub fst sphere_sizes lone_drag]; field; lra. }
  split; [exact K|]. intros Hmu. specialize (K KU 0%nat 0%nat ltac:(congruence) ltac:(lia) ltac:(cbn; lia)). cbn in K. rewrite K.
  assert (/ (6 * PI) < 1). { rewrite <- Rinv_1. pose proof PI2_1 as P. unfold PI2 in P. apply Rinv_lt_contravar; lra. }
  assert (0 < (1 - / (6 * PI)) * (mu * (6 * PI * a0))); [|lra].
  apply Rmult_lt_0_compat; [lra|]. apply Rmult_lt_0_compat; [exact Hmu|]. apply Rmult_lt_0_compat; [lra|exact H0].
Qed.
Print Assumptions C67_drag_pair_refuted.

(** Which table the settings select.  Documentation (settings.py 134-144,
    docs/sd-settings.md 172): use_drag_R2Binfinity only matters with
    use_drag_Minfinity and then selects the drag version.  Finding: it is the
    other way round; the default False selects the drag version. *)
Definition documented_file (use_drag_Minfinity use_drag_R2Binfinity : bool) : table_file :=
  if (use_drag_Minfinity && use_drag_R2Binfinity)%bool then Table_d_drag else Table_d.
Theorem C67_table_choice :
  (forall b, scalars_file false b = Table_d /\ documented_file false b = Table_d) /\
  (forall b, scalars_file true b = documented_file true (negb b)).
Proof. split; intros []; split || idtac; reflexivity. Qed.
Print Assumptions C67_table_choice.
Theorem C67_table_choice_refuted : forall b, scalars_file true b <> documented_file true b.
Proof. intros []; discriminate. Qed.
Print Assumptions C67_table_choice_refuted.

(** Concrete case: unit spheres 20000 apart, a table with that separation alone,
    and inversion by elimination (right for positive definite matrices, C68). *)
Lemma far_pair_inv bb x0 x1 a0 a1 mu : 0 < mu -> 1 <= a0 <= 1 -> 1 <= a1 <= 1 -> 11000 < norm (vsub x1 x0) ->
  is_inv 22 (generate_Minfinity bb (two_spheres x0 x1 a0 a1) mu) (pinv 22%nat (generate_Minfinity bb (two_spheres x0 x1 a0 a1) mu)).
Proof.
  intros Hmu A0 A1 Hd. apply pinv_ok.
  assert (Sp : forall L, L <= 11000 -> spaced 2 (bead_positions (two_spheres x0 x1 a0 a1)) L).
  { intros L HL p q Hp Hq Ne. rewrite !bead_pos2 by (reflexivity || assumption).
    destruct p as [|[|p]], q as [|[|q]]; try lia; cbn [two_spheres sphere_positions]; [rewrite norm_flip|]; lra. }
  apply (far_pos_def bb (two_spheres x0 x1 a0 a1) mu 1 1 Hmu Rlt_0_1).
  - intros b Hb. change (2 + 2 * 0)%nat with 2%nat in Hb. destruct b as [|[|b]]; cbn; cbn in Hb; lra || lia.
  - apply Sp. cbn [num_spheres num_dumbbells two_spheres]. simpl. lra.
  - apply Sp. apply Rle_trans with 1; [|lra]. rewrite <- Rinv_1. apply Rinv_le_contravar; simpl; lra.
Qed.
Definition far_x0 : vec := v3 0 0 0.
Definition far_x1 : vec := v3 0 20000 0.
Lemma far_norm : norm (vsub far_x1 far_x0) = 20000.
Proof.
  unfold norm, far_x1, far_x0, vsub. cbn [v3]. match goal with |- sqrt ?z = _ => replace z with (20000 ^ 2) by ring end. apply sqrt_pow2. lra.
Qed.
Example C67_example raw bb G Gr mi :
  generate_R2Bexact_free (XYZ raw [20000]) [1] bb (two_spheres far_x0 far_x1 1 1) 10001 1 = Some G ->
  grand_resistance_free pinv (XYZ (subtract_R2Binfinity pinv bb [1] [20000] raw) [20000]) [1] bb
    (two_spheres far_x0 far_x1 1 1) mzero true 10001 false false false 1 = Ok (Gr, mi) ->
  forall k l, (k < 22)%nat -> (l < 22)%nat -> Gr k l = G k l.
Proof.
  assert (E : 2 * 20000 / (1 + 1) = 20000) by field. assert (E1 : 1 / 1 = 1) by field.
  assert (E8 : / 10 ^ 8 < 1) by (rewrite <- Rinv_1; apply Rinv_lt_contravar; simpl; lra).
  apply (C67_isolated_pair pinv bb [1] [20000] raw far_x0 far_x1 1 1 mzero 10001 false 1); rewrite ?far_norm, ?E, ?E1; try lra; try (left; reflexivity).
  - intros i j Hij Hj. cbn in Hj. lia.
  - intros l l' [<-|[]] [<-|[]] N. congruence.
  - intros lam t [<-|[]] [<-|[]].
    apply (pinv_ok 22%nat). apply (far_pos_def bb (pair_posdata 1 20000) 1 1 1 Rlt_0_1 Rlt_0_1).
    + intros b Hb. change (2 + 2 * 0)%nat with 2%nat in Hb. destruct b as [|[|b]]; cbn; cbn in Hb; lra || lia.
    + assert (Sp : forall L, L < 20000 -> spaced 2 (bead_positions (pair_posdata 1 20000)) L); [|apply Sp; cbn [num_spheres num_dumbbells pair_posdata]; simpl; lra].
      intros L HL p q Hp Hq Ne. apply Rlt_le_trans with (1 := HL). rewrite !bead_pos2 by (reflexivity || assumption).
      apply Rle_trans with (2 := comp_norm _ 0%nat ltac:(lia)).
      destruct p as [|[|p]], q as [|[|q]]; try lia; cbn [pair_posdata sphere_positions]; unfold vsub; cbn [v3]; unfold Rabs; destruct (Rcase_abs _); lra.
    + assert (Sp : forall L, L < 20000 -> spaced 2 (bead_positions (pair_posdata 1 20000)) L); [|apply Sp; apply Rlt_trans with 1; [rewrite <- Rinv_1; apply Rinv_lt_contravar; simpl; lra|lra]].
      intros L HL p q Hp Hq Ne. apply Rlt_le_trans with (1 := HL). rewrite !bead_pos2 by (reflexivity || assumption).
      apply Rle_trans with (2 := comp_norm _ 0%nat ltac:(lia)).
      destruct p as [|[|p]], q as [|[|q]]; try lia; cbn [pair_posdata sphere_positions]; unfold vsub; cbn [v3]; unfold Rabs; destruct (Rcase_abs _); lra.
  - apply far_pair_inv; try lra. rewrite far_norm. lra.
Qed.
(** Both computations of the example succeed: the only ratio needed is 1. *)
Example C67_example_runs raw bb : exists G Gr mi,
  generate_R2Bexact_free (XYZ raw [20000]) [1] bb (two_spheres far_x0 far_x1 1 1) 10001 1 = Some G /\
  grand_resistance_free pinv (XYZ (subtract_R2Binfinity pinv bb [1] [20000] raw) [20000]) [1] bb
    (two_spheres far_x0 far_x1 1 1) mzero true 10001 false false false 1 = Ok (Gr, mi).
Proof.
  assert (Ha : forall b, (b < num_spheres (two_spheres far_x0 far_x1 1 1) + 2 * num_dumbbells (two_spheres far_x0 far_x1 1 1))%nat -> bead_sizes (two_spheres far_x0 far_x1 1 1) b = 1).
  { intros [|[|b]] Hb; cbn in Hb; [reflexivity|reflexivity|lia]. }
  destruct (equal_some (XYZ raw [20000]) [1] bb (two_spheres far_x0 far_x1 1 1) 10001 1 1 ltac:(lra) ltac:(lra) Ha ltac:(left; reflexivity)) as [G HG].
  destruct (equal_some (XYZ (subtract_R2Binfinity pinv bb [1] [20000] raw) [20000]) [1] bb (two_spheres far_x0 far_x1 1 1) 10001 1 1 ltac:(lra) ltac:(lra) Ha ltac:(left; reflexivity)) as [Gd HGd].
  exists G. unfold grand_resistance_free, bind, add_near. rewrite HGd. cbn [andb orb negb]. do 2 eexists. split; [exact HG|reflexivity].
Qed.

(** ** C69: combine_scalars.py *)
(** Separations below those of the mid-field table, both ascending (as in the
    files supplied, 2.00001 ... 2.02 and 2.025 ... 4.5): row t of the combined
    table belongs to separation t of the combined list. *)
Theorem C69_rows near mid rnear rmid t scalar gamma l :
  StronglySorted Rle near -> StronglySorted Rle mid -> (forall x y, In x near -> In y mid -> x <= y) ->
  length (combined_separations near mid) = (length near + length mid)%nat /\
  ((t < length near)%nat ->
     nth t (combined_separations near mid) 0 = nth t near 0 /\ combined_table near rnear rmid scalar gamma t l = rnear scalar gamma t l) /\
  ((t < length mid)%nat ->
     nth (length near + t)%nat (combined_separations near mid) 0 = nth t mid 0 /\
     combined_table near rnear rmid scalar gamma (length near + t)%nat l = rmid scalar gamma t l).
Proof.
  intros S1 S2 H.
  assert (E : combined_separations near mid = near ++ mid).
  { unfold combined_separations. apply sorted_unique; [apply sort_sorted| |apply sort_perm].
    clear - S1 S2 H. induction near as [|x l IH]; [exact S2|]. apply StronglySorted_inv in S1. destruct S1 as [S1 F].
    cbn [app]. constructor.
    - apply IH; [exact S1|]. intros u v Hu Hv. apply H; [right; exact Hu|exact Hv].
    - apply Forall_app. split; [exact F|]. apply Forall_forall. intros y Hy. apply H; [left; reflexivity|exact Hy]. }
  rewrite E, app_length. split; [reflexivity|]. unfold combined_table. split; intros Ht.
  - rewrite app_nth1 by exact Ht. destruct (Nat.ltb_spec t (length near)); [split; reflexivity|lia].
  - rewrite app_nth2_plus. destruct (Nat.ltb_spec (length near + t) (length near)); [lia|]. split; [reflexivity|]. f_equal. lia.
Qed.
Print Assumptions C69_rows.
(** Finding: the separations are sorted but the rows are not.  With overlapping
    ranges a row is filed under the separation of another. *)
Theorem C69_overlap_refuted : exists near mid rnear rmid,
  StronglySorted Rle near /\ StronglySorted Rle mid /\ nth 1 (combined_separations near mid) 0 = nth 0 mid 0 /\
  combined_table near rnear rmid 0 0 1 0 = rnear 0%nat 0%nat 1%nat 0%nat /\
  combined_table near rnear rmid 0 0 1 0 <> rmid 0%nat 0%nat 0%nat 0%nat.
Proof.
  exists [2; 4], [3], (fun _ _ t _ => INR t), (fun _ _ _ _ => 7).
  assert (E : combined_separations [2; 4] [3] = [2; 3; 4]).
  { unfold combined_separations. apply sorted_unique; [apply sort_sorted| |].
    - repeat (constructor; [|repeat constructor; lra]). constructor.
    - rewrite sort_perm. cbn [app]. apply perm_skip, perm_swap. }
  rewrite E. split; [repeat (constructor; [|repeat constructor; lra]); constructor|]. split; [repeat constructor|].
  split; [reflexivity|]. split; [reflexivity|]. cbn. lra.
Qed.
Print Assumptions C69_overlap_refuted.
(** Finding: the script always stops in the first pass of the loop that writes
    the readable table: [s_dash_range.shape] of a list. *)
Theorem C69_readable_refuted near mid : near ++ mid <> [] -> human_table (combined_separations near mid) = Raise AttributeError.
Proof.
  intros H. unfold human_table. destruct (combined_separations near mid) eqn:E; [|reflexivity]. exfalso. apply H. apply Permutation_nil.
  rewrite <- E. apply sort_perm.
Qed.
Print Assumptions C69_readable_refuted.
Example C69_example : StronglySorted Rle [2.01; 2.02] /\ StronglySorted Rle [2.025; 2.05; 4.5] /\
  (forall x y, In x [2.01; 2.02] -> In y [2.025; 2.05; 4.5] -> x <= y) /\ [2.01; 2.02] ++ [2.025; 2.05; 4.5] <> [].
Proof.
  split; [|split; [|split]]; [| | |discriminate].
  - repeat (constructor; [|repeat constructor; lra]). constructor.
  - repeat (constructor; [|repeat constructor; lra]). constructor.
  - intros x y [<-|[<-|[]]] [<-|[<-|[<-|[]]]]; lra.
Qed.
