(** The far-field resistance matrix of any two spheres, from that of the pair of
    radii 1 and lambda on the x axis. *)
From Coq Require Import Reals Arith Bool List Lia Lra FunctionalExtensionality.
From Verif Require Import Base Model_Pack Model_Mob Model_Layout Model_Minf Model_Grand Model_Subtract
  Spec_Layout Spec_Minf Spec_R2B Spec_Rotate Spec_Rescale Spec_Subtract
  Proof_Layout Proof_Minf Proof_Minf2 Proof_Minf3 Proof_Minf4
  Proof_Rotate1 Proof_Rotate2 Proof_Rotate3 Proof_Rotate4 Proof_Rotate5 Proof_Rotate6 Proof_Rotate8 Proof_Rotate9
  Proof_Rescale1 Proof_Rescale2 Proof_Axi1 Proof_Axi2 Proof_Axi3 Proof_GrandP.
Import ListNotations.
Local Open Scope R_scope.

(** Only radii and coordinates of the two spheres matter. *)
Lemma norm_ext u v : (forall t, (t < 3)%nat -> u t = v t) -> norm u = norm v.
Proof. intros H. unfold norm. rewrite !H by lia. reflexivity. Qed.
Lemma two_ext bb p p' mu r c : num_spheres p = 2%nat -> num_dumbbells p = 0%nat -> num_spheres p' = 2%nat -> num_dumbbells p' = 0%nat ->
  (forall b, (b < 2)%nat -> 0 < sphere_sizes p b /\ sphere_sizes p b = sphere_sizes p' b) ->
  (forall b t, (b < 2)%nat -> (t < 3)%nat -> sphere_positions p b t = sphere_positions p' b t) ->
  / 10 ^ 8 < norm (vsub (sphere_positions p 0%nat) (sphere_positions p 1%nat)) ->
  (r < 22)%nat -> (c < 22)%nat ->
  generate_Minfinity bb p mu r c = generate_Minfinity bb p' mu r c.
Proof.
  intros N D N' D' HS HX H8 Hr Hc.
  destruct (block_cover 2 0 r Hr) as (k1 & b & i & V1 & Hi & ->). destruct (block_cover 2 0 c Hc) as (k2 & b' & j & V2 & Hj & ->).
  assert (K1 : k1 <> KB /\ (b < 2)%nat) by (destruct k1; cbn in V1; split; lia || congruence).
  assert (K2 : k2 <> KB /\ (b' < 2)%nat) by (destruct k2; cbn in V2; split; lia || congruence).
  destruct K1 as [K1 B1], K2 as [K2 B2].
  assert (W : forall u v, (u < 2)%nat -> (v < 2)%nat -> forall t, (t < 3)%nat ->
    vsub (sphere_positions p u) (sphere_positions p v) t = vsub (sphere_positions p' u) (sphere_positions p' v) t).
  { intros u v Hu Hv t Ht. unfold vsub. rewrite !HX by assumption. reflexivity. }
  destruct (Nat.eq_dec b b') as [<-|Ne].
  - pose proof (gen_self bb p mu k1 k2 b i j) as E. rewrite N in E. rewrite E by assumption. clear E.
    pose proof (gen_self bb p' mu k1 k2 b i j) as E. rewrite N' in E. rewrite E by assumption.
    rewrite (proj2 (HS b B1)). reflexivity.
  - assert (H8' : / 10 ^ 8 < norm (vsub (sphere_positions p b) (sphere_positions p b'))).
    { destruct b as [|[|b]], b' as [|[|b']]; try lia; try exact H8.
      replace (norm _) with (norm (vsub (sphere_positions p 0%nat) (sphere_positions p 1%nat))); [exact H8|].
      unfold norm, vsub. f_equal. ring. }
    pose proof (gen_pair_used bb p mu k1 b k2 b' i j) as E. rewrite N in E. rewrite E; try assumption; try apply HS; try assumption. clear E.
    pose proof (gen_pair_used bb p' mu k1 b k2 b' i j) as E. rewrite N' in E.
    rewrite <- (proj2 (HS b B1)), <- (proj2 (HS b' B2)) in E.
    assert (EN : norm (vsub (sphere_positions p' b) (sphere_positions p' b')) = norm (vsub (sphere_positions p b) (sphere_positions p b'))).
    { apply norm_ext. intros t Ht. symmetry. apply W; assumption. }
    rewrite E; try assumption; try (apply HS; assumption); [|rewrite EN; exact H8']. clear E.
    unfold used_separation. rewrite EN. apply pmob_ext3; try assumption.
    intros t Ht. unfold along, vscal. rewrite EN. f_equal. apply W; assumption.
Qed.

(** A reflection that takes the x axis to the direction [d]. *)
Definition to_direction (d : vec) : mat := fun i j =>
  match j with
  | 0%nat => d i
  | _ => if Req_EM_T (d 0%nat) 1 then delta i j
         else delta i j - (d i - delta i 0%nat) * (d j - delta j 0%nat) / (1 - d 0%nat)
  end.
Lemma to_direction_ex d : rot (to_direction d) ex = d.
Proof. apply functional_extensionality. intros i. unfold rot, mvec, rsum, ex. cbn [v3 to_direction]. ring. Qed.
Lemma inv_of_rows Q : (forall i j, (i < 3)%nat -> (j < 3)%nat -> rsum 3 (fun k => Q i k * Q j k) = delta i j) ->
  (forall i j, (i < 3)%nat -> (j < 3)%nat -> rsum 3 (fun k => Q k i * Q k j) = delta i j) -> orthogonal Q.
Proof. intros H1 H2 i j Hi Hj. split; unfold mmul, mtr; [apply H1|apply H2]; assumption. Qed.
Lemma to_direction_orth d : sq d = 1 -> orthogonal (to_direction d).
Proof.
  unfold sq. intros H. unfold to_direction. destruct (Req_EM_T (d 0%nat) 1) as [E|E].
  - assert (Z : d 1%nat = 0 /\ d 2%nat = 0).
    { rewrite E in H. assert (Z : d 1%nat ^ 2 + d 2%nat ^ 2 = 0) by lra. split; nra. }
    destruct Z as [Z1 Z2].
    apply inv_of_rows; intros i j Hi Hj; unfold rsum; idx3 Hi; idx3 Hj; unfold delta; cbn [Nat.eqb]; rewrite ?E, ?Z1, ?Z2; ring.
  - set (c := / (1 - d 0%nat)). assert (Hc : c * (1 - d 0%nat) = 1) by (unfold c; field; lra).
    set (u := fun i => d i - delta i 0%nat).
    assert (K : c * (u 0%nat ^ 2 + u 1%nat ^ 2 + u 2%nat ^ 2) = 2).
    { unfold u, delta. cbn [Nat.eqb]. replace (_ + _) with (2 * (1 - d 0%nat)) by lra. lra. }
    set (P := fun i j => delta i j - c * (u i * u j)).
    assert (X : forall i j, (i < 3)%nat -> (j < 3)%nat ->
      match j with 0%nat => d i | S _ => delta i j - (d i - delta i 0%nat) * (d j - delta j 0%nat) / (1 - d 0%nat) end = P i j).
    { intros i j Hi Hj. unfold P, u. destruct j as [|j].
      - unfold delta at 3. cbn [Nat.eqb]. replace (c * ((d i - delta i 0%nat) * (d 0%nat - 1))) with (- (c * (1 - d 0%nat)) * (d i - delta i 0%nat)) by ring.
        rewrite Hc. ring.
      - unfold Rdiv. fold c. ring. }
    assert (PS : forall i j, P i j = P j i) by (intros; unfold P; rewrite delta_sym; ring).
    assert (PP : forall i j, (i < 3)%nat -> (j < 3)%nat -> rsum 3 (fun k => P i k * P j k) = delta i j).
    { intros i j Hi Hj. transitivity (delta i j + c * (u i * u j) * (c * (u 0%nat ^ 2 + u 1%nat ^ 2 + u 2%nat ^ 2) - 2)).
      - unfold rsum, P. idx3 Hi; idx3 Hj; unfold delta; cbn [Nat.eqb]; ring.
      - rewrite K. ring. }
    apply inv_of_rows; intros i j Hi Hj; (etransitivity; [|exact (PP i j Hi Hj)]); apply rsum_ext; intros k Hk; rewrite !X by assumption; [reflexivity|].
    rewrite (PS k i), (PS k j). reflexivity.
Qed.

(** Matrices that commute are turned block by block. *)
Lemma commutes_turned Q Ns Nd M M' k1 p k2 q i j : orthogonal Q -> commutes Q Ns Nd M M' ->
  kvalid Ns Nd k1 p -> kvalid Ns Nd k2 q -> (i < ksize k1)%nat -> (j < ksize k2)%nat ->
  ent Ns M' k1 p k2 q i j = turned_block Q k1 k2 (ent Ns M k1 p k2 q) i j.
Proof.
  intros HQ HC V1 V2 Hi Hj. unfold turned_block.
  transitivity (rsum (ksize k2) (fun c => tmat Q k2 j c * rsum (ksize k2) (fun b => ent Ns M' k1 p k2 q i b * tmat Q k2 b c))).
  - transitivity (rsum (ksize k2) (fun b => ent Ns M' k1 p k2 q i b * delta j b)).
    + symmetry. rewrite (rsum_ext _ _ (fun b => delta j b * ent Ns M' k1 p k2 q i b)) by (intros; ring). apply rsum_delta_l. exact Hj.
    + rewrite (rsum_ext (ksize k2) (fun b => ent Ns M' k1 p k2 q i b * delta j b)
        (fun b => rsum (ksize k2) (fun c => tmat Q k2 j c * (ent Ns M' k1 p k2 q i b * tmat Q k2 b c)))).
      * rewrite rsum_swap. apply rsum_ext. intros c Hc. rewrite rsum_scal_l. reflexivity.
      * intros b Hb. rewrite <- (tmat_rows Q HQ k2 j b) by assumption. rewrite <- rsum_scal_l. apply rsum_ext. intros; ring.
  - rewrite rsum_swap. apply rsum_ext. intros c Hc.
    rewrite (commutes_blocks Q Ns Nd M M') by assumption. rewrite <- rsum_scal_l. apply rsum_ext. intros; ring.
Qed.
