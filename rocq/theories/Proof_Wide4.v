(** Widely spaced beads: no near field; the grand resistance matrix. *)
From Coq Require Import Reals Arith Bool List Lia Lra FunctionalExtensionality.
From Verif Require Import Base Py Model_Pack Model_Mob Model_Layout Model_Minf Model_L Model_Close Model_R2B Model_Grand Model_GrandP
  Spec_Layout Spec_Minf Spec_Convert Spec_Posdef Spec_Wide Spec_R2B Spec_Close
  Proof_Layout Proof_Minf3 Proof_Posdef Proof_R2B3 Proof_R2B4 Proof_Close Proof_GrandP Proof_Wide3.
Import ListNotations.
Local Open Scope R_scope.

Section Far.
Variables (sc : nat -> nat -> R -> nat -> R) (table : list R) (bb : bool) (p : posdata) (cf mu : R).
Let Ns := num_spheres p.
Let Nd := num_dumbbells p.
Let nb := (Ns + 2 * Nd)%nat.
Let n := (11 * Ns + 6 * Nd)%nat.
Let x := bead_positions p.
Let a := bead_sizes p.
Hypothesis Hcf : 0 < cf.
Hypothesis Ha : forall b, (b < nb)%nat -> 0 < a b.
Hypothesis Hfar : forall u v, (u < nb)%nat -> (v < nb)%nat -> u <> v -> 2 * cf <= scaled_distance x a u v.

Lemma near_zero G : generate_R2Bexact_free sc table bb p cf mu = Some G -> forall r c, (r < n)%nat -> (c < n)%nat -> G r c = 0.
Proof.
  intros HG r c Hr Hc. destruct (gen_r2b_some _ _ _ _ _ _ _ _ _ HG) as (M & HM & _ & E). fold Ns Nd in HM, E. rewrite E by assumption.
  destruct (block_cover Ns Nd r Hr) as (k1 & u & i & V1 & Hi & ->). destruct (block_cover Ns Nd c Hc) as (k2 & v & j & V2 & Hj & ->).
  assert (Z : forall u' v', kvalid Ns Nd k1 u' -> kvalid Ns Nd k2 v' -> ent Ns M k1 u' k2 v' i j = 0).
  { intros u' v' V1' V2'. pose proof (kvalid_beads _ _ _ _ V1') as Hu. pose proof (kvalid_beads _ _ _ _ V2') as Hv.
    unfold ent. rewrite (free_loop_entry sc table bb x a Ns Nd cf k1 u' k2 v' i j Hcf Ha V1' V2' Hi Hj); [| |exact HM].
    - unfold free_resistance. destruct (Nat.eqb_spec u' v') as [_|Ne].
      + apply rsum_zero. intros w Hw. destruct (Nat.eqb_spec w u') as [->|Nw]; cbn [negb andb]; [reflexivity|].
        destruct (Rlt_dec _ _) as [H|_]; [|reflexivity]. specialize (Hfar u' w Hu Hw (not_eq_sym Nw)). lra.
      + destruct (Rlt_dec _ _) as [H|_]; [specialize (Hfar u' v' Hu Hv Ne); lra|]. destruct k1, k2, bb; reflexivity.
    - destruct (Nat.eq_dec u' v') as [->|Ne]; [right; left; lia|]. right; right. intros H. specialize (Hfar u' v' Hu Hv Ne). lra. }
  change (r2b_transform Ns Nd M (kstart Ns k1 u + i)%nat (kstart Ns k2 v + j)%nat) with (ent Ns (r2b_transform Ns Nd M) k1 u k2 v i j).
  rewrite r2b_transform_ent by assumption.
  assert (W : forall k b f, kvalid Ns Nd k b -> (forall b', kvalid Ns Nd k b' -> f b' = 0) -> wsum Ns Nd 1 k b f = 0).
  { intros k b f V F. unfold wsum. destruct k; try (apply F; exact V).
    cbn [kvalid] in V. destruct (Nat.ltb_spec b (Ns + Nd)); rewrite !F by (cbn [kvalid]; lia); ring. }
  rewrite W; [ring|exact V2|]. intros v' V2'. apply W; [exact V1|]. intros u' V1'. apply Z; assumption.
Qed.
Lemma near_some : In 1 table -> exists G, generate_R2Bexact_free sc table bb p cf mu = Some G.
Proof.
  intros H1. unfold generate_R2Bexact_free, generate_R2Bexact. fold Ns Nd x a nb.
  destruct (generate_R2Bexact_loop sc table bb a Ns Nd (close_particles_free x a nb cf)) as [M|] eqn:E; [eexists; reflexivity|exfalso].
  apply (loop_fails_iff sc table bb a Ns Nd (close_particles_free x a nb cf) nb) in E; [|apply free_close_list; exact Hcf|exact Ha].
  destruct E as (t & Ht & HN). apply free_in in Ht. destruct Ht as (Hb & Hd & Et).
  assert (Eq : cp1 t = cp2 t). { destruct (Nat.eq_dec (cp1 t) (cp2 t)) as [e|Ne]; [exact e|]. exfalso. specialize (Hfar (cp1 t) (cp2 t)). lra || (assert (2 * cf <= scaled_distance x a (cp1 t) (cp2 t)) by (apply Hfar; lia); lra). }
  assert (R1 : cp_ratio t = 1).
  { rewrite Et. unfold free_record. cbn [cp_ratio]. rewrite <- Eq. pose proof (Ha (cp1 t) ltac:(lia)). field. lra. }
  assert (F : forall tb k, In 1 tb -> lam_index_from k tb 1 <> None).
  { induction tb as [|y l IH]; intros k HI; [destruct HI|]. cbn [lam_index_from]. destruct (isclose y 1) eqn:C; [discriminate|].
    destruct HI as [->|HI]; [|apply IH; exact HI]. exfalso. revert C. apply not_false_iff_true. unfold isclose. apply Rleb_spec. rewrite Rminus_diag_eq by reflexivity. rewrite Rabs_R0, Rabs_R1.
    assert (0 < / 10 ^ 8) by (apply Rinv_0_lt_compat, pow_lt; lra). assert (0 < / 10 ^ 5) by (apply Rinv_0_lt_compat, pow_lt; lra). lra. }
  rewrite R1 in HN. replace (1 / 1) with 1 in HN by field. destruct HN as [HN|HN]; exact (F table 0%nat H1 HN).
Qed.
End Far.

Theorem grand_pos_def inv sc table bb p last cf verbose minf_only mu a0 A :
  let Ns := num_spheres p in let Nd := num_dumbbells p in let nb := (Ns + 2 * Nd)%nat in let n := (11 * Ns + 6 * Nd)%nat in
  inverts_posdef inv -> In 1 table -> 0 < cf ->
  0 < mu -> 0 < a0 -> radii_within nb (bead_sizes p) a0 A ->
  spaced nb (bead_positions p) (500 * INR n * A ^ 3 * a0) -> spaced nb (bead_positions p) (/ 10 ^ 10) ->
  spaced nb (bead_positions p) (2 * cf * A * a0) ->
  exists G mi, grand_resistance_free inv sc table bb p last true cf verbose false minf_only mu = Ok (G, mi) /\
    is_inv n (generate_Minfinity bb p mu) mi /\ (forall r c, (r < n)%nat -> (c < n)%nat -> G r c = mi r c) /\ msym n G /\ pos_def n G.
Proof.
  intros Ns Nd nb n Hinv H1 Hcf Hmu Ha0 HA HX HT HC.
  pose proof (far_pos_def bb p mu a0 A Hmu Ha0 HA HX HT) as HP. fold Ns Nd n in HP.
  pose proof (Hinv n _ HP) as HI. unfold inv_ok in HI. set (mi := inv n (generate_Minfinity bb p mu)) in *.
  assert (Ha : forall b, (b < nb)%nat -> 0 < bead_sizes p b) by (intros b Hb; destruct (HA b Hb); lra).
  assert (Hfar : forall u v, (u < nb)%nat -> (v < nb)%nat -> u <> v -> 2 * cf <= scaled_distance (bead_positions p) (bead_sizes p) u v).
  { intros u v Hu Hv Ne. unfold scaled_distance. specialize (HC v u Hv Hu (not_eq_sym Ne)). destruct (HA u Hu), (HA v Hv).
    set (d := norm _) in *. set (w := bead_sizes p u) in *. set (w' := bead_sizes p v) in *.
    apply Rmult_le_reg_r with (w + w'); [lra|]. replace (2 * d / (w + w') * (w + w')) with (2 * d) by (field; lra).
    apply Rle_trans with (2 * cf * (2 * (A * a0))); [apply Rmult_le_compat_l; lra|]. lra. }
  destruct (near_some sc table bb p cf mu Hcf Ha Hfar H1) as [g Hg].
  pose proof (near_zero sc table bb p cf mu Hcf Ha Hfar g Hg) as Zg. fold Ns Nd n in Zg.
  assert (Smi : msym n mi) by (apply (is_inv_sym n (generate_Minfinity bb p mu)); [apply (gen_sym bb p mu)|exact HI]).
  pose proof (pos_def_inv n _ mi HP HI) as Pmi.
  assert (EM : Minfinity_inverse inv bb p mu false true last = mi) by reflexivity.
  exists (if minf_only then mi else madd g mi), mi. split.
  - unfold grand_resistance_free, bind, add_near. rewrite EM, Hg. destruct minf_only, verbose; reflexivity.
  - assert (EG : forall r c, (r < n)%nat -> (c < n)%nat -> (if minf_only then mi else madd g mi) r c = mi r c).
    { intros r c Hr Hc. destruct minf_only; [reflexivity|]. unfold madd. rewrite Zg by assumption. ring. }
    split; [exact HI|]. split; [exact EG|]. split.
    + intros i j Hi Hj. rewrite !EG by assumption. apply Smi; assumption.
    + apply (pos_def_ext n mi); [|exact Pmi]. intros i j Hi Hj. symmetry. apply EG; assumption.
Qed.
