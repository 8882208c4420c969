(** Renumbered and turned configurations: matrices. *)
From Coq Require Import Reals List Arith Bool Lia Lra FunctionalExtensionality.
From Verif Require Import Base Py Model_Pack Model_Mob Model_Layout Model_Minf Model_Grand Model_Close Model_R2B Model_GrandP Model_Step
  Model_Output Model_Frame Model_Inputs Model_Sim
  Spec_Pack Spec_Layout Spec_Minf Spec_R2B Spec_Close Spec_Rotate Spec_Run Spec_Turn Spec_Renumber
  Proof_Layout Proof_Minf3 Proof_R2B4 Proof_GrandP Proof_Rotate1 Proof_Rotate5 Proof_Rotate7 Proof_Rotate8 Proof_Turn1.
Import ListNotations.
Local Open Scope R_scope.

Definition renumber_config (s t : nat -> nat) (p : config) : config :=
  mkConfig (fun j => c_ssizes p (s j)) (fun j => c_spos p (s j)) (fun j => c_srot p (s j))
           (fun d => c_dsizes p (t d)) (fun d => c_dpos p (t d)) (fun d => c_ddx p (t d)).

Section Renumber.
Variable Q : mat.
Hypothesis HQ : orthogonal Q.
Variables s t : nat -> nat.
Variables Ns Nd : nat.
Hypothesis Hs : permutes Ns s.
Hypothesis Ht : permutes Nd t.
Notation n := (11 * Ns + 6 * Nd)%nat.
Notation br := (bead_relabel s t Ns Nd).

(** The renumbering of the components. *)
Definition comp (r : nat) : nat := comp_relabel (mkPos Ns Nd (fun _ => 0) (fun _ _ => 0) (fun _ => 0) (fun _ _ => 0) (fun _ _ => 0)) s t r.
Lemma comp_block k b i : kvalid Ns Nd k b -> (i < ksize k)%nat -> comp (kstart Ns k b + i) = (kstart Ns k (br b) + i)%nat.
Proof. intros V Hi. unfold comp. apply (comp_relabel_block (mkPos Ns Nd _ _ _ _ _)); assumption. Qed.
Lemma comp_permutes : permutes n comp.
Proof. apply (comp_relabel_permutes (mkPos Ns Nd (fun _ => 0) (fun _ _ => 0) (fun _ => 0) (fun _ _ => 0) (fun _ _ => 0)) s t); assumption. Qed.
Lemma br_ok k b : kvalid Ns Nd k b -> kvalid Ns Nd k (br b).
Proof. intros V. apply (br_valid (mkPos Ns Nd (fun _ => 0) (fun _ _ => 0) (fun _ => 0) (fun _ _ => 0) (fun _ _ => 0)) s t); assumption. Qed.

Definition permuted (M : mat) : mat := fun r c => M (comp r) (comp c).
(** [M'] is [M] renumbered and turned. *)
Definition follows (M M' : mat) : Prop := commutes Q Ns Nd (permuted M) M'.

Lemma entries_same A B : (forall r c, (r < n)%nat -> (c < n)%nat -> B r c = A r c) -> same_action Ns Nd A B.
Proof. intros H f r Hr. unfold mvec. apply rsum_ext. intros c Hc. rewrite H by assumption. reflexivity. Qed.
Lemma follows_add A A' B B' : follows A A' -> follows B B' -> follows (madd A B) (madd A' B').
Proof. intros HA HB. exact (commutes_add Q Ns Nd _ _ _ _ HA HB). Qed.
Lemma follows_inv M M' I I' : is_inv n M I -> is_inv n M' I' -> follows M M' -> follows I I'.
Proof.
  intros HI HI' H. refine (commutes_inv Q Ns Nd (permuted M) M' (permuted I) I' _ HI' H).
  exact (is_inv_perm n M I comp comp_permutes HI).
Qed.
Lemma follows_zero : follows mzero mzero.
Proof.
  intros v r Hr0. unfold mvec, mzero, permuted. rewrite rsum_zero by (intros; ring).
  destruct (block_cover Ns Nd r Hr0) as (k & p & c & V & Hc & ->).
  rewrite (turn_at Q Ns Nd) by assumption. symmetry. apply rsum_zero. intros. rewrite rsum_zero by (intros; ring). ring.
Qed.

Variables p p' : config.
Hypothesis HT : config_renumbered Q s t Ns Nd p p'.
Let P := posdata_of Ns Nd p.
Let P' := posdata_of Ns Nd p'.
Let PR := posdata_of Ns Nd (renumber_config s t p).

Lemma PR_relabel : PR = relabel s t P.
Proof. reflexivity. Qed.
Lemma turned_rest : config_turned Q Ns Nd (renumber_config s t p) p'.
Proof.
  destruct HT as (A & B & C & D). unfold renumber_config. split; [|split; [|split; [|split]]]; cbn [c_ssizes c_spos c_srot c_dsizes c_dpos c_ddx].
  - apply functional_extensionality. exact A.
  - apply functional_extensionality. exact B.
  - intros j Hj. apply (C j Hj).
  - intros j k Hj Hk. apply (C j Hj). exact Hk.
  - exact D.
Qed.

Notation nb := (Ns + 2 * Nd)%nat.
Lemma br_beads b : (b < nb)%nat -> (br b < nb)%nat.
Proof.
  intros Hb. unfold bead_relabel. destruct Hs as [S1 _]. destruct Ht as [T1 _].
  destruct (Nat.ltb_spec b Ns); [specialize (S1 b ltac:(lia)); lia|].
  destruct (Nat.ltb_spec b (Ns + Nd)); [specialize (T1 (b - Ns)%nat ltac:(lia)); lia|specialize (T1 (b - Ns - Nd)%nat ltac:(lia)); lia].
Qed.
Lemma br_beads_inj a b : (a < nb)%nat -> (b < nb)%nat -> br a = br b -> a = b.
Proof. intros Ha Hb. apply (br_inj (mkPos Ns Nd (fun _ => 0) (fun _ _ => 0) (fun _ => 0) (fun _ _ => 0) (fun _ _ => 0)) s t); assumption. Qed.
Lemma br_position b : (b < nb)%nat -> bead_positions PR b = bead_positions P (br b).
Proof.
  intros Hb. destruct Hs as [S1 _]. destruct Ht as [T1 _]. unfold bead_positions, bead_relabel, PR, P, posdata_of, renumber_config.
  cbn [num_spheres num_dumbbells sphere_positions dumbbell_positions dumbbell_deltax c_spos c_dpos c_ddx].
  destruct (Nat.ltb_spec b Ns); [specialize (S1 b ltac:(lia)); destruct (Nat.ltb_spec (s b) Ns); [reflexivity|lia]|].
  destruct (Nat.ltb_spec b (Ns + Nd)).
  - specialize (T1 (b - Ns)%nat ltac:(lia)). destruct (Nat.ltb_spec (Ns + t (b - Ns)) Ns); [lia|].
    destruct (Nat.ltb_spec (Ns + t (b - Ns)) (Ns + Nd)); [|lia]. replace (Ns + t (b - Ns) - Ns)%nat with (t (b - Ns)) by lia. reflexivity.
  - specialize (T1 (b - Ns - Nd)%nat ltac:(lia)). destruct (Nat.ltb_spec (Ns + Nd + t (b - Ns - Nd)) Ns); [lia|].
    destruct (Nat.ltb_spec (Ns + Nd + t (b - Ns - Nd)) (Ns + Nd)); [lia|].
    replace (Ns + Nd + t (b - Ns - Nd) - Ns - Nd)%nat with (t (b - Ns - Nd)) by lia. reflexivity.
Qed.
Lemma br_size b : (b < nb)%nat -> bead_sizes PR b = bead_sizes P (br b).
Proof.
  intros Hb. destruct Hs as [S1 _]. destruct Ht as [T1 _]. unfold bead_sizes, bead_relabel, PR, P, posdata_of, renumber_config.
  cbn [num_spheres num_dumbbells sphere_sizes dumbbell_sizes c_ssizes c_dsizes].
  destruct (Nat.ltb_spec b Ns); [specialize (S1 b ltac:(lia)); destruct (Nat.ltb_spec (s b) Ns); [reflexivity|lia]|].
  destruct (Nat.ltb_spec b (Ns + Nd)).
  - specialize (T1 (b - Ns)%nat ltac:(lia)). destruct (Nat.ltb_spec (Ns + t (b - Ns)) Ns); [lia|].
    destruct (Nat.ltb_spec (Ns + t (b - Ns)) (Ns + Nd)); [|lia]. replace (Ns + t (b - Ns) - Ns)%nat with (t (b - Ns)) by lia. reflexivity.
  - specialize (T1 (b - Ns - Nd)%nat ltac:(lia)). destruct (Nat.ltb_spec (Ns + Nd + t (b - Ns - Nd)) Ns); [lia|].
    destruct (Nat.ltb_spec (Ns + Nd + t (b - Ns - Nd)) (Ns + Nd)); [lia|].
    replace (Ns + Nd + t (b - Ns - Nd) - Ns - Nd)%nat with (t (b - Ns - Nd)) by lia. reflexivity.
Qed.

Section Apart.
Hypothesis HD : distinct_beads nb (bead_positions P) (bead_sizes P).
Lemma distinct_R : distinct_beads nb (bead_positions PR) (bead_sizes PR).
Proof.
  destruct HD as [A B]. split.
  - intros b Hb. rewrite br_size by exact Hb. apply A. apply br_beads. exact Hb.
  - intros a b Ha Hb N. rewrite !br_position by assumption. apply B; try (apply br_beads; assumption).
    intros E. apply N. apply br_beads_inj; assumption.
Qed.
Lemma far_renumbered bb mu : follows (generate_Minfinity bb P mu) (generate_Minfinity bb P' mu).
Proof.
  apply (commutes_same Q Ns Nd (generate_Minfinity bb PR mu) _ (generate_Minfinity bb P' mu)).
  - apply entries_same. intros r c Hr Hc. unfold permuted.
    destruct (block_cover Ns Nd r Hr) as (k & b & x & V & Hx & ->). destruct (block_cover Ns Nd c Hc) as (k' & b' & x' & V' & Hx' & ->).
    rewrite !comp_block by assumption. symmetry. exact (gen_relabel bb P mu s t Hs Ht k b k' b' x x' HD V V' Hx Hx').
  - intros f r _. reflexivity.
  - exact (far_turned Q HQ Ns Nd (renumber_config s t p) p' turned_rest distinct_R bb mu).
Qed.

Lemma near_renumbered sc table bb cf mu G G' : 0 < cf -> reciprocal_pairs sc table cf Ns Nd p ->
  generate_R2Bexact_free sc table bb P cf mu = Some G ->
  generate_R2Bexact_free sc table bb P' cf mu = Some G' -> follows G G'.
Proof.
  intros Hcf (HA & HR) E E'.
  destruct (generate_R2Bexact_free sc table bb PR cf mu) as [GR|] eqn:ER.
  2: { exfalso. apply (near_none Q HQ sc table bb PR cf mu Hcf distinct_R) in ER.
       pose proof (distinct_Q Q HQ Ns Nd (renumber_config s t p) distinct_R) as DQ.
       apply (near_none one one_orthogonal sc table bb (turned Q PR) cf mu Hcf DQ) in ER.
       pose proof (near_ext Q Ns Nd (renumber_config s t p) p' turned_rest sc table bb cf mu) as X. fold PR P' in X. rewrite <- X in ER.
       apply (near_none one one_orthogonal sc table bb P' cf mu Hcf (distinct' Q HQ Ns Nd (renumber_config s t p) p' turned_rest distinct_R)) in ER.
       congruence. }
  apply (commutes_same Q Ns Nd GR _ G').
  - apply entries_same. intros r c Hr Hc. unfold permuted.
    destruct (block_cover Ns Nd r Hr) as (k & b & x & V & Hx & ->). destruct (block_cover Ns Nd c Hc) as (k' & b' & x' & V' & Hx' & ->).
    rewrite !comp_block by assumption. symmetry.
    exact (gen_free_relabel sc table bb P cf mu s t G GR Hcf Hs Ht HA HR E ER k b k' b' x x' V V' Hx Hx').
  - intros f r _. reflexivity.
  - exact (near_turned Q HQ Ns Nd (renumber_config s t p) p' turned_rest distinct_R sc table bb cf mu GR G' Hcf ER E').
Qed.
End Apart.

Lemma drag_at X k b i k' b' i' mu : num_spheres X = Ns -> num_dumbbells X = Nd ->
  kvalid Ns Nd k b -> (i < ksize k)%nat -> kvalid Ns Nd k' b' -> (i' < ksize k')%nat ->
  drag_Minfinity_inverse X mu (kstart Ns k b + i)%nat (kstart Ns k' b' + i')%nat =
  mu * (if Nat.eqb (kstart Ns k b + i) (kstart Ns k' b' + i') then
          match k with KU => bead_sizes X b | KO => 1 / (3 / 4) * bead_sizes X b ^ 3 | KS => 1 / (9 / 10) * bead_sizes X b ^ 3 | KB => 2 * bead_sizes X b end
        else 0).
Proof.
  intros E1 E2 V Hi V' Hi'. unfold drag_Minfinity_inverse, bead_sizes. rewrite E1, E2. cbv zeta. f_equal.
  destruct (Nat.eqb _ _); [|reflexivity].
  destruct k; cbn [kstart kvalid ksize] in *.
  - destruct (Nat.ltb_spec (3 * b + i) (3 * Ns)); [|lia]. destruct (divmod_add 3 b i Hi) as [-> _]. destruct (Nat.ltb_spec b Ns); [reflexivity|lia].
  - destruct (Nat.ltb_spec (3 * Ns + 3 * b + i) (3 * Ns)); [lia|]. destruct (Nat.ltb_spec (3 * Ns + 3 * b + i) (6 * Ns)); [|lia].
    replace (3 * Ns + 3 * b + i - 3 * Ns)%nat with (3 * b + i)%nat by lia.
    destruct (divmod_add 3 b i Hi) as [-> _]. destruct (Nat.ltb_spec b Ns); [reflexivity|lia].
  - destruct (Nat.ltb_spec (6 * Ns + 5 * b + i) (3 * Ns)); [lia|]. destruct (Nat.ltb_spec (6 * Ns + 5 * b + i) (6 * Ns)); [lia|].
    destruct (Nat.ltb_spec (6 * Ns + 5 * b + i) (11 * Ns)); [|lia].
    replace (6 * Ns + 5 * b + i - 6 * Ns)%nat with (5 * b + i)%nat by lia.
    destruct (divmod_add 5 b i Hi) as [-> _]. destruct (Nat.ltb_spec b Ns); [reflexivity|lia].
  - destruct (Nat.ltb_spec (11 * Ns + 3 * (b - Ns) + i) (3 * Ns)); [lia|]. destruct (Nat.ltb_spec (11 * Ns + 3 * (b - Ns) + i) (6 * Ns)); [lia|].
    destruct (Nat.ltb_spec (11 * Ns + 3 * (b - Ns) + i) (11 * Ns)); [lia|]. destruct (Nat.ltb_spec b Ns); [lia|].
    destruct (Nat.ltb_spec b (Ns + Nd)).
    + destruct (Nat.ltb_spec (11 * Ns + 3 * (b - Ns) + i) (11 * Ns + 3 * Nd)); [|lia].
      replace (11 * Ns + 3 * (b - Ns) + i - 11 * Ns)%nat with (3 * (b - Ns) + i)%nat by lia. destruct (divmod_add 3 (b - Ns) i Hi) as [-> _]. reflexivity.
    + destruct (Nat.ltb_spec (11 * Ns + 3 * (b - Ns) + i) (11 * Ns + 3 * Nd)); [lia|].
      replace (11 * Ns + 3 * (b - Ns) + i - 11 * Ns - 3 * Nd)%nat with (3 * (b - Ns - Nd) + i)%nat by lia.
      destruct (divmod_add 3 (b - Ns - Nd) i Hi) as [-> _]. reflexivity.
Qed.
Lemma bead_of_kind k b : kvalid Ns Nd k b -> (b < nb)%nat.
Proof. destruct k; cbn [kvalid]; lia. Qed.
Lemma drag_entries mu r c : (r < n)%nat -> (c < n)%nat -> drag_Minfinity_inverse PR mu r c = drag_Minfinity_inverse P mu (comp r) (comp c).
Proof.
  intros Hr Hc.
  assert (EQ : Nat.eqb r c = Nat.eqb (comp r) (comp c)).
  { destruct (Nat.eqb_spec r c) as [->|N]; [symmetry; apply Nat.eqb_refl|]. symmetry. apply Nat.eqb_neq. intros E. apply N.
    apply (proj2 comp_permutes); assumption. }
  destruct (block_cover Ns Nd r Hr) as (k & b & x & V & Hx & ->). destruct (block_cover Ns Nd c Hc) as (k' & b' & x' & V' & Hx' & ->).
  rewrite !comp_block in EQ by assumption. rewrite !comp_block by assumption.
  rewrite (drag_at PR), (drag_at P) by (try reflexivity; try assumption; apply br_ok; assumption). rewrite EQ.
  rewrite (br_size b) by (apply (bead_of_kind k); exact V). reflexivity.
Qed.
Lemma drag_renumbered mu : follows (drag_Minfinity_inverse P mu) (drag_Minfinity_inverse P' mu).
Proof.
  apply (commutes_same Q Ns Nd (drag_Minfinity_inverse PR mu) _ (drag_Minfinity_inverse P' mu)).
  - apply entries_same. intros r c Hr Hc. unfold permuted. symmetry. apply drag_entries; assumption.
  - intros f r _. reflexivity.
  - exact (drag_turned Q HQ Ns Nd (renumber_config s t p) p' turned_rest mu).
Qed.
End Renumber.
