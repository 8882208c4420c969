(** Close pairs without a periodic box. *)
From Coq Require Import Reals Arith Bool List Lia Lra FunctionalExtensionality.
From Verif Require Import Base Model_Mob Model_Close Spec_R2B Spec_Close Proof_Layout Proof_Mob Proof_Minf2.
Import ListNotations.
Local Open Scope R_scope.

Lemma Rltb_spec x y : Rltb x y = true <-> x < y.
Proof. unfold Rltb. destruct (Rlt_dec x y); split; congruence || auto. Qed.
Lemma Rleb_spec x y : Rleb x y = true <-> x <= y.
Proof. unfold Rleb. destruct (Rle_dec x y); split; congruence || auto. Qed.

Lemma norm_vsub_sym x y : norm (vsub x y) = norm (vsub y x).
Proof. unfold norm, vsub. f_equal. ring. Qed.
Lemma norm_nonneg x : 0 <= norm x.
Proof. unfold norm. apply sqrt_pos. Qed.

Lemma dist_scaled x a i j :
  norm (vsub (x i) (x j)) / (1 / 2 * (a j + a i)) = scaled_distance x a i j.
Proof.
  unfold scaled_distance. rewrite norm_vsub_sym. unfold Rdiv. rewrite !Rinv_mult, Rinv_1, Rinv_inv.
  rewrite (Rplus_comm (a j)). ring.
Qed.
Lemma scaled_sym x a i j : scaled_distance x a i j = scaled_distance x a j i.
Proof. unfold scaled_distance. rewrite norm_vsub_sym, Rplus_comm. reflexivity. Qed.

Definition grid n := flat_map (fun i => map (fun j => (i, j)) (seq 0 n)) (seq 0 n).
Lemma grid_in n i j : In (i, j) (grid n) <-> (i < n)%nat /\ (j < n)%nat.
Proof.
  unfold grid. rewrite in_flat_map. split.
  - intros (k & Hk & H). apply in_map_iff in H. destruct H as (l & E & Hl). injection E as -> ->.
    apply in_seq in Hk. apply in_seq in Hl. lia.
  - intros [Hi Hj]. exists i. split; [apply in_seq; lia|]. apply in_map_iff. exists j. split; [reflexivity|apply in_seq; lia].
Qed.
Lemma pairs_nodup (g : nat -> list nat) n : (forall i, NoDup (g i)) ->
  NoDup (flat_map (fun i => map (fun j => (i, j)) (g i)) (seq 0 n)).
Proof.
  intros Hg. generalize (seq_NoDup n 0). generalize (seq 0 n) as l.
  induction l as [|u l IH]; intros Hnd; simpl; [constructor|].
  inversion Hnd as [|? ? Hu Hl]; subst.
  apply NoDup_app_intro.
  - apply NoDup_map_inj; [intros a b E; injection E; auto|apply Hg].
  - apply IH. exact Hl.
  - intros [a b] H1 H2. apply in_map_iff in H1. destruct H1 as [z [E _]]. injection E as <- <-.
    apply in_flat_map in H2. destruct H2 as [w [Hw H2]]. apply in_map_iff in H2.
    destruct H2 as [y [E _]]. injection E as <- <-. contradiction.
Qed.

Definition free_record (x : nat -> vec) (a : nat -> R) (i j : nat) : cpair :=
  mkCpair i j (vscal (2 / (a i + a j)) (vsub (x j) (x i))) (scaled_distance x a i j) (a j / a i).

Lemma free_in x a n cf t :
  In t (close_particles_free x a n cf) <->
  (cp1 t <= cp2 t < n)%nat /\ scaled_distance x a (cp1 t) (cp2 t) < 2 * cf /\
  t = free_record x a (cp1 t) (cp2 t).
Proof.
  unfold close_particles_free. rewrite in_map_iff. split.
  - intros ((i & j) & E & H). apply filter_In in H. destruct H as [H Hle]. apply filter_In in H. destruct H as [H Hlt].
    apply grid_in in H. simpl fst in *; simpl snd in *. apply Nat.leb_le in Hle. apply Rltb_spec in Hlt.
    rewrite dist_scaled in *. subst t. cbn [cp1 cp2]. repeat split; try lia. exact Hlt.
  - intros (Hij & Hlt & E). exists (cp1 t, cp2 t). simpl fst; simpl snd. split.
    + rewrite dist_scaled. symmetry. exact E.
    + apply filter_In. split; [|simpl; apply Nat.leb_le; lia].
      apply filter_In. split; [apply grid_in; lia|]. simpl. apply Rltb_spec. rewrite dist_scaled. exact Hlt.
Qed.

Lemma free_nodup x a n cf : NoDup (map (fun t => (cp1 t, cp2 t)) (close_particles_free x a n cf)).
Proof.
  unfold close_particles_free. rewrite map_map. cbn [cp1 cp2].
  rewrite (map_ext _ (fun f => f)) by (intros []; reflexivity). rewrite map_id.
  do 2 apply NoDup_filter. apply pairs_nodup. intros. apply seq_NoDup.
Qed.

Lemma scaled_self x a i : scaled_distance x a i i = 0.
Proof.
  unfold scaled_distance. replace (norm (vsub (x i) (x i))) with 0.
  - unfold Rdiv. ring.
  - unfold norm, vsub. rewrite <- sqrt_0. f_equal. ring.
Qed.

Lemma free_close_list x a n cf : 0 < cf -> close_list n a (close_particles_free x a n cf).
Proof.
  intros Hcf. split; [apply free_nodup|]. split.
  - intros t Ht. apply free_in in Ht. destruct Ht as (H1 & _ & E). split; [exact H1|]. rewrite E at 1. reflexivity.
  - intros p Hp. exists (free_record x a p p). split; [|split; reflexivity].
    apply free_in. cbn [cp1 cp2 free_record]. repeat split; try lia. rewrite scaled_self. lra.
Qed.

Lemma free_disp_length x a i j : 0 < a i + a j -> norm (cp_disp (free_record x a i j)) = scaled_distance x a i j.
Proof.
  intros H. cbn [cp_disp free_record]. rewrite norm_vscal. rewrite Rabs_pos_eq.
  - unfold scaled_distance, Rdiv. ring.
  - apply Rlt_le, Rdiv_lt_0_compat; lra.
Qed.

Lemma free_dir x a i j : 0 < a i + a j -> 
  vscal (/ scaled_distance x a i j) (vscal (2 / (a i + a j)) (vsub (x j) (x i))) = direction x i j.
Proof.
  intros H. apply functional_extensionality. intros l. unfold direction, vscal, scaled_distance.
  unfold Rdiv. rewrite !Rinv_mult, Rinv_inv. generalize (/ norm (vsub (x j) (x i))). intros u. field. lra.
Qed.

(** Translating all particles. *)
Lemma free_translate x a n cf d :
  close_particles_free (fun i => vadd (x i) d) a n cf = close_particles_free x a n cf.
Proof.
  assert (E : forall i j, vsub (vadd (x i) d) (vadd (x j) d) = vsub (x i) (x j)).
  { intros i j. apply functional_extensionality. intros l. unfold vsub, vadd. ring. }
  unfold close_particles_free. cbv zeta beta.
  f_equal.
  - apply functional_extensionality. intros f. rewrite !E. reflexivity.
  - f_equal. apply filter_ext. intros f. rewrite E. reflexivity.
Qed.
