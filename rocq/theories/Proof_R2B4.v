(** [generate_R2Bexact] at the level of particle data. *)
From Coq Require Import Reals Arith Bool List Lia Lra FunctionalExtensionality Permutation.
From Verif Require Import Base Model_Pack Model_Mob Model_Layout Model_Minf Model_Close Model_L Model_R2B
  Spec_Layout Spec_Minf Spec_R2B Spec_Close Spec_Calc Proof_Fold Proof_Layout Proof_Calc Proof_Mob Proof_Mob2
  Proof_Minf Proof_Minf2 Proof_L Proof_Minf3 Proof_R2B Proof_R2B2 Proof_R2B3 Proof_Close Proof_Periodic.
Import ListNotations.
Local Open Scope R_scope.

Lemma r2b_transform_ent Ns Nd M k1 p k2 q i j :
  kvalid Ns Nd k1 p -> kvalid Ns Nd k2 q -> (i < ksize k1)%nat -> (j < ksize k2)%nat ->
  ent Ns (r2b_transform Ns Nd M) k1 p k2 q i j =
  wsum Ns Nd 1 k2 q (fun q' => wsum Ns Nd 1 k1 p (fun p' => ent Ns M k1 p' k2 q' i j)).
Proof.
  intros V1 V2 Hi Hj. unfold ent, r2b_transform.
  rewrite (LML_entry Ns Nd _ _ (r2b_L_closed Ns Nd)) by (apply block_range; assumption).
  rewrite Lact_kstart by assumption.
  unfold wsum at 1 3. destruct k2; rewrite ?Lact_kstart by assumption; reflexivity.
Qed.

Lemma gen_r2b_some sc table bb a Ns Nd pairs mu G :
  generate_R2Bexact sc table bb a Ns Nd pairs mu = Some G ->
  exists M, generate_R2Bexact_loop sc table bb a Ns Nd pairs = Some M /\
    M = symmetrise (fold_left (r2b_write sc table bb a Ns Nd pairs) pairs mzero) /\
    forall r t, (r < 11 * Ns + 6 * Nd)%nat -> (t < 11 * Ns + 6 * Nd)%nat ->
      G r t = mu * r2b_transform Ns Nd M r t.
Proof.
  unfold generate_R2Bexact. intros H.
  pose proof (loop_some sc table bb a Ns Nd pairs) as E.
  destruct (generate_R2Bexact_loop sc table bb a Ns Nd pairs) as [M|]; [|discriminate].
  exists M. split; [reflexivity|]. split.
  - destruct (forallb _ _); [injection E as ->; reflexivity|discriminate].
  - intros r t Hr Ht. injection H as <-. unfold mscal. f_equal.
    destruct (Nat.ltb_spec 0 Nd) as [Hd|Hd]; [reflexivity|].
    unfold r2b_transform. rewrite (LML_entry _ _ _ _ (r2b_L_closed _ _)) by assumption.
    unfold Lact. destruct (Nat.ltb_spec t (11 * Ns)); [|lia].
    destruct (Nat.ltb_spec r (11 * Ns)); [reflexivity|lia].
Qed.

Lemma gen_r2b_sym sc table bb a Ns Nd pairs mu G :
  generate_R2Bexact sc table bb a Ns Nd pairs mu = Some G -> msym (11 * Ns + 6 * Nd) G.
Proof.
  intros H r t Hr Ht. destruct (gen_r2b_some _ _ _ _ _ _ _ _ _ H) as (M & _ & EM & EG).
  rewrite !EG by assumption. f_equal. unfold r2b_transform.
  apply LML_sym; try assumption. rewrite EM. apply symmetrise_sym.
Qed.

Lemma wsum_zero Ns Nd h k p f : (forall b, bead_of Ns Nd k p b -> f b = 0) -> wsum Ns Nd h k p f = 0.
Proof.
  intros H. unfold wsum, bead_of in *. destruct k; try (apply H; reflexivity).
  destruct (Nat.ltb p (Ns + Nd)); rewrite (H p), (H _ (or_intror eq_refl)) by auto; ring.
Qed.

Lemma bead_of_valid Ns Nd k p b : kvalid Ns Nd k p -> bead_of Ns Nd k p b -> kvalid Ns Nd k b.
Proof.
  destruct k; simpl; intros V H; try (subst; exact V).
  destruct (Nat.ltb_spec p (Ns + Nd)); lia.
Qed.

Lemma gen_r2b_far sc table bb a Ns Nd pairs mu G k1 p k2 q i j :
  close_list (Ns + 2 * Nd) a pairs -> (forall b, (b < Ns + 2 * Nd)%nat -> 0 < a b) ->
  generate_R2Bexact sc table bb a Ns Nd pairs mu = Some G ->
  kvalid Ns Nd k1 p -> kvalid Ns Nd k2 q -> (i < ksize k1)%nat -> (j < ksize k2)%nat ->
  (forall b b', bead_of Ns Nd k1 p b -> bead_of Ns Nd k2 q b' -> b <> b' /\ ~ in_contact pairs b b') ->
  G (kstart Ns k1 p + i)%nat (kstart Ns k2 q + j)%nat = 0.
Proof.
  intros Hc Ha H V1 V2 Hi Hj Hno. destruct (gen_r2b_some _ _ _ _ _ _ _ _ _ H) as (M & _ & EM & EG).
  rewrite EG by (apply block_range; assumption).
  change (mu * ent Ns (r2b_transform Ns Nd M) k1 p k2 q i j = 0).
  rewrite r2b_transform_ent by assumption.
  rewrite wsum_zero; [ring|]. intros b' Hb'. apply wsum_zero. intros b Hb.
  destruct (Hno b b' Hb Hb') as [Hne Hnc]. rewrite EM.
  apply r2b_far; try assumption; eapply bead_of_valid; eassumption.
Qed.

(** No close pair at all. *)
Lemma contact_sum_selfs pairs p f : (forall t, In t pairs -> cp1 t = cp2 t) -> contact_sum pairs p f = 0.
Proof.
  intros H. apply sum_zero. intros t Ht. unfold contact_term. rewrite (H t Ht), Nat.eqb_refl. reflexivity.
Qed.
Lemma Lact_zero Ns Nd h v i : (i < 11 * Ns + 6 * Nd)%nat -> (forall l, (l < 11 * Ns + 6 * Nd)%nat -> v l = 0) -> Lact Ns Nd h v i = 0.
Proof.
  intros Hi H. unfold Lact. destruct (Nat.ltb_spec i (11 * Ns)); [apply H; lia|].
  destruct (Nat.ltb_spec i (11 * Ns + 3 * Nd)); rewrite !H by lia; ring.
Qed.
Lemma gen_r2b_none sc table bb a Ns Nd pairs mu G r t :
  close_list (Ns + 2 * Nd) a pairs -> (forall b, (b < Ns + 2 * Nd)%nat -> 0 < a b) ->
  generate_R2Bexact sc table bb a Ns Nd pairs mu = Some G ->
  (forall u, In u pairs -> cp1 u = cp2 u) ->
  (r < 11 * Ns + 6 * Nd)%nat -> (t < 11 * Ns + 6 * Nd)%nat -> G r t = 0.
Proof.
  intros Hc Ha H Hself Hr Ht. destruct (gen_r2b_some _ _ _ _ _ _ _ _ _ H) as (M & _ & EM & EG).
  rewrite EG by assumption. unfold r2b_transform.
  rewrite (LML_entry _ _ _ _ (r2b_L_closed _ _)) by assumption.
  rewrite Lact_zero; [ring|assumption|]. intros l Hl. apply Lact_zero; [assumption|]. intros m Hm. cbv beta.
  rewrite EM.
  destruct (block_cover Ns Nd l Hl) as (k2 & q & j & V2 & Hj & ->).
  destruct (block_cover Ns Nd m Hm) as (k1 & p & i & V1 & Hi & ->).
  assert (Z : forall k1 p k2 q i j, bead_resistance sc (lam_ix table) bb a pairs k1 p k2 q i j = 0).
  { intros. unfold bead_resistance. rewrite !contact_sum_selfs by exact Hself.
    destruct (Nat.eqb _ _); [reflexivity|]. destruct k0, k3, bb; reflexivity. }
  match goal with |- symmetrise ?X _ _ = 0 => change (ent Ns (symmetrise X) k1 p k2 q i j = 0) end.
  rewrite r2b_entry; try assumption; [apply Z|].
  destruct (le_lt_dec p q) as [Hpq|Hpq]; [right; left; exact Hpq|]. right; right.
  intros u Hu [[E1 E2]|[E1 E2]]; specialize (Hself u Hu); exfalso; lia.
Qed.

(** ** Contact sums as sums over beads *)
Lemma fold_rsum l n (f : cpair -> nat -> R) :
  fold_right Rplus 0 (map (fun t => rsum n (f t)) l) = rsum n (fun q => fold_right Rplus 0 (map (fun t => f t q) l)).
Proof.
  induction l as [|t l IH]; simpl; [symmetry; apply rsum_const0|]. rewrite IH, <- rsum_plus. reflexivity.
Qed.
Lemma contact_split pairs n p f :
  (forall t, In t pairs -> (cp1 t < n)%nat /\ (cp2 t < n)%nat) ->
  contact_sum pairs p f =
  rsum n (fun q => contact_sum pairs p (fun q' d s => if Nat.eqb q' q then f q d s else 0)).
Proof.
  intros H. unfold contact_sum.
  refine (eq_trans _ (fold_rsum pairs n (fun t q => contact_term p (fun q' d s => if Nat.eqb q' q then f q d s else 0) t))).
  f_equal. apply map_ext_in. intros t Ht. destruct (H t Ht) as [H1 H2]. unfold contact_term.
  destruct (Nat.eqb (cp1 t) (cp2 t)); [symmetry; apply rsum_const0|].
  destruct (Nat.eqb (cp1 t) p).
  - rewrite (rsum_single n (cp2 t)); [rewrite Nat.eqb_refl; reflexivity|exact H2|].
    intros q _ Hne. destruct (Nat.eqb_spec (cp2 t) q); [congruence|reflexivity].
  - destruct (Nat.eqb (cp2 t) p); [|symmetry; apply rsum_const0].
    rewrite (rsum_single n (cp1 t)); [rewrite Nat.eqb_refl; reflexivity|exact H1|].
    intros q _ Hne. destruct (Nat.eqb_spec (cp1 t) q); [congruence|reflexivity].
Qed.

Section Free.
Variables (x : nat -> vec) (a : nat -> R) (n : nat) (cf : R).
Hypothesis Hcf : 0 < cf.
Hypothesis Ha : forall p, (p < n)%nat -> 0 < a p.
Let pairs := close_particles_free x a n cf.

Lemma free_contact p q : (p < n)%nat -> (q < n)%nat ->
  (in_contact pairs p q <-> scaled_distance x a p q < 2 * cf).
Proof.
  intros Hp Hq. split.
  - intros (t & Ht & H). apply free_in in Ht. destruct Ht as (_ & Hs & _).
    destruct H as [[E1 E2]|[E1 E2]]; rewrite E1, E2 in Hs; [exact Hs|rewrite scaled_sym; exact Hs].
  - intros H. destruct (le_lt_dec p q) as [L|L].
    + exists (free_record x a p q). split; [|left; split; reflexivity].
      apply free_in. cbn [cp1 cp2 free_record]. repeat split; try lia. exact H.
    + exists (free_record x a q p). split; [|right; split; reflexivity].
      apply free_in. cbn [cp1 cp2 free_record]. repeat split; try lia. rewrite scaled_sym. exact H.
Qed.

Lemma free_contact_one p q f : (p < n)%nat -> (q < n)%nat -> p <> q ->
  contact_sum pairs p (fun q' d s => if Nat.eqb q' q then f d s else 0) =
  if Rlt_dec (scaled_distance x a p q) (2 * cf) then f (direction x p q) (scaled_distance x a p q) else 0.
Proof.
  intros Hp Hq Hpq. destruct (Rlt_dec _ _) as [H|H].
  - pose proof (proj2 (free_contact p q Hp Hq) H) as (t & Ht & Hor).
    rewrite (contact_one pairs p q f t); try assumption.
    + apply free_in in Ht. destruct Ht as (Hle & _ & E).
      pose proof (Ha p Hp). pose proof (Ha q Hq).
      destruct Hor as [[E1 E2]|[E1 E2]].
      * rewrite E1, Nat.eqb_refl. rewrite E1, E2 in E. rewrite E. cbn [cp_disp cp_dist free_record].
        rewrite free_dir by lra. reflexivity.
      * rewrite E1. rewrite (proj2 (Nat.eqb_neq q p)) by congruence. rewrite E1, E2 in E. rewrite E.
        cbn [cp_disp cp_dist free_record]. rewrite (scaled_sym x a q p).
        replace (vopp (vscal (2 / (a q + a p)) (vsub (x p) (x q)))) with (vscal (2 / (a p + a q)) (vsub (x q) (x p))).
        -- rewrite free_dir by lra. reflexivity.
        -- apply functional_extensionality. intros l. unfold vopp, vscal, vsub. rewrite (Rplus_comm (a q)). ring.
    + apply free_nodup.
    + intros u Hu. apply free_in in Hu. lia.
  - apply contact_none. rewrite free_contact by assumption. exact H.
Qed.

Lemma free_contact_sum p f : (p < n)%nat ->
  contact_sum pairs p f =
  rsum n (fun q => if (negb (Nat.eqb q p) && (if Rlt_dec (scaled_distance x a p q) (2 * cf) then true else false))%bool
                   then f q (direction x p q) (scaled_distance x a p q) else 0).
Proof.
  intros Hp. rewrite (contact_split pairs n).
  - apply rsum_ext. intros q Hq. destruct (Nat.eqb_spec q p) as [->|Hne]; cbn [negb andb].
    + apply sum_zero. intros t Ht. unfold contact_term.
      destruct (Nat.eqb_spec (cp1 t) (cp2 t)); [reflexivity|].
      destruct (Nat.eqb_spec (cp1 t) p); [destruct (Nat.eqb_spec (cp2 t) p); [congruence|reflexivity]|].
      destruct (Nat.eqb_spec (cp2 t) p); [|reflexivity]. reflexivity.
    + rewrite (free_contact_one p q (f q)) by (try assumption; congruence).
      destruct (Rlt_dec _ _); reflexivity.
  - intros t Ht. apply free_in in Ht. lia.
Qed.

Lemma free_resistance_eq sc ix bb k1 p k2 q i j : (p < n)%nat -> (q < n)%nat ->
  bead_resistance sc ix bb a pairs k1 p k2 q i j = free_resistance sc ix bb x a n cf k1 p k2 q i j.
Proof.
  intros Hp Hq. unfold bead_resistance, free_resistance. destruct (Nat.eqb_spec p q) as [<-|Hne].
  - rewrite free_contact_sum by exact Hp. reflexivity.
  - rewrite (free_contact_one p q (fun d s => cross_block sc ix k1 k2 d s (a p) (a q) i j)) by assumption.
    destruct k1, k2, bb; try reflexivity; destruct (Rlt_dec (scaled_distance x a p q) (2 * cf)); reflexivity.
Qed.
End Free.

(** ** Entries for particles in free space *)
Definition all_reciprocal sc table x a n cf : Prop :=
  forall p q, (p < n)%nat -> (q < n)%nat -> p <> q -> scaled_distance x a p q < 2 * cf ->
    reciprocal_scalars sc (lam_ix table) (scaled_distance x a p q) (a p) (a q).

Lemma free_loop_entry sc table bb x a Ns Nd cf k1 p k2 q i j :
  0 < cf -> (forall b, (b < Ns + 2 * Nd)%nat -> 0 < a b) ->
  kvalid Ns Nd k1 p -> kvalid Ns Nd k2 q -> (i < ksize k1)%nat -> (j < ksize k2)%nat ->
  (mrank k1 <> mrank k2 \/ (p <= q)%nat \/
   (scaled_distance x a p q < 2 * cf -> reciprocal_scalars sc (lam_ix table) (scaled_distance x a p q) (a p) (a q))) ->
  forall M, generate_R2Bexact_loop sc table bb a Ns Nd (close_particles_free x a (Ns + 2 * Nd) cf) = Some M ->
  M (kstart Ns k1 p + i)%nat (kstart Ns k2 q + j)%nat =
  free_resistance sc (lam_ix table) bb x a (Ns + 2 * Nd) cf k1 p k2 q i j.
Proof.
  intros Hcf Ha V1 V2 Hi Hj Hor M H. rewrite loop_some in H.
  destruct (forallb _ _); [|discriminate]. injection H as <-.
  pose proof (kvalid_nb Ns Nd _ _ V1) as P1. pose proof (kvalid_nb Ns Nd _ _ V2) as P2.
  rewrite <- free_resistance_eq by assumption.
  match goal with |- symmetrise ?X _ _ = _ => change (ent Ns (symmetrise X) k1 p k2 q i j = bead_resistance sc (lam_ix table) bb a (close_particles_free x a (Ns + 2 * Nd) cf) k1 p k2 q i j) end.
  apply r2b_entry; try assumption.
  - apply free_close_list. exact Hcf.
  - destruct Hor as [?|[?|Hor]]; [left; assumption|right; left; assumption|right; right].
    intros t Ht Hpq. apply free_in in Ht. destruct Ht as (_ & Hs & E). rewrite E. cbn [cp_dist free_record].
    destruct Hpq as [[E1 E2]|[E1 E2]]; rewrite E1, E2 in *; [apply Hor; exact Hs|].
    rewrite (scaled_sym x a q p) in Hs |- *. apply Hor. exact Hs.
Qed.

(** ** Relabelling *)
Lemma rsum_fold n f : rsum n f = fold_right Rplus 0 (map f (seq 0 n)).
Proof.
  induction n as [|n IH]; [reflexivity|]. rewrite seq_S, map_app, fold_plus_app, <- IH. simpl. ring.
Qed.
Lemma rsum_perm n s f : permutes n s -> rsum n (fun i => f (s i)) = rsum n f.
Proof.
  intros [S1 S2]. rewrite !rsum_fold.
  assert (P : Permutation (map s (seq 0 n)) (seq 0 n)).
  { apply NoDup_Permutation_bis.
    - assert (G : forall l, NoDup l -> (forall i, In i l -> (i < n)%nat) -> NoDup (map s l)).
      { induction l as [|u l IH]; intros Hnd Hl; simpl; [constructor|].
        inversion Hnd as [|? ? Hu Hl']; subst. constructor.
        - rewrite in_map_iff. intros (w & E & Hw). apply S2 in E; [subst; contradiction| |];
            apply Hl; [right; exact Hw|left; reflexivity].
        - apply IH; [exact Hl'|]. intros i Hi. apply Hl. right; exact Hi. }
      apply G; [apply seq_NoDup|]. intros i Hi. apply in_seq in Hi. lia.
    - rewrite map_length. reflexivity.
    - intros i Hi. apply in_map_iff in Hi. destruct Hi as (w & <- & Hw). apply in_seq in Hw. apply in_seq.
      specialize (S1 w ltac:(lia)). lia. }
  rewrite <- (map_map s f).
  assert (F : forall l l', Permutation l l' -> fold_right Rplus 0 (map f l) = fold_right Rplus 0 (map f l')).
  { induction 1; simpl; try congruence; lra. }
  apply F. exact P.
Qed.

Lemma free_resistance_relabel sc ix bb x a x' a' n cf s k1 p k2 q i j :
  permutes n s -> (forall b, (b < n)%nat -> x' b = x (s b)) -> (forall b, (b < n)%nat -> a' b = a (s b)) ->
  (p < n)%nat -> (q < n)%nat ->
  free_resistance sc ix bb x' a' n cf k1 p k2 q i j = free_resistance sc ix bb x a n cf k1 (s p) k2 (s q) i j.
Proof.
  intros Hs Hx Ha' Hp Hq. pose proof Hs as [S1 S2]. unfold free_resistance.
  assert (Eb : forall b b', (b < n)%nat -> (b' < n)%nat -> Nat.eqb (s b) (s b') = Nat.eqb b b').
  { intros b b' Hb Hb'. destruct (Nat.eqb_spec b b') as [->|Hne]; [apply Nat.eqb_refl|].
    apply Nat.eqb_neq. intros E. apply Hne, S2; assumption. }
  assert (Es : forall b b', (b < n)%nat -> (b' < n)%nat -> scaled_distance x' a' b b' = scaled_distance x a (s b) (s b')).
  { intros b b' Hb Hb'. unfold scaled_distance. rewrite !Hx, !Ha' by assumption. reflexivity. }
  assert (Ed : forall b b', (b < n)%nat -> (b' < n)%nat -> direction x' b b' = direction x (s b) (s b')).
  { intros b b' Hb Hb'. unfold direction. rewrite !Hx by assumption. reflexivity. }
  rewrite Eb by assumption. destruct (Nat.eqb p q).
  - refine (eq_trans _ (rsum_perm n s _ Hs)). apply rsum_ext. intros b Hb.
    rewrite Eb, Es, Ed, !Ha' by assumption. reflexivity.
  - rewrite Es, Ed, !Ha' by assumption. reflexivity.
Qed.

Lemma loop_free_relabel sc table bb p cf s t M M' :
  let Ns := num_spheres p in let Nd := num_dumbbells p in
  0 < cf -> permutes Ns s -> permutes Nd t ->
  (forall b, (b < Ns + 2 * Nd)%nat -> 0 < bead_sizes p b) ->
  all_reciprocal sc table (bead_positions p) (bead_sizes p) (Ns + 2 * Nd) cf ->
  generate_R2Bexact_loop sc table bb (bead_sizes p) Ns Nd
    (close_particles_free (bead_positions p) (bead_sizes p) (Ns + 2 * Nd) cf) = Some M ->
  generate_R2Bexact_loop sc table bb (bead_sizes (relabel s t p)) Ns Nd
    (close_particles_free (bead_positions (relabel s t p)) (bead_sizes (relabel s t p)) (Ns + 2 * Nd) cf) = Some M' ->
  forall k1 b k2 b' i j, kvalid Ns Nd k1 b -> kvalid Ns Nd k2 b' -> (i < ksize k1)%nat -> (j < ksize k2)%nat ->
  ent Ns M' k1 b k2 b' i j = ent Ns M k1 (bead_relabel s t Ns Nd b) k2 (bead_relabel s t Ns Nd b') i j.
Proof.
  intros Ns Nd Hcf Hs Ht Ha Hrec HM HM' k1 b k2 b' i j V1 V2 Hi Hj.
  assert (B1 : (b < Ns + 2 * Nd)%nat) by (apply (kvalid_nb Ns Nd k1); assumption).
  assert (B2 : (b' < Ns + 2 * Nd)%nat) by (apply (kvalid_nb Ns Nd k2); assumption).
  assert (Hperm : permutes (Ns + 2 * Nd) (bead_relabel s t Ns Nd)).
  { split; intros; [apply br_lt; assumption|apply (br_inj p s t); assumption]. }
  assert (Pos : forall c, (c < Ns + 2 * Nd)%nat -> bead_positions (relabel s t p) c = bead_positions p (bead_relabel s t Ns Nd c))
    by (intros; apply br_positions; assumption).
  assert (Siz : forall c, (c < Ns + 2 * Nd)%nat -> bead_sizes (relabel s t p) c = bead_sizes p (bead_relabel s t Ns Nd c))
    by (intros; apply br_sizes; assumption).
  unfold ent.
  assert (Sd : scaled_distance (bead_positions (relabel s t p)) (bead_sizes (relabel s t p)) b b'
     = scaled_distance (bead_positions p) (bead_sizes p) (bead_relabel s t Ns Nd b) (bead_relabel s t Ns Nd b')).
  { unfold scaled_distance. rewrite !Pos, !Siz by assumption. reflexivity. }
  assert (Ord : forall u v, (u < Ns + 2 * Nd)%nat -> (v < Ns + 2 * Nd)%nat -> (u <= v)%nat \/
     (scaled_distance (bead_positions p) (bead_sizes p) u v < 2 * cf ->
      reciprocal_scalars sc (lam_ix table) (scaled_distance (bead_positions p) (bead_sizes p) u v) (bead_sizes p u) (bead_sizes p v))).
  { intros u v Hu Hv. destruct (Nat.eq_dec u v); [left; lia|]. right. apply Hrec; assumption. }
  pose proof (proj1 Hperm b B1) as C1. pose proof (proj1 Hperm b' B2) as C2.
  rewrite (free_loop_entry sc table bb (bead_positions (relabel s t p)) (bead_sizes (relabel s t p)) Ns Nd cf k1 b k2 b' i j) with (M := M'); try assumption.
  - rewrite (free_loop_entry sc table bb (bead_positions p) (bead_sizes p) Ns Nd cf k1 (bead_relabel s t Ns Nd b) k2 (bead_relabel s t Ns Nd b') i j); try assumption.
    + apply free_resistance_relabel; assumption.
    + apply br_valid; assumption.
    + apply br_valid; assumption.
    + right. apply Ord; assumption.
  - intros c Hc. rewrite Siz by exact Hc. apply Ha, Hperm, Hc.
  - destruct (Nat.eq_dec b b'); [right; left; lia|]. right; right. rewrite Sd, !Siz by assumption.
    apply Hrec; try assumption. intros E. apply n. apply Hperm in E; assumption.
Qed.

Lemma gen_free_relabel sc table bb p cf mu s t G G' :
  let Ns := num_spheres p in let Nd := num_dumbbells p in
  0 < cf -> permutes Ns s -> permutes Nd t ->
  (forall b, (b < Ns + 2 * Nd)%nat -> 0 < bead_sizes p b) ->
  all_reciprocal sc table (bead_positions p) (bead_sizes p) (Ns + 2 * Nd) cf ->
  generate_R2Bexact_free sc table bb p cf mu = Some G ->
  generate_R2Bexact_free sc table bb (relabel s t p) cf mu = Some G' ->
  forall k1 b k2 b' i j, kvalid Ns Nd k1 b -> kvalid Ns Nd k2 b' -> (i < ksize k1)%nat -> (j < ksize k2)%nat ->
  G' (kstart Ns k1 b + i)%nat (kstart Ns k2 b' + j)%nat =
  G (kstart Ns k1 (bead_relabel s t Ns Nd b) + i)%nat (kstart Ns k2 (bead_relabel s t Ns Nd b') + j)%nat.
Proof.
  intros Ns Nd Hcf Hs Ht Ha Hrec HG HG' k1 b k2 b' i j V1 V2 Hi Hj.
  destruct (gen_r2b_some _ _ _ _ _ _ _ _ _ HG) as (M & HM & _ & EG).
  destruct (gen_r2b_some _ _ _ _ _ _ _ _ _ HG') as (M' & HM' & _ & EG').
  simpl num_spheres in EG', HM'. simpl num_dumbbells in EG', HM'. fold Ns Nd in EG, EG', HM, HM'.
  set (br := bead_relabel s t Ns Nd).
  assert (W1 : kvalid Ns Nd k1 (br b)) by (apply (br_valid p s t Hs Ht); assumption).
  assert (W2 : kvalid Ns Nd k2 (br b')) by (apply (br_valid p s t Hs Ht); assumption).
  rewrite EG, EG' by (apply block_range; assumption). f_equal.
  change (ent Ns (r2b_transform Ns Nd M') k1 b k2 b' i j = ent Ns (r2b_transform Ns Nd M) k1 (br b) k2 (br b') i j).
  rewrite !r2b_transform_ent by assumption.
  pose proof (loop_free_relabel sc table bb p cf s t M M' Hcf Hs Ht Ha Hrec HM HM') as L.
  assert (Hiff : forall k y, kvalid Ns Nd k y -> (y < Ns + Nd <-> br y < Ns + Nd)%nat).
  { intros k y V. destruct (br_range p s t Hs Ht y) as [_ ?]; [apply (kvalid_nb Ns Nd k y V)|]. unfold br. tauto. }
  assert (Inner : forall y, kvalid Ns Nd k2 y ->
     wsum Ns Nd 1 k1 b (fun p' => ent Ns M' k1 p' k2 y i j) =
     wsum Ns Nd 1 k1 (br b) (fun p' => ent Ns M k1 p' k2 (br y) i j)).
  { intros y Vy. apply wsum_ext; try assumption.
    - intros ->. apply (Hiff KB). exact V1.
    - apply L; assumption.
    - intros ->. rewrite L; try assumption; [|apply (partner_valid p); assumption].
      fold br. unfold br. rewrite (br_partner p s t Hs Ht) by (simpl in V1; unfold Ns, Nd in V1; lia). reflexivity. }
  apply wsum_ext; try assumption.
  - intros ->. apply (Hiff KB). exact V2.
  - apply Inner. exact V2.
  - intros ->. rewrite Inner by (apply (partner_valid p); assumption).
    unfold br. rewrite (br_partner p s t Hs Ht) by (simpl in V2; unfold Ns, Nd in V2; lia). reflexivity.
Qed.

(** ** Translation and viscosity *)
Lemma r2b_translate sc table bb p cf mu d :
  generate_R2Bexact_free sc table bb (translate d p) cf mu = generate_R2Bexact_free sc table bb p cf mu.
Proof.
  unfold generate_R2Bexact_free. simpl num_spheres; simpl num_dumbbells.
  replace (bead_positions (translate d p)) with (fun b => vadd (bead_positions p b) d)
    by (apply functional_extensionality; intros b; symmetry; apply bead_positions_translate).
  rewrite free_translate. reflexivity.
Qed.
Lemma r2b_viscosity sc table bb a Ns Nd pairs mu k :
  generate_R2Bexact sc table bb a Ns Nd pairs (k * mu) =
  match generate_R2Bexact sc table bb a Ns Nd pairs mu with Some G => Some (mscal k G) | None => None end.
Proof.
  unfold generate_R2Bexact. destruct (generate_R2Bexact_loop _ _ _ _ _ _ _); [|reflexivity].
  f_equal. apply functional_extensionality; intros i. apply functional_extensionality; intros j.
  unfold mscal. ring.
Qed.

(** ** Statements for whole calls *)
Lemma r2b_translate_periodic inv sc table bb p cf mu box Ot Et d :
  is_inv 3 (diag3 box) (inv (diag3 box)) ->
  generate_R2Bexact_periodic inv sc table bb (translate d p) cf mu box Ot Et =
  generate_R2Bexact_periodic inv sc table bb p cf mu box Ot Et.
Proof.
  intros HD. unfold generate_R2Bexact_periodic. simpl num_spheres; simpl num_dumbbells.
  replace (bead_positions (translate d p)) with (fun b => vadd (bead_positions p b) d)
    by (apply functional_extensionality; intros b; symmetry; apply bead_positions_translate).
  rewrite periodic_translate by exact HD. reflexivity.
Qed.

Lemma gen_free_far sc table bb (p : posdata) cf mu G k1 b1 k2 b2 i j :
  let Ns := num_spheres p in let Nd := num_dumbbells p in
  0 < cf -> (forall b, (b < Ns + 2 * Nd)%nat -> 0 < bead_sizes p b) ->
  generate_R2Bexact_free sc table bb p cf mu = Some G ->
  kvalid Ns Nd k1 b1 -> kvalid Ns Nd k2 b2 -> (i < ksize k1)%nat -> (j < ksize k2)%nat ->
  (forall b b', bead_of Ns Nd k1 b1 b -> bead_of Ns Nd k2 b2 b' ->
     b <> b' /\ 2 * cf <= scaled_distance (bead_positions p) (bead_sizes p) b b') ->
  G (kstart Ns k1 b1 + i)%nat (kstart Ns k2 b2 + j)%nat = 0.
Proof.
  intros Ns Nd Hcf Ha H V1 V2 Hi Hj Hno.
  refine (gen_r2b_far _ _ _ _ _ _ _ _ _ k1 b1 k2 b2 i j (free_close_list _ _ _ _ Hcf) Ha H V1 V2 Hi Hj _).
  intros b b' Hb Hb'. destruct (Hno b b' Hb Hb') as [Hne Hd]. split; [exact Hne|].
  assert (B1 : (b < Ns + 2 * Nd)%nat) by (eapply kvalid_nb, bead_of_valid; [exact V1|exact Hb]).
  assert (B2 : (b' < Ns + 2 * Nd)%nat) by (eapply kvalid_nb, bead_of_valid; [exact V2|exact Hb']).
  rewrite free_contact by assumption. lra.
Qed.

Lemma gen_free_none sc table bb (p : posdata) cf mu G r t :
  let Ns := num_spheres p in let Nd := num_dumbbells p in
  0 < cf -> (forall b, (b < Ns + 2 * Nd)%nat -> 0 < bead_sizes p b) ->
  generate_R2Bexact_free sc table bb p cf mu = Some G ->
  (forall b b', (b < Ns + 2 * Nd)%nat -> (b' < Ns + 2 * Nd)%nat -> b <> b' ->
     2 * cf <= scaled_distance (bead_positions p) (bead_sizes p) b b') ->
  (r < 11 * Ns + 6 * Nd)%nat -> (t < 11 * Ns + 6 * Nd)%nat -> G r t = 0.
Proof.
  intros Ns Nd Hcf Ha H Hno. apply (gen_r2b_none _ _ _ _ _ _ _ _ _ r t (free_close_list _ _ _ _ Hcf) Ha H).
  intros u Hu. apply free_in in Hu. destruct Hu as (H1 & H2 & _).
  destruct (Nat.eq_dec (cp1 u) (cp2 u)) as [|Hne]; [assumption|]. exfalso.
  specialize (Hno (cp1 u) (cp2 u) ltac:(unfold Ns, Nd; lia) ltac:(unfold Ns, Nd; lia) Hne). lra.
Qed.

Lemma gen_periodic_none inv sc table bb (p : posdata) cf mu box Ot Et G r t :
  let Ns := num_spheres p in let Nd := num_dumbbells p in
  let pairs := close_particles_periodic inv (bead_positions p) (bead_sizes p) (Ns + 2 * Nd) cf box Ot Et in
  is_inv 3 (diag3 box) (inv (diag3 box)) ->
  0 <= cf -> (forall b, (b < Ns + 2 * Nd)%nat -> 0 < bead_sizes p b) ->
  generate_R2Bexact_periodic inv sc table bb p cf mu box Ot Et = Some G ->
  (forall u, In u pairs -> cp1 u = cp2 u) ->
  (r < 11 * Ns + 6 * Nd)%nat -> (t < 11 * Ns + 6 * Nd)%nat -> G r t = 0.
Proof.
  intros Ns Nd pairs HD Hcf Ha H Hno.
  apply (gen_r2b_none _ _ _ _ _ _ _ _ _ r t (periodic_close_list inv box Ot Et HD _ _ _ _ Hcf) Ha H Hno).
Qed.

Lemma loop_pairs_entry sc table bb a Ns Nd pairs k1 p k2 q i j :
  close_list (Ns + 2 * Nd) a pairs -> (forall b, (b < Ns + 2 * Nd)%nat -> 0 < a b) ->
  kvalid Ns Nd k1 p -> kvalid Ns Nd k2 q -> (i < ksize k1)%nat -> (j < ksize k2)%nat ->
  (mrank k1 <> mrank k2 \/ (p <= q)%nat \/
   forall t, In t pairs -> (cp1 t = p /\ cp2 t = q) \/ (cp1 t = q /\ cp2 t = p) ->
     reciprocal_scalars sc (lam_ix table) (cp_dist t) (a p) (a q)) ->
  forall M, generate_R2Bexact_loop sc table bb a Ns Nd pairs = Some M ->
    M (kstart Ns k1 p + i)%nat (kstart Ns k2 q + j)%nat =
    bead_resistance sc (lam_ix table) bb a pairs k1 p k2 q i j.
Proof.
  intros Hc Ha V1 V2 Hi Hj Hor M H. rewrite loop_some in H.
  destruct (forallb _ _); [|discriminate]. injection H as <-.
  match goal with |- symmetrise ?X _ _ = _ => change (ent Ns (symmetrise X) k1 p k2 q i j = bead_resistance sc (lam_ix table) bb a pairs k1 p k2 q i j) end.
  apply r2b_entry; assumption.
Qed.
