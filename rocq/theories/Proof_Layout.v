(** Facts about the block layout: coverage, disjointness, block writes. *)
From Coq Require Import Reals Arith Bool List Lia FinFun.
From Verif Require Import Base Model_Layout Spec_Layout Proof_Fold.
Import ListNotations.
Local Open Scope nat_scope.

Definition kind_dec : forall a b : kind, {a = b} + {a <> b}.
Proof. decide equality. Defined.

Lemma block_cover Ns Nd r : r < 11 * Ns + 6 * Nd ->
  exists k p c, kvalid Ns Nd k p /\ c < ksize k /\ r = kstart Ns k p + c.
Proof.
  intros H.
  destruct (le_lt_dec (11 * Ns) r) as [H4|H4].
  - exists KB, (Ns + (r - 11 * Ns) / 3), ((r - 11 * Ns) mod 3). cbn [kvalid ksize kstart].
    pose proof (Nat.div_mod (r - 11 * Ns) 3 ltac:(lia)). pose proof (Nat.mod_upper_bound (r - 11 * Ns) 3 ltac:(lia)). lia.
  - destruct (le_lt_dec (6 * Ns) r) as [H3|H3].
    + exists KS, ((r - 6 * Ns) / 5), ((r - 6 * Ns) mod 5). cbn [kvalid ksize kstart].
      pose proof (Nat.div_mod (r - 6 * Ns) 5 ltac:(lia)). pose proof (Nat.mod_upper_bound (r - 6 * Ns) 5 ltac:(lia)). lia.
    + destruct (le_lt_dec (3 * Ns) r) as [H2|H2].
      * exists KO, ((r - 3 * Ns) / 3), ((r - 3 * Ns) mod 3). cbn [kvalid ksize kstart].
        pose proof (Nat.div_mod (r - 3 * Ns) 3 ltac:(lia)). pose proof (Nat.mod_upper_bound (r - 3 * Ns) 3 ltac:(lia)). lia.
      * exists KU, (r / 3), (r mod 3). cbn [kvalid ksize kstart].
        pose proof (Nat.div_mod r 3 ltac:(lia)). pose proof (Nat.mod_upper_bound r 3 ltac:(lia)). lia.
Qed.

Lemma block_inj Ns Nd k p c k' p' c' :
  kvalid Ns Nd k p -> kvalid Ns Nd k' p' -> c < ksize k -> c' < ksize k' ->
  kstart Ns k p + c = kstart Ns k' p' + c' -> k = k' /\ p = p' /\ c = c'.
Proof.
  destruct k, k'; simpl; intros; first [split; [reflexivity|lia] | exfalso; lia].
Qed.

Lemma block_range Ns Nd k p c : kvalid Ns Nd k p -> c < ksize k -> kstart Ns k p + c < 11 * Ns + 6 * Nd.
Proof. destruct k; simpl; lia. Qed.

Lemma block_order Ns Nd k p c k' p' c' :
  kvalid Ns Nd k p -> kvalid Ns Nd k' p' -> c < ksize k -> c' < ksize k' ->
  (krank k < krank k' \/ k = k' /\ p < p') -> kstart Ns k p + c < kstart Ns k' p' + c'.
Proof.
  destruct k, k'; simpl; intros Hp Hp' Hc Hc' [H|[E H]]; try discriminate; lia.
Qed.

Definition same_block (k1 : kind) (p : nat) (k2 : kind) (q : nat) (k1' : kind) (p' : nat) (k2' : kind) (q' : nat) : Prop :=
  k1 = k1' /\ p = p' /\ k2 = k2' /\ q = q'.
Definition same_block_dec k1 p k2 q k1' p' k2' q' :
  {same_block k1 p k2 q k1' p' k2' q'} + {~ same_block k1 p k2 q k1' p' k2' q'}.
Proof.
  unfold same_block.
  destruct (kind_dec k1 k1'); [|right; tauto]. destruct (Nat.eq_dec p p'); [|right; tauto].
  destruct (kind_dec k2 k2'); [|right; tauto]. destruct (Nat.eq_dec q q'); [left; auto|right; tauto].
Defined.

Section Blocks.
Variables (Ns Nd : nat).
(** The entry with row component [i] of (k1,p) and column component [j] of (k2,q). *)
Definition ent (M : mat) k1 p k2 q i j : R := M (kstart Ns k1 p + i) (kstart Ns k2 q + j).

Lemma mset_block M c k1 p k2 q h w B k1' p' k2' q' i j :
  kvalid Ns Nd k1 p -> kvalid Ns Nd k2 q -> kvalid Ns Nd k1' p' -> kvalid Ns Nd k2' q' ->
  i < ksize k1' -> j < ksize k2' -> h = ksize k1 -> w = ksize k2 ->
  c = (kstart Ns k1 p, kstart Ns k2 q) ->
  ent (mset M c h w B) k1' p' k2' q' i j =
  if same_block_dec k1 p k2 q k1' p' k2' q' then B i j else ent M k1' p' k2' q' i j.
Proof.
  intros V1 V2 V1' V2' Hi Hj -> -> ->. unfold ent, mset. simpl fst; simpl snd.
  destruct (same_block_dec k1 p k2 q k1' p' k2' q') as [(<- & <- & <- & <-)|Hne].
  - rewrite put_in by lia. f_equal; lia.
  - apply put_out. intros [Hr Hc]. apply Hne.
    assert (E1 : k1 = k1' /\ p = p' /\ (kstart Ns k1' p' + i - kstart Ns k1 p) = i).
    { apply (block_inj Ns Nd); try assumption; lia. }
    assert (E2 : k2 = k2' /\ q = q' /\ (kstart Ns k2' q' + j - kstart Ns k2 q) = j).
    { apply (block_inj Ns Nd); try assumption; lia. }
    unfold same_block. intuition.
Qed.

Lemma mset_rows_eq M c h w row i j : mset_rows M c h w row i j = mset M c h w row i j.
Proof.
  unfold mset_rows, mset.
  destruct (in_dec Nat.eq_dec (i - fst c) (seq 0 h)) as [Hin|Hout].
  - apply in_seq in Hin. destruct (le_lt_dec (fst c) i) as [Hle|Hlt].
    + destruct (inb (snd c) (snd c + w) j) eqn:Ej.
      * apply inb_true in Ej. rewrite put_in by lia.
        apply (fold_last _ _ _ _ _ _ (i - fst c) Nat.eq_dec).
        -- apply in_seq; lia.
        -- intros X. rewrite put_in by lia. f_equal; lia.
        -- intros a X Ha Hne. apply put_out. lia.
      * apply inb_false in Ej. rewrite put_out by lia. apply fold_none.
        intros a X Ha. apply put_out. lia.
    + rewrite put_out by lia. apply fold_none. intros a X Ha. apply put_out. lia.
  - rewrite in_seq in Hout. rewrite put_out by lia. apply fold_none.
    intros a X Ha. apply in_seq in Ha. apply put_out. lia.
Qed.

Lemma mset_rows_block M c k1 p k2 q h w B k1' p' k2' q' i j :
  kvalid Ns Nd k1 p -> kvalid Ns Nd k2 q -> kvalid Ns Nd k1' p' -> kvalid Ns Nd k2' q' ->
  i < ksize k1' -> j < ksize k2' -> h = ksize k1 -> w = ksize k2 ->
  c = (kstart Ns k1 p, kstart Ns k2 q) ->
  ent (mset_rows M c h w B) k1' p' k2' q' i j =
  if same_block_dec k1 p k2 q k1' p' k2' q' then B i j else ent M k1' p' k2' q' i j.
Proof.
  intros. unfold ent. rewrite mset_rows_eq. apply mset_block; assumption.
Qed.

Lemma mset_diag_block M c k1 p k2 q h v k1' p' k2' q' i j :
  kvalid Ns Nd k1 p -> kvalid Ns Nd k2 q -> kvalid Ns Nd k1' p' -> kvalid Ns Nd k2' q' ->
  i < ksize k1' -> j < ksize k2' -> h = ksize k1 -> h = ksize k2 ->
  c = (kstart Ns k1 p, kstart Ns k2 q) ->
  ent (mset_diag M c h v) k1' p' k2' q' i j =
  if same_block_dec k1 p k2 q k1' p' k2' q'
  then (if Nat.eqb i j then v else ent M k1' p' k2' q' i j) else ent M k1' p' k2' q' i j.
Proof.
  intros V1 V2 V1' V2' Hi Hj Hh Hw ->. unfold ent, mset_diag. simpl fst; simpl snd.
  destruct (same_block_dec k1 p k2 q k1' p' k2' q') as [(<- & <- & <- & <-)|Hne].
  - destruct (Nat.eqb_spec i j) as [<-|Hij].
    + apply (fold_last _ _ _ _ _ _ i Nat.eq_dec).
      * apply in_seq; lia.
      * intros X. rewrite put_in by lia. reflexivity.
      * intros a X Ha Hne. apply put_out. lia.
    + apply fold_none. intros a X Ha. apply put_out. lia.
  - apply fold_none. intros a X Ha. apply in_seq in Ha. apply put_out. intros [Hr Hc]. apply Hne.
    assert (E1 : k1 = k1' /\ p = p' /\ (kstart Ns k1' p' + i - kstart Ns k1 p) = i).
    { apply (block_inj Ns Nd); try assumption; lia. }
    assert (E2 : k2 = k2' /\ q = q' /\ (kstart Ns k2' q' + j - kstart Ns k2 q) = j).
    { apply (block_inj Ns Nd); try assumption; lia. }
    unfold same_block. intuition.
Qed.

Lemma mget_block M c k1 p k2 q i j :
  c = (kstart Ns k1 p, kstart Ns k2 q) -> mget M c i j = ent M k1 p k2 q i j.
Proof. intros ->. reflexivity. Qed.
End Blocks.

(** The pairs visited *)
Lemma upper_pairs_in n u v : In (u, v) (upper_pairs n) <-> u <= v < n.
Proof.
  unfold upper_pairs. rewrite in_flat_map. split.
  - intros [w [Hw H]]. apply in_seq in Hw. apply in_map_iff in H.
    destruct H as [z [E Hz]]. injection E as -> ->. apply in_seq in Hz. lia.
  - intros H. exists u. split; [apply in_seq; lia|]. apply in_map_iff. exists v.
    split; [reflexivity|]. apply in_seq. lia.
Qed.

Lemma NoDup_map_inj {A B} (f : A -> B) l : (forall a b, f a = f b -> a = b) -> NoDup l -> NoDup (map f l).
Proof. intros Hf H. apply FinFun.Injective_map_NoDup; [exact Hf|exact H]. Qed.

Lemma NoDup_app_intro {A} (l l' : list A) :
  NoDup l -> NoDup l' -> (forall a, In a l -> ~ In a l') -> NoDup (l ++ l').
Proof.
  induction l as [|a l IH]; intros H H' D; simpl; [exact H'|].
  inversion H as [|? ? Ha Hl]; subst. constructor.
  - rewrite in_app_iff. intros [?|?]; [contradiction|]. apply (D a); [left; reflexivity|assumption].
  - apply IH; [exact Hl|exact H'|]. intros b Hb. apply D. right; exact Hb.
Qed.

Lemma upper_pairs_nodup n : NoDup (upper_pairs n).
Proof.
  unfold upper_pairs. generalize (seq_NoDup n 0). generalize (seq 0 n) as l.
  induction l as [|u l IH]; intros Hnd; simpl; [constructor|].
  inversion Hnd as [|? ? Hu Hl]; subst.
  apply NoDup_app_intro.
  - apply NoDup_map_inj; [intros a b E; injection E; auto|apply seq_NoDup].
  - apply IH. exact Hl.
  - intros [a b] H1 H2. apply in_map_iff in H1. destruct H1 as [z [E _]]. injection E as <- <-.
    apply in_flat_map in H2. destruct H2 as [w [Hw H2]]. apply in_map_iff in H2.
    destruct H2 as [y [E _]]. injection E as <- <-. contradiction.
Qed.

(** An entry changed by exactly one step of a duplicate-free loop. *)
Lemma fold_once {A} (step : mat -> A -> mat) l M i j v0 v a0 :
  NoDup l -> In a0 l -> M i j = v0 ->
  (forall X, X i j = v0 -> step X a0 i j = v) ->
  (forall a X, In a l -> a <> a0 -> step X a i j = X i j) ->
  fold_left step l M i j = v.
Proof.
  intros Hnd Hin HM Hstep Hother. revert M Hin HM.
  induction l as [|a l IH]; intros M Hin HM; [destruct Hin|]. simpl.
  inversion Hnd as [|? ? Ha Hl]; subst.
  destruct Hin as [->|Hin].
  - rewrite fold_none; [apply Hstep; reflexivity|].
    intros b X Hb. apply Hother; [right; exact Hb|]. intros ->. contradiction.
  - apply IH; try assumption.
    + intros b X Hb. apply Hother. right; exact Hb.
    + apply Hother; [left; reflexivity|]. intros ->. contradiction.
Qed.

(** ** The blocks written by the assembly *)
Definition blk (Ns : nat) (t : (kind * nat) * (kind * nat)) : (nat * nat) * (nat * nat) :=
  ((kstart Ns (fst (fst t)) (snd (fst t)), kstart Ns (fst (snd t)) (snd (snd t))),
   (ksize (fst (fst t)), ksize (fst (snd t)))).
Definition wkinds (u v Ns : nat) : list ((kind * nat) * (kind * nat)) :=
  if Nat.ltb u Ns then
    if Nat.ltb v Ns then
      [((KU, u), (KU, v)); ((KU, u), (KO, v)); ((KO, u), (KO, v)); ((KU, u), (KS, v)); ((KO, u), (KS, v)); ((KS, u), (KS, v))]
      ++ (if Nat.eqb u v then [] else [((KU, v), (KO, u)); ((KU, v), (KS, u)); ((KO, v), (KS, u))])
    else [((KU, u), (KB, v)); ((KO, u), (KB, v)); ((KS, u), (KB, v))]
  else [((KB, u), (KB, v))].

Lemma written_kinds Ns Nd u v : u <= v < Ns + 2 * Nd ->
  written_blocks u v Ns Nd = map (blk Ns) (wkinds u v Ns).
Proof.
  intros H. unfold written_blocks, wkinds, is_sphere, is_dumbbell_bead_1, is_dumbbell_bead_2, submatrix_coords_tuple.
  cbn [A_c Bt_c Bt21_c Gt_c Gt21_c C_c Ht_c Ht21_c M_c M14_c M24_c M34_c M44_c M15_c M25_c M35_c M45_c M55_c].
  assert (E : forall a b a' b' : nat, a = a' -> b = b' -> (a, b) = (a', b')) by (intros; subst; reflexivity).
  destruct (Nat.ltb_spec u Ns); destruct (Nat.ltb_spec v Ns); cbn [andb]; try lia.
  - unfold blk. destruct (Nat.eqb u v); cbn [map app fst snd kstart ksize];
    rewrite !(Nat.mul_comm u), !(Nat.mul_comm v); reflexivity.
  - destruct (Nat.leb_spec Ns v); [|lia]. destruct (Nat.ltb_spec v (Ns + Nd)); cbn [andb];
    unfold blk; cbn [map fst snd kstart ksize]; repeat (f_equal; try lia).
  - destruct (Nat.leb_spec Ns u); [|lia]. destruct (Nat.leb_spec Ns v); [|lia].
    destruct (Nat.ltb_spec u (Ns + Nd)); destruct (Nat.ltb_spec v (Ns + Nd)); destruct (Nat.leb_spec (Ns + Nd) v);
    cbn [andb]; try lia; unfold blk; cbn [map fst snd kstart ksize]; repeat (f_equal; try lia).
Qed.

Definition kvalid2 (Ns Nd : nat) (t : (kind * nat) * (kind * nat)) : Prop :=
  kvalid Ns Nd (fst (fst t)) (snd (fst t)) /\ kvalid Ns Nd (fst (snd t)) (snd (snd t)).
Definition upper2 (t : (kind * nat) * (kind * nat)) : Prop :=
  krank (fst (fst t)) < krank (fst (snd t)) \/ (fst (fst t) = fst (snd t) /\ snd (fst t) <= snd (snd t)).

Lemma wkinds_valid Ns Nd u v t : u <= v < Ns + 2 * Nd -> In t (wkinds u v Ns) -> kvalid2 Ns Nd t /\ upper2 t.
Proof.
  intros H. unfold wkinds. destruct (Nat.ltb_spec u Ns); destruct (Nat.ltb_spec v Ns); try lia;
  try (destruct (Nat.eqb_spec u v)); cbn [app In]; intros HI;
  repeat (destruct HI as [<-|HI]; [unfold kvalid2, upper2; cbn [fst snd kvalid krank]; split; [lia|first [left; lia | right; split; [reflexivity|lia]]]|]); destruct HI.
Qed.

Lemma wkinds_complete Ns Nd t : kvalid2 Ns Nd t -> upper2 t ->
  In t (wkinds (min (snd (fst t)) (snd (snd t))) (max (snd (fst t)) (snd (snd t))) Ns).
Proof.
  destruct t as [[k1 p] [k2 q]]. unfold kvalid2, upper2, wkinds. cbn [fst snd]. intros [V1 V2] HU.
  assert (C : p <= q \/ q < p) by lia.
  destruct C as [C|C].
  - rewrite Nat.min_l, Nat.max_r by lia.
    destruct k1, k2; simpl in V1, V2, HU; try (exfalso; lia); try (exfalso; destruct HU as [HU|[HU _]]; [lia|discriminate]);
    destruct (Nat.ltb_spec p Ns); destruct (Nat.ltb_spec q Ns); try lia;
    try (destruct (Nat.eqb_spec p q)); simpl; tauto.
  - rewrite Nat.min_r, Nat.max_l by lia.
    destruct k1, k2; simpl in V1, V2, HU; try (exfalso; lia); try (exfalso; destruct HU as [HU|[HU _]]; [lia|discriminate]);
    destruct (Nat.ltb_spec p Ns); destruct (Nat.ltb_spec q Ns); try lia;
    try (destruct (Nat.eqb_spec q p)); try lia; simpl; tauto.
Qed.

(** The pair and the position in the list are determined by the block. *)
Lemma wkinds_pair Ns u v t : u <= v -> In t (wkinds u v Ns) ->
  u = min (snd (fst t)) (snd (snd t)) /\ v = max (snd (fst t)) (snd (snd t)).
Proof.
  intros H. unfold wkinds. destruct (Nat.ltb u Ns); [destruct (Nat.ltb v Ns)|];
  try (destruct (Nat.eqb u v)); cbn [app In]; intros HI;
  repeat (destruct HI as [<-|HI]; [cbn [fst snd]; lia|]); destruct HI.
Qed.
Lemma wkinds_nodup Ns u v : NoDup (wkinds u v Ns).
Proof.
  unfold wkinds. destruct (Nat.ltb u Ns); [destruct (Nat.ltb v Ns)|];
  try (destruct (Nat.eqb_spec u v) as [->|N]); cbn [app];
  repeat constructor; cbn [In]; intros HI;
  repeat (destruct HI as [HI|HI]; [first [discriminate HI | injection HI; intros; congruence]|]); destruct HI.
Qed.

Lemma in_blk Ns t r c : in_block (blk Ns t) r c ->
  exists i j, i < ksize (fst (fst t)) /\ j < ksize (fst (snd t)) /\
    r = kstart Ns (fst (fst t)) (snd (fst t)) + i /\ c = kstart Ns (fst (snd t)) (snd (snd t)) + j.
Proof.
  unfold in_block, blk. cbn [fst snd]. intros [H1 H2].
  exists (r - kstart Ns (fst (fst t)) (snd (fst t))), (c - kstart Ns (fst (snd t)) (snd (snd t))). lia.
Qed.

Lemma blocks_inside Ns Nd u v b r c : u <= v < Ns + 2 * Nd -> In b (written_blocks u v Ns Nd) ->
  in_block b r c -> r < 11 * Ns + 6 * Nd /\ c < 11 * Ns + 6 * Nd.
Proof.
  intros H Hb Hin. rewrite written_kinds in Hb by exact H. apply in_map_iff in Hb. destruct Hb as (t & <- & Ht).
  destruct (wkinds_valid Ns Nd u v t H Ht) as [[V1 V2] _].
  destruct (in_blk _ _ _ _ Hin) as (i & j & Hi & Hj & -> & ->).
  split; apply block_range; assumption.
Qed.

Lemma blocks_upper Ns Nd u v b : u <= v < Ns + 2 * Nd -> In b (written_blocks u v Ns Nd) ->
  fst (fst b) <= snd (fst b).
Proof.
  intros H Hb. rewrite written_kinds in Hb by exact H. apply in_map_iff in Hb. destruct Hb as (t & <- & Ht).
  destruct (wkinds_valid Ns Nd u v t H Ht) as [[V1 V2] HU]. unfold blk. cbn [fst snd].
  destruct t as [[k1 p] [k2 q]]; unfold upper2 in HU; cbn [fst snd] in *.
  destruct k1, k2; simpl in *; try lia; destruct HU as [HU|[HU ?]]; try lia; discriminate.
Qed.

Lemma blocks_unique Ns Nd u v n b u' v' n' b' r c :
  u <= v < Ns + 2 * Nd -> u' <= v' < Ns + 2 * Nd ->
  nth_error (written_blocks u v Ns Nd) n = Some b -> nth_error (written_blocks u' v' Ns Nd) n' = Some b' ->
  in_block b r c -> in_block b' r c -> u = u' /\ v = v' /\ n = n'.
Proof.
  intros H H' E E' I I'. rewrite written_kinds in E by exact H. rewrite written_kinds in E' by exact H'.
  rewrite nth_error_map in E, E'.
  destruct (nth_error (wkinds u v Ns) n) as [t|] eqn:Et; [|discriminate]. injection E as <-.
  destruct (nth_error (wkinds u' v' Ns) n') as [t'|] eqn:Et'; [|discriminate]. injection E' as <-.
  pose proof (nth_error_In _ _ Et) as In1. pose proof (nth_error_In _ _ Et') as In2.
  destruct (wkinds_valid Ns Nd u v t H In1) as [[V1 V2] _].
  destruct (wkinds_valid Ns Nd u' v' t' H' In2) as [[V1' V2'] _].
  destruct (in_blk _ _ _ _ I) as (i & j & Hi & Hj & Er & Ec).
  destruct (in_blk _ _ _ _ I') as (i' & j' & Hi' & Hj' & Er' & Ec').
  rewrite Er in Er'. rewrite Ec in Ec'.
  destruct (block_inj Ns Nd _ _ _ _ _ _ V1 V1' Hi Hi' Er') as (K1 & P1 & _).
  destruct (block_inj Ns Nd _ _ _ _ _ _ V2 V2' Hj Hj' Ec') as (K2 & P2 & _).
  assert (T : t = t').
  { destruct t as [[k1 p] [k2 q]], t' as [[k1' p'] [k2' q']]; cbn [fst snd] in *; subst; reflexivity. }
  subst t'.
  destruct (wkinds_pair Ns u v t (proj1 H) In1) as [-> ->].
  destruct (wkinds_pair Ns u' v' t (proj1 H') In2) as [-> ->].
  split; [reflexivity|]. split; [reflexivity|].
  assert (L : n < length (wkinds (min (snd (fst t)) (snd (snd t))) (max (snd (fst t)) (snd (snd t))) Ns))
    by (apply nth_error_Some; rewrite Et; discriminate).
  apply (proj1 (NoDup_nth_error _) (wkinds_nodup _ _ _) n n' L). rewrite Et, Et'. reflexivity.
Qed.

Lemma blocks_cover Ns Nd r c : r <= c -> c < 11 * Ns + 6 * Nd ->
  exists u v n b, u <= v < Ns + 2 * Nd /\ nth_error (written_blocks u v Ns Nd) n = Some b /\ in_block b r c.
Proof.
  intros Hrc Hc.
  destruct (block_cover Ns Nd r ltac:(lia)) as (k1 & p & i & V1 & Hi & Er).
  destruct (block_cover Ns Nd c Hc) as (k2 & q & j & V2 & Hj & Ec).
  set (t := ((k1, p), (k2, q))).
  assert (HV : kvalid2 Ns Nd t) by (split; assumption).
  assert (HU : upper2 t).
  { unfold upper2, t; cbn [fst snd].
    destruct (lt_eq_lt_dec (krank k1) (krank k2)) as [[L|L]|L].
    - left; exact L.
    - right. assert (E : k1 = k2) by (destruct k1, k2; simpl in L; congruence). split; [exact E|].
      destruct (le_lt_dec p q) as [?|Hqp]; [assumption|].
      pose proof (block_order Ns Nd k2 q j k1 p i V2 V1 Hj Hi (or_intror (conj (eq_sym E) Hqp))). lia.
    - pose proof (block_order Ns Nd k2 q j k1 p i V2 V1 Hj Hi (or_introl L)). lia. }
  pose proof (wkinds_complete Ns Nd t HV HU) as Hin. cbn [fst snd t] in Hin.
  destruct (In_nth_error _ _ Hin) as [n En].
  assert (HB : min p q <= max p q < Ns + 2 * Nd) by (destruct k1, k2; simpl in V1, V2; lia).
  exists (min p q), (max p q), n, (blk Ns t). split; [exact HB|]. split.
  - rewrite written_kinds by exact HB. rewrite nth_error_map, En. reflexivity.
  - unfold in_block, blk, t; cbn [fst snd]. lia.
Qed.
