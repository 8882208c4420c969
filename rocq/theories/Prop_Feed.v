(** C80: feeding of particles from below. *)
From Coq Require Import Reals List Arith ZArith Bool Sorted Lia Lra.
From Verif Require Import Base Py Model_Mob Model_Close Model_Frame Model_Setups Model_Feed Spec_Place Proof_Place.
Import ListNotations.
Local Open Scope R_scope.

(** ** Specification *)
(** [x] is the highest (lowest) of the heights of the points. *)
Definition C80_highest (x : R) (l : list vec) : Prop := (exists p, In p l /\ p 2%nat = x) /\ forall p, In p l -> p 2%nat <= x.
Definition C80_lowest (x : R) (l : list vec) : Prop := (exists p, In p l /\ p 2%nat = x) /\ forall p, In p l -> x <= p 2%nat.
(** the beads of the dumbbells of a setup *)
Definition C80_beads (u : setup) : list vec :=
  map (fun i => bead true (nth i (u_dp u) (v3 0 0 0), nth i (u_dx u) (v3 0 0 0))) (seq 0 (length (u_ds u)))
  ++ map (fun i => bead false (nth i (u_dp u) (v3 0 0 0), nth i (u_dx u) (v3 0 0 0))) (seq 0 (length (u_ds u))).
Definition C80_same (p q : vec) : Prop := forall i, p i = q i.
Definition C80_in (p : vec) (l : list vec) : Prop := exists q, In q l /\ C80_same p q.

(** ** Lemmas *)
Lemma fold_max l : forall x, let m := fold_left Rmax l x in (m = x \/ In m l) /\ x <= m /\ forall y, In y l -> y <= m.
Proof.
  induction l as [|y l IH]; intros x; cbn [fold_left]; [split; [left; reflexivity|split; [lra|intros y []]]|].
  destruct (IH (Rmax x y)) as [A [B C]]. pose proof (Rmax_l x y). pose proof (Rmax_r x y). split; [|split].
  - destruct A as [A|A]; [|right; right; exact A]. cbv zeta in *. rewrite A. unfold Rmax. destruct (Rle_dec x y); [right; left; reflexivity|left; reflexivity].
  - cbv zeta in *. lra.
  - intros z [<-|I]; [cbv zeta in *; lra|exact (C z I)].
Qed.
Lemma fold_min l : forall x, let m := fold_left Rmin l x in (m = x \/ In m l) /\ m <= x /\ forall y, In y l -> m <= y.
Proof.
  induction l as [|y l IH]; intros x; cbn [fold_left]; [split; [left; reflexivity|split; [lra|intros y []]]|].
  destruct (IH (Rmin x y)) as [A [B C]]. pose proof (Rmin_l x y). pose proof (Rmin_r x y). split; [|split].
  - destruct A as [A|A]; [|right; right; exact A]. cbv zeta in *. rewrite A. unfold Rmin. destruct (Rle_dec x y); [left; reflexivity|right; left; reflexivity].
  - cbv zeta in *. lra.
  - intros z [<-|I]; [cbv zeta in *; lra|exact (C z I)].
Qed.
Lemma np_max_spec l m : np_max l = Some m -> In m l /\ forall y, In y l -> y <= m.
Proof.
  destruct l as [|x l]; [discriminate|]. cbn [np_max]. intros E. injection E as <-. destruct (fold_max l x) as [A [B C]].
  split; [destruct A as [A|A]; [left; symmetry; exact A|right; exact A]|]. intros y [<-|I]; [exact B|exact (C y I)].
Qed.
Lemma np_min_spec l m : np_min l = Some m -> In m l /\ forall y, In y l -> m <= y.
Proof.
  destruct l as [|x l]; [discriminate|]. cbn [np_min]. intros E. injection E as <-. destruct (fold_min l x) as [A [B C]].
  split; [destruct A as [A|A]; [left; symmetry; exact A|right; exact A]|]. intros y [<-|I]; [exact B|exact (C y I)].
Qed.
Lemma raising_ok {A} e (x : option A) a : raising e x = Ok a -> x = Some a.
Proof. destruct x; cbn; intros E; [injection E as ->; reflexivity|discriminate]. Qed.
Lemma bind_ok {A B} (x : res A) (f : A -> res B) b : bind x f = Ok b -> exists a, x = Ok a /\ f a = Ok b.
Proof. destruct x; cbn; intros E; [eauto|discriminate]. Qed.
Lemma Ok_inj {A} (a b : A) : Ok a = Ok b -> a = b.
Proof. intros E. injection E as ->. reflexivity. Qed.
Lemma filter_both {A} (f : A -> bool) l : (length (filter f l) + length (filter (fun x => negb (f x)) l) = length l)%nat.
Proof. induction l as [|x l IH]; [reflexivity|]. cbn [filter]. destruct (f x); cbn [negb length]; lia. Qed.
Lemma filter_le {A} (f : A -> bool) l : (length (filter f l) <= length l)%nat.
Proof. pose proof (filter_both f l). lia. Qed.
Lemma firstn_incl {A} n (l : list A) x : In x (firstn n l) -> In x l.
Proof. intros I. rewrite <- (firstn_skipn n l). apply in_or_app. left. exact I. Qed.
Lemma insert_in p l x : In x (insert_height p l) <-> x = p \/ In x l.
Proof. induction l as [|q l IH]; cbn [insert_height]; [simpl; intuition|]. destruct (Rleb _ _); [simpl; intuition|]. simpl. rewrite IH. intuition. Qed.
Lemma sort_in l x : In x (sort_height l) <-> In x l.
Proof. induction l as [|p l IH]; [reflexivity|]. unfold sort_height in *. cbn [fold_right]. rewrite insert_in, IH. simpl. intuition. Qed.
Lemma beads_in u : length (u_dp u) = length (u_ds u) -> length (u_dx u) = length (u_ds u) ->
  length (beads_of u) = (2 * length (u_ds u))%nat /\ (forall p, In p (beads_of u) -> C80_in p (C80_beads u)) /\ (forall p, In p (C80_beads u) -> C80_in p (beads_of u)).
Proof.
  intros L1 L2. set (N := length (u_ds u)) in *.
  assert (LC : length (combine (u_dp u) (u_dx u)) = N) by (rewrite combine_length; lia).
  assert (NC : forall i, (i < N)%nat -> nth i (combine (u_dp u) (u_dx u)) (v3 0 0 0, v3 0 0 0) = (nth i (u_dp u) (v3 0 0 0), nth i (u_dx u) (v3 0 0 0))) by (intros i Hi; apply combine_nth; lia).
  assert (S1 : forall x y : vec, C80_same (vadd x (vscal (1 / 2) y)) (bead true (x, y))) by (intros x y i; unfold vadd, vscal, bead; cbn [fst snd]; ring).
  assert (S2 : forall x y : vec, C80_same (vsub x (vscal (1 / 2) y)) (bead false (x, y))) by (intros x y i; unfold vsub, vscal, bead; cbn [fst snd]; ring).
  split; [unfold beads_of; rewrite app_length, !map_length; lia|]. split; intros p I; unfold beads_of, C80_beads in *; fold N in I |- *.
  - apply in_app_or in I. destruct I as [I|I]; apply in_map_iff in I; destruct I as [q [<- I]]; destruct (In_nth _ _ (v3 0 0 0, v3 0 0 0) I) as [i [Hi E]]; rewrite LC in Hi; rewrite (NC i Hi) in E; subst q.
    + exists (bead true (nth i (u_dp u) (v3 0 0 0), nth i (u_dx u) (v3 0 0 0))). split; [|apply S1]. apply in_or_app. left. apply in_map_iff. exists i. split; [reflexivity|apply in_seq; lia].
    + exists (bead false (nth i (u_dp u) (v3 0 0 0), nth i (u_dx u) (v3 0 0 0))). split; [|apply S2]. apply in_or_app. right. apply in_map_iff. exists i. split; [reflexivity|apply in_seq; lia].
  - assert (G : forall i, (i < N)%nat -> In (nth i (u_dp u) (v3 0 0 0), nth i (u_dx u) (v3 0 0 0)) (combine (u_dp u) (u_dx u))) by (intros i Hi; rewrite <- (NC i Hi); apply nth_In; lia).
    apply in_app_or in I. destruct I as [I|I]; apply in_map_iff in I; destruct I as [i [<- I]]; apply in_seq in I; assert (Hi : (i < N)%nat) by lia.
    + eexists. split; [apply in_or_app; left; apply in_map; exact (G i Hi)|]. intros c. symmetry. apply S1.
    + eexists. split; [apply in_or_app; right; apply in_map; exact (G i Hi)|]. intros c. symmetry. apply S2.
Qed.

Definition lower (p q : vec) : Prop := p 2%nat <= q 2%nat.
Lemma Rleb_spec x y : Rleb x y = true <-> x <= y.
Proof. unfold Rleb. destruct (Rle_dec x y); split; intros; try reflexivity; try assumption; try discriminate; contradiction. Qed.
Lemma sort_sorted l : StronglySorted lower (sort_height l).
Proof.
  assert (G : forall p l, StronglySorted lower l -> StronglySorted lower (insert_height p l)).
  { clear. intros p l S. induction S as [|q l S IH F]; cbn [insert_height]; [repeat constructor|].
    destruct (Rleb (height p) (height q)) eqn:E.
    - apply Rleb_spec in E. constructor; [constructor; assumption|]. constructor; [exact E|].
      rewrite Forall_forall in *. intros x I. apply F in I. unfold lower, height in *. lra.
    - constructor; [exact IH|]. rewrite Forall_forall in *. intros x I. apply insert_in in I. destruct I as [->|I]; [|exact (F x I)].
      destruct (Rle_dec (height p) (height q)) as [C|C]; [apply Rleb_spec in C; congruence|]. unfold lower, height in *. lra. }
  induction l as [|p l IH]; [constructor|]. unfold sort_height. cbn [fold_right]. apply G, IH.
Qed.
Lemma sorted_firstn l n p q : StronglySorted lower l -> In p (firstn n l) -> In q l -> q 2%nat < p 2%nat -> In q (firstn n l).
Proof.
  intros S. revert n. induction S as [|x l S IH F]; intros [|n] Ip Iq Hq; cbn [firstn] in *; try contradiction.
  destruct Iq as [->|Iq]; [left; reflexivity|]. destruct Ip as [->|Ip]; [|right; apply IH; assumption].
  rewrite Forall_forall in F. apply F in Iq. unfold lower in Iq. lra.
Qed.

(** ** Theorems *)
(** Frames in which nothing is due (feeding switched off, frame 0, frames between
    multiples) hand the particles through. *)
Theorem C80_between u every file frameno ref :
  every = 0%nat \/ frameno = 0%nat \/ (~ exists q, frameno = q * every)%nat ->
  feed_particles_from_bottom u every file frameno ref = Ok u.
Proof.
  intros C. unfold feed_particles_from_bottom. destruct (Nat.eqb_spec every 0) as [->|E0]; [reflexivity|]. cbn [orb].
  destruct (Nat.eqb_spec (frameno mod every) 0) as [E1|E1]; [|reflexivity]. cbn [negb orb].
  destruct (Nat.eqb_spec frameno 0) as [->|E2]; [reflexivity|]. exfalso. destruct C as [C|[C|C]]; try contradiction.
  apply C. exists (frameno / every)%nat. pose proof (Nat.div_mod frameno every E0). lia.
Qed.
Print Assumptions C80_between.

(** (Finding) In a frame in which feeding is due it never happens: the function
    raises an exception whatever its arguments, TypeError when the list of new
    beads is complete. *)
Theorem C80_never_feeds_refuted u every file frameno ref q :
  (0 < every)%nat -> (0 < q)%nat -> frameno = (q * every)%nat ->
  (exists e, feed_particles_from_bottom u every file frameno ref = Raise e) /\
  forall l, new_bead_positions u file ref = Ok l -> feed_particles_from_bottom u every file frameno ref = Raise TypeError.
Proof.
  intros H1 H2 ->. unfold feed_particles_from_bottom.
  destruct (Nat.eqb_spec every 0) as [E0|_]; [lia|]. rewrite Nat.mod_mul by lia. cbn [orb negb Nat.eqb].
  destruct (Nat.eqb_spec (q * every) 0) as [E2|_]; [nia|].
  destruct (new_bead_positions u file ref) as [l|e]; cbn [bind]; split; eauto; discriminate.
Qed.
Print Assumptions C80_never_feeds_refuted.

(** (Finding) If the reference particle is not below the middle of the beads'
    heights, nothing is to be removed, and the list of new beads cannot be formed
    either (ValueError). *)
Theorem C80_reference_high_refuted u file ref hi lo rp r0 s0 d0 s :
  nth_error (u_sp u) ref = Some rp -> nth_error (u_ss u) 0 = Some s0 -> nth_error (u_ds u) 0 = Some d0 ->
  length (u_dp u) = length (u_ds u) -> length (u_dx u) = length (u_ds u) ->
  nth_error (w_frames file) 0 = Some s ->
  C80_highest hi (C80_beads u) -> C80_lowest lo (C80_beads u) -> r0 = rp 2%nat -> (hi + lo) / 2 <= r0 ->
  new_bead_positions u file ref = Raise ValueError.
Proof.
  intros E1 E2 E3 L1 L2 E4 Hh Hl -> Hm. destruct (beads_in u L1 L2) as [LB [B1 B2]].
  unfold new_bead_positions. rewrite E1. cbn [raising bind].
  assert (NE : beads_of u <> []).
  { intros E. rewrite E in LB. destruct (u_ds u); [discriminate E3|simpl in LB; lia]. }
  destruct (np_max (map (fun p => height p - height rp) (beads_of u))) as [top|] eqn:Et; [|destruct (beads_of u); [congruence|discriminate]].
  destruct (np_min (map (fun p => height p - height rp) (beads_of u))) as [low|] eqn:El; [|destruct (beads_of u); [congruence|discriminate]].
  cbn [raising bind]. apply np_max_spec in Et. apply np_min_spec in El.
  assert (T : top = hi - rp 2%nat).
  { destruct Et as [I M]. apply in_map_iff in I. destruct I as [p [<- I]]. destruct Hh as [[h [Ih Eh]] Mh].
    destruct (B1 p I) as [p' [Ip' Sp]]. pose proof (Mh p' Ip') as X1. destruct (B2 h Ih) as [h' [Ih' Sh]].
    assert (X2 := M (height h' - height rp) (in_map (fun p => height p - height rp) _ _ Ih')). unfold height in *. rewrite (Sp 2%nat) in *. rewrite (Sh 2%nat) in *. lra. }
  assert (B : low = lo - rp 2%nat).
  { destruct El as [I M]. apply in_map_iff in I. destruct I as [p [<- I]]. destruct Hl as [[h [Ih Eh]] Mh].
    destruct (B1 p I) as [p' [Ip' Sp]]. pose proof (Mh p' Ip') as X1. destruct (B2 h Ih) as [h' [Ih' Sh]].
    assert (X2 := M (height h' - height rp) (in_map (fun p => height p - height rp) _ _ Ih')). unfold height in *. rewrite (Sp 2%nat) in *. rewrite (Sh 2%nat) in *. lra. }
  rewrite E2, E3. cbn [raising bind]. unfold same_setup_as. cbn [Z.ltb Z.compare Z.to_nat]. rewrite E4. cbn [bind].
  rewrite T, B. set (level := height rp + _ + _).
  assert (FA : filter (fun p => Rleb (height p) level) (beads_of u) = beads_of u).
  { assert (G : forall p, In p (beads_of u) -> Rleb (height p) level = true).
    { intros p I. destruct (B1 p I) as [p' [Ip' Sp]]. destruct Hh as [_ Mh]. pose proof (Mh p' Ip'). unfold Rleb, height, level, height.
      rewrite (Sp 2%nat). destruct (Rle_dec _ _); [reflexivity|lra]. }
    clear - G. induction (beads_of u) as [|p l IH]; [reflexivity|]. cbn [filter]. rewrite (G p (or_introl eq_refl)). f_equal. apply IH. intros q I. apply G. right. exact I. }
  rewrite FA, LB, Nat.sub_diag. reflexivity.
Qed.
Print Assumptions C80_reference_high_refuted.

(** The list of new beads, when it is formed, has as many beads as before: those
    not higher above the reference particle than half the height of the whole,
    unmoved; then beads of the file, all shifted down by the same amount to below
    the lowest bead, none of them touching a bead kept, the lowest ones of the file
    apart from those which would touch; then, only if these are
    too few, some of the beads removed. *)
Theorem C80_new_beads u file ref l :
  length (u_dp u) = length (u_ds u) -> length (u_dx u) = length (u_ds u) ->
  new_bead_positions u file ref = Ok l ->
  exists kept added back rp hi lo down a s0 block,
    l = kept ++ added ++ back /\ length l = length (C80_beads u) /\
    nth_error (u_sp u) ref = Some rp /\ nth_error (u_ds u) 0 = Some a /\ nth_error (w_frames file) 0 = Some s0 /\
    block = map (fun i => bead true (n_pos s0 (w_Ns file + i)%nat, n_dx s0 i)) (seq 0 (w_Nd file))
            ++ map (fun i => bead false (n_pos s0 (w_Ns file + i)%nat, n_dx s0 i)) (seq 0 (w_Nd file)) /\
    C80_highest hi (C80_beads u) /\ C80_lowest lo (C80_beads u) /\
    (forall p, In p kept -> C80_in p (C80_beads u) /\ p 2%nat <= rp 2%nat + (hi - lo) / 2) /\
    (forall p, In p (C80_beads u) -> p 2%nat <= rp 2%nat + (hi - lo) / 2 -> C80_in p kept) /\
    (forall p, In p added -> C80_in (vadd p (v3 0 0 down)) block /\ p 2%nat <= lo /\ forall t, In t kept -> 2 * a < dist3 p t) /\
    (forall p q, In p added -> In q block -> q 2%nat < p 2%nat + down ->
       (exists q', In q' added /\ C80_same q (vadd q' (v3 0 0 down))) \/ (exists t, In t kept /\ dist3 (vsub q (v3 0 0 down)) t <= 2 * a)) /\
    (forall p, In p back -> C80_in p (C80_beads u) /\ rp 2%nat + (hi - lo) / 2 < p 2%nat).
Proof.
  intros L1 L2 R0. destruct (beads_in u L1 L2) as [LB [B1 B2]]. unfold new_bead_positions in R0.
  apply bind_ok in R0. destruct R0 as [rp [E1 R0]]. apply raising_ok in E1.
  apply bind_ok in R0. destruct R0 as [top [Et R0]]. apply raising_ok, np_max_spec in Et.
  apply bind_ok in R0. destruct R0 as [low [El R0]]. apply raising_ok, np_min_spec in El.
  cbv zeta in R0.
  apply bind_ok in R0. destruct R0 as [ss0 [E2 R0]]. apply bind_ok in R0. destruct R0 as [ds0 [E3 R0]]. apply raising_ok in E3.
  apply bind_ok in R0. destruct R0 as [blk [E4 R0]].
  apply bind_ok in R0. destruct R0 as [tn [E5 R0]]. apply raising_ok, np_max_spec in E5.
  apply bind_ok in R0. destruct R0 as [mo [E6 R0]]. apply raising_ok, np_min_spec in E6.
  apply bind_ok in R0. destruct R0 as [mk [_ R0]]. apply Ok_inj in R0.
  unfold same_setup_as in E4. cbn [Z.ltb Z.compare Z.to_nat] in E4. destruct (nth_error (w_frames file) 0) as [s0|] eqn:E7; [|discriminate]. injection E4 as E4.
  set (level := height rp + - low + 1 / 2 * (top - - low)) in *.
  set (keep := filter (fun p => Rleb (height p) level) (beads_of u)) in *.
  set (n0 := (2 * length (u_ds u))%nat) in *.
  set (to_add := firstn (n0 - length keep) (sort_height (beads_of blk))) in *.
  set (shifted := map (fun p => vsub p (v3 0 0 (tn - mo))) to_add) in *.
  set (really := filter (fun s => negb (hits s keep ds0)) shifted) in *.
  set (gone := filter (fun p => negb (Rleb (height p) level)) (beads_of u)) in *.
  assert (Lk : (length keep <= n0)%nat) by (unfold keep; rewrite <- LB; apply filter_le).
  assert (Lkg : (length keep + length gone = n0)%nat) by (unfold keep, gone; rewrite <- LB; apply (filter_both (fun p => Rleb (height p) level))).
  assert (La : (length really <= n0 - length keep)%nat).
  { unfold really. eapply Nat.le_trans; [apply filter_le|]. unfold shifted. rewrite map_length. unfold to_add. rewrite firstn_length. lia. }
  assert (C0 : Nat.ltb n0 (length (keep ++ really)) = false) by (apply Nat.ltb_ge; rewrite app_length; lia).
  rewrite C0 in R0.
  assert (HL : C80_highest (top + rp 2%nat) (C80_beads u) /\ C80_lowest (low + rp 2%nat) (C80_beads u)).
  { destruct Et as [I M]. apply in_map_iff in I. destruct I as [p [Ep I]]. destruct El as [I' M']. apply in_map_iff in I'. destruct I' as [p' [Ep' I']].
    unfold height in *.
    destruct (B1 p I) as [q [Iq Sq]]. destruct (B1 p' I') as [q' [Iq' Sq']].
    split; (split; [|intros x Ix; destruct (B2 x Ix) as [y [Iy Sy]]]).
    - exists q. split; [exact Iq|]. rewrite <- (Sq 2%nat). lra.
    - pose proof (M _ (in_map (fun p => p 2%nat - rp 2%nat) _ _ Iy)). rewrite (Sy 2%nat). lra.
    - exists q'. split; [exact Iq'|]. rewrite <- (Sq' 2%nat). lra.
    - pose proof (M' _ (in_map (fun p => p 2%nat - rp 2%nat) _ _ Iy)). rewrite (Sy 2%nat). lra. }
  assert (Lev : level = rp 2%nat + (top + rp 2%nat - (low + rp 2%nat)) / 2) by (unfold level, height; field).
  assert (Mo : mo = low + rp 2%nat).
  { destruct HL as [_ [[q [Iq Eq]] Ml]]. destruct E6 as [I M]. apply in_map_iff in I. destruct I as [p [Ep I]]. unfold height in *.
    destruct (B1 p I) as [p' [Ip' Sp]]. pose proof (Ml p' Ip'). destruct (B2 q Iq) as [q' [Iq' Sq]].
    pose proof (M _ (in_map (fun p => p 2%nat) _ _ Iq')). rewrite (Sp 2%nat) in Ep. rewrite (Sq 2%nat) in Eq. lra. }
  assert (RL : forall p, Rleb (height p) level = true <-> p 2%nat <= level).
  { intros p. unfold Rleb, height. destruct (Rle_dec _ _); split; intros; try reflexivity; try assumption; try discriminate; contradiction. }
  exists keep, really, (if Nat.ltb (length (keep ++ really)) n0 then firstn (n0 - length (keep ++ really)) gone else []).
  exists rp, (top + rp 2%nat), (low + rp 2%nat), (tn - mo), ds0, s0. eexists.
  split; [|split; [|split; [exact E1|split; [exact E3|split; [reflexivity|split; [reflexivity|split; [apply HL|split; [apply HL|]]]]]]]].
  - rewrite <- R0. destruct (Nat.ltb _ n0); [rewrite app_assoc; reflexivity|rewrite app_nil_r; reflexivity].
  - transitivity n0; [|unfold C80_beads; rewrite app_length, !map_length, !seq_length; unfold n0; lia].
    rewrite <- R0. destruct (Nat.ltb_spec (length (keep ++ really)) n0) as [C|C].
    + rewrite app_length, firstn_length. rewrite app_length in *. lia.
    + rewrite app_length in *. lia.
  - rewrite <- Lev.
    assert (Lb1 : length (u_dp blk) = length (u_ds blk)) by (rewrite <- E4; cbn [u_dp u_ds]; rewrite map_length, seq_length, repeat_length; reflexivity).
    assert (Lb2 : length (u_dx blk) = length (u_ds blk)) by (rewrite <- E4; cbn [u_dx u_ds]; rewrite map_length, seq_length, repeat_length; reflexivity).
    destruct (beads_in blk Lb1 Lb2) as [_ [G G']].
    assert (Hit : forall p, In p shifted -> In p really \/ exists t, In t keep /\ dist3 p t <= 2 * ds0).
    { intros p I. destruct (hits p keep ds0) eqn:Eh.
      - right. unfold hits in Eh. apply existsb_exists in Eh. destruct Eh as [t [It Et']]. apply Rleb_spec in Et'. exists t. split; [exact It|exact Et'].
      - left. apply filter_In. split; [exact I|]. rewrite Eh. reflexivity. }
    split; [|split; [|split; [|split]]].
    + intros p I. apply filter_In in I. destruct I as [I Hp]. split; [apply B1, I|apply RL, Hp].
    + intros p I Hp. destruct (B2 p I) as [q [Iq Sq]]. exists q. split; [|exact Sq]. apply filter_In. split; [exact Iq|]. apply RL. rewrite <- (Sq 2%nat). exact Hp.
    + intros p I. apply filter_In in I. destruct I as [I Hp]. apply in_map_iff in I. destruct I as [f [<- I]].
      split; [|split].
      * unfold to_add in I. apply firstn_incl in I. rewrite sort_in in I. 
        destruct (G f I) as [q [Iq Sq]]. exists q. split.
        -- unfold C80_beads in Iq. rewrite <- E4 in Iq. cbn [u_dp u_dx u_ds] in Iq. rewrite repeat_length in Iq.
           assert (NN : forall i, (i < w_Nd file)%nat ->
             (nth i (map (n_pos s0) (seq (w_Ns file) (w_Nd file))) (v3 0 0 0), nth i (map (n_dx s0) (seq 0 (w_Nd file))) (v3 0 0 0)) = (n_pos s0 (w_Ns file + i)%nat, n_dx s0 i)).
           { intros i Hi. f_equal.
             - rewrite (nth_indep _ _ (n_pos s0 0%nat)) by (rewrite map_length, seq_length; exact Hi). rewrite map_nth, seq_nth by exact Hi. reflexivity.
             - rewrite (nth_indep _ _ (n_dx s0 0%nat)) by (rewrite map_length, seq_length; exact Hi). rewrite map_nth, seq_nth by exact Hi. reflexivity. }
           apply in_app_or in Iq. apply in_or_app. destruct Iq as [Iq|Iq]; [left|right]; apply in_map_iff in Iq; destruct Iq as [i [<- Hi]];
             apply in_map_iff; exists i; (split; [|exact Hi]); apply in_seq in Hi; rewrite NN by lia; reflexivity.
        -- intros i. rewrite <- (Sq i). unfold vadd, vsub. ring.
      * unfold vsub. cbn [v3]. destruct E5 as [_ M5]. pose proof (M5 (height f) (in_map height _ _ I)) as X. unfold height in X. lra.
      * intros t It. apply negb_true_iff in Hp. unfold hits in Hp. 
        destruct (Rle_dec (norm (vsub (vsub f (v3 0 0 (tn - mo))) t)) (2 * ds0)) as [C|C]; [|rewrite norm_dist in C; lra].
        exfalso. assert (X : existsb (fun t => Rleb (norm (vsub (vsub f (v3 0 0 (tn - mo))) t)) (2 * ds0)) keep = true); [|congruence].
        apply existsb_exists. exists t. split; [exact It|]. unfold Rleb. destruct (Rle_dec _ _); [reflexivity|contradiction].
    + intros p q I Iq Hq. apply filter_In in I. destruct I as [I _]. apply in_map_iff in I. destruct I as [f [<- I]].
      assert (Iq' : In q (C80_beads blk)).
      { unfold C80_beads. rewrite <- E4. cbn [u_dp u_dx u_ds]. rewrite repeat_length.
        apply in_app_or in Iq. apply in_or_app. destruct Iq as [Iq|Iq]; [left|right]; apply in_map_iff in Iq; destruct Iq as [i [<- Hi]];
          apply in_map_iff; exists i; (split; [|exact Hi]); apply in_seq in Hi.
        all: rewrite (nth_indep (map (n_pos s0) _) _ (n_pos s0 0%nat)) by (rewrite map_length, seq_length; lia); rewrite map_nth, seq_nth by lia;
          rewrite (nth_indep (map (n_dx s0) _) _ (n_dx s0 0%nat)) by (rewrite map_length, seq_length; lia); rewrite map_nth, seq_nth by lia; reflexivity. }
      destruct (G' q Iq') as [x [Ix Sx]]. unfold vsub in Hq. cbn [v3] in Hq. rewrite (Sx 2%nat) in Hq.
      assert (Ix' : In x to_add).
      { apply (sorted_firstn _ _ f); [apply sort_sorted|exact I|rewrite sort_in; exact Ix|lra]. }
      destruct (Hit _ (in_map (fun p => vsub p (v3 0 0 (tn - mo))) _ _ Ix')) as [J|[t [It Dt]]].
      * left. eexists. split; [exact J|]. intros i. rewrite (Sx i). unfold vadd, vsub. ring.
      * right. exists t. split; [exact It|]. rewrite (dist_ext _ t (vsub x (v3 0 0 (tn - mo))) t); [exact Dt| |reflexivity]. intros i. unfold vsub. rewrite (Sx i). reflexivity.
    + intros p I. destruct (Nat.ltb _ n0); [|destruct I]. apply firstn_incl in I. apply filter_In in I. destruct I as [I Hp].
      split; [apply B1, I|]. apply negb_true_iff in Hp. destruct (Rle_dec (p 2%nat) level) as [C|C]; [|lra]. apply RL in C. congruence.
Qed.
Print Assumptions C80_new_beads.

(** ** Example: one dumbbell, upright, its middle above the reference sphere; the
    upper bead is replaced by one from the file. *)
Definition C80_u : setup := mkSetup [1] [v3 0 0 0] [1 / 10] [v3 0 0 2] [v3 0 0 10].
Definition C80_file : saved_file := mkSaved 0 1 [mkSnap (fun _ => v3 4 0 0) (fun _ _ => v3 0 0 0) (fun _ => v3 0 0 2)].
Example C80_example : exists l, new_bead_positions C80_u C80_file 0 = Ok l /\ length l = 2%nat.
Proof.
  unfold new_bead_positions, C80_u, C80_file, beads_of, same_setup_as. cbn.
  unfold height, vadd, vsub, vscal. cbn.
  assert (X1 : Rmax (2 + 1 / 2 * 10 - 0) (2 - 1 / 2 * 10 - 0) = 7) by (rewrite Rmax_left; lra).
  assert (X2 : Rmin (2 + 1 / 2 * 10 - 0) (2 - 1 / 2 * 10 - 0) = - 3) by (rewrite Rmin_right; lra).
  rewrite X1, X2. unfold Rleb.
  repeat match goal with |- context [Rle_dec ?a ?b] => first [destruct (Rle_dec a b) as [C|C]; [exfalso; revert C; unfold vsub, vadd, vscal; cbn; lra|clear C] | destruct (Rle_dec a b) as [C|C]; [clear C|exfalso; revert C; unfold vsub, vadd, vscal; cbn; lra]]; cbn end.
  all: unfold Rleb; repeat match goal with |- context [Rle_dec ?a ?b] => destruct (Rle_dec a b); cbn end; try (eexists; split; reflexivity).
Qed.
