(** Proofs about condensation and packing. *)
From Coq Require Import Reals Lra Lia List Arith Bool.
From Verif Require Import Base Py Model_Pack Spec_Pack.
Import ListNotations.
Local Open Scope R_scope.

Lemma sqrt3_sq : sqrt 3 * sqrt 3 = 3.
Proof. apply sqrt_sqrt; lra. Qed.
Lemma sqrt2_sq : sqrt 2 * sqrt 2 = 2.
Proof. apply sqrt_sqrt; lra. Qed.
Lemma sqrt2_neq0 : sqrt 2 <> 0.
Proof. apply Rgt_not_eq, sqrt_lt_R0; lra. Qed.

Lemma sym_traceless_form m : sym_traceless m ->
  exists a b c d e, m = [[a; b; c]; [b; d; e]; [c; e; - d - a]].
Proof.
  intros [[Hl Hr] [Hs Ht]].
  destruct m as [|r0 [|r1 [|r2 [|? ?]]]]; try discriminate Hl.
  pose proof (Hr r0 (or_introl eq_refl)) as H0.
  pose proof (Hr r1 (or_intror (or_introl eq_refl))) as H1.
  pose proof (Hr r2 (or_intror (or_intror (or_introl eq_refl)))) as H2.
  destruct r0 as [|a [|b [|c [|? ?]]]]; try discriminate H0.
  destruct r1 as [|a1 [|b1 [|c1 [|? ?]]]]; try discriminate H1.
  destruct r2 as [|a2 [|b2 [|c2 [|? ?]]]]; try discriminate H2.
  unfold ent in *.
  pose proof (Hs 0%nat 1%nat ltac:(lia) ltac:(lia)) as E01.
  pose proof (Hs 0%nat 2%nat ltac:(lia) ltac:(lia)) as E02.
  pose proof (Hs 1%nat 2%nat ltac:(lia) ltac:(lia)) as E12.
  simpl in *. subst a1 a2 b2.
  exists a, b, c, b1, c1.
  replace c2 with (- b1 - a) by lra. reflexivity.
Qed.

Lemma form_sym_traceless a b c d e :
  sym_traceless [[a; b; c]; [b; d; e]; [c; e; - d - a]].
Proof.
  split; [split; [reflexivity|]|split].
  - intros r [<-|[<-|[<-|[]]]]; reflexivity.
  - intros i j Hi Hj. idx3 Hi; idx3 Hj; reflexivity.
  - unfold ent; simpl; lra.
Qed.

Lemma is33_shape33 m : is33 m -> shape33 m = true.
Proof.
  intros [Hl Hr]. unfold shape33, rows_ok. rewrite Hl. simpl.
  apply forallb_forall. intros r Hin. rewrite (Hr r Hin). reflexivity.
Qed.

Lemma condense1_form a b c d e :
  condense1 [[a; b; c]; [b; d; e]; [c; e; - d - a]]
  = [hs3p1 * a + hs3m1 * d; s2 * b; hs3m1 * a + hs3p1 * d; s2 * c; s2 * e].
Proof.
  unfold condense1, condense_entry, contraction, get2; simpl.
  repeat (apply f_equal2; [ring|]). reflexivity.
Qed.

Lemma condense_flat_entry_eq m j : condense_flat_entry m j = condense_entry m j.
Proof.
  unfold condense_flat_entry, condense_entry.
  rewrite (rsum_swap 3 3 (fun k l => contraction j k l * get2 m k l)). reflexivity.
Qed.

Lemma uncondense1_condense1 m : sym_traceless m -> uncondense1 (condense1 m) = m.
Proof.
  intros H. destruct (sym_traceless_form m H) as (a & b & c & d & e & ->).
  rewrite condense1_form. unfold uncondense1; cbn [nth].
  unfold hs3p1, hs3m1, s2, s3.
  pose proof sqrt3_sq as H3. pose proof sqrt2_neq0 as H2.
  assert (Ea : (sqrt 3 + 3) / 6 * (1 / 2 * (sqrt 3 + 1) * a + 1 / 2 * (sqrt 3 - 1) * d) +
               (sqrt 3 - 3) / 6 * (1 / 2 * (sqrt 3 - 1) * a + 1 / 2 * (sqrt 3 + 1) * d) = a)
    by (transitivity (a + (sqrt 3 * sqrt 3 - 3) * ((a + d) / 6)); [field|rewrite H3; ring]).
  assert (Ed : (sqrt 3 - 3) / 6 * (1 / 2 * (sqrt 3 + 1) * a + 1 / 2 * (sqrt 3 - 1) * d) +
               (sqrt 3 + 3) / 6 * (1 / 2 * (sqrt 3 - 1) * a + 1 / 2 * (sqrt 3 + 1) * d) = d)
    by (transitivity (d + (sqrt 3 * sqrt 3 - 3) * ((a + d) / 6)); [field|rewrite H3; ring]).
  rewrite Ea, Ed.
  assert (Eb : forall x, sqrt 2 * x / sqrt 2 = x) by (intros; field; assumption).
  rewrite !Eb. reflexivity.
Qed.

Lemma uncondense1_sym_traceless c : sym_traceless (uncondense1 c).
Proof. unfold uncondense1. apply form_sym_traceless. Qed.

Lemma condense1_uncondense1 c : length c = 5%nat -> condense1 (uncondense1 c) = c.
Proof.
  intros Hl. destruct c as [|c0 [|c1 [|c2 [|c3 [|c4 [|? ?]]]]]]; try discriminate Hl.
  unfold uncondense1; cbn [nth]. rewrite condense1_form.
  unfold hs3p1, hs3m1, s2, s3.
  pose proof sqrt3_sq as H3. pose proof sqrt2_neq0 as H2.
  set (q := sqrt 3) in *. set (t := sqrt 2) in *.
  assert (E0 : 1 / 2 * (q + 1) * ((q + 3) / 6 * c0 + (q - 3) / 6 * c2) +
               1 / 2 * (q - 1) * ((q - 3) / 6 * c0 + (q + 3) / 6 * c2) = c0)
    by (transitivity (c0 + (q * q - 3) * ((c0 + c2) / 6)); [field|rewrite H3; ring]).
  assert (E2 : 1 / 2 * (q - 1) * ((q + 3) / 6 * c0 + (q - 3) / 6 * c2) +
               1 / 2 * (q + 1) * ((q - 3) / 6 * c0 + (q + 3) / 6 * c2) = c2)
    by (transitivity (c2 + (q * q - 3) * ((c0 + c2) / 6)); [field|rewrite H3; ring]).
  rewrite E0, E2.
  assert (Eb : forall x, t * (x / t) = x) by (intros; field; assumption).
  rewrite !Eb. reflexivity.
Qed.

Lemma condense1_ddot s e : sym_traceless s -> sym_traceless e ->
  ldot (condense1 s) (condense1 e) = ddot s e.
Proof.
  intros Hs He.
  destruct (sym_traceless_form s Hs) as (a & b & c & d & f & ->).
  destruct (sym_traceless_form e He) as (a' & b' & c' & d' & f' & ->).
  rewrite !condense1_form. unfold ddot, ent. cbn [ldot nth].
  unfold hs3p1, hs3m1, s2, s3.
  assert (E1 : 1 / 2 * (sqrt 3 + 1) * (1 / 2 * (sqrt 3 + 1)) = 1 + sqrt 3 / 2)
    by (pose proof sqrt3_sq; nra).
  assert (E2 : 1 / 2 * (sqrt 3 + 1) * (1 / 2 * (sqrt 3 - 1)) = 1 / 2)
    by (pose proof sqrt3_sq; nra).
  assert (E3 : 1 / 2 * (sqrt 3 - 1) * (1 / 2 * (sqrt 3 - 1)) = 1 - sqrt 3 / 2)
    by (pose proof sqrt3_sq; nra).
  set (P := 1 / 2 * (sqrt 3 + 1)) in *. set (Q := 1 / 2 * (sqrt 3 - 1)) in *.
  replace ((P * a + Q * d) * (P * a' + Q * d'))
    with (P * P * (a * a') + P * Q * (a * d' + d * a') + Q * Q * (d * d')) by ring.
  replace ((Q * a + P * d) * (Q * a' + P * d'))
    with (Q * Q * (a * a') + P * Q * (a * d' + d * a') + P * P * (d * d')) by ring.
  rewrite E1, E2, E3.
  replace (sqrt 2 * b * (sqrt 2 * b')) with (sqrt 2 * sqrt 2 * (b * b')) by ring.
  replace (sqrt 2 * c * (sqrt 2 * c')) with (sqrt 2 * sqrt 2 * (c * c')) by ring.
  replace (sqrt 2 * f * (sqrt 2 * f')) with (sqrt 2 * sqrt 2 * (f * f')) by ring.
  rewrite sqrt2_sq. field.
Qed.

(** ** Lists of tensors *)

Lemma map_nth_seq_all {A B} (f : A -> B) (l : list A) d :
  map (fun i => f (nth i l d)) (seq 0 (length l)) = map f l.
Proof.
  induction l as [|x l IH]; [reflexivity|].
  simpl. f_equal. rewrite <- seq_shift, map_map. exact IH.
Qed.

Lemma forallb_shape33_st n s : shaped_st n s ->
  (Nat.leb n (length s) && forallb shape33 (firstn n s))%bool = true.
Proof.
  intros [Hl Hst]. rewrite <- Hl, firstn_all, Nat.leb_refl. simpl.
  apply forallb_forall. intros t Ht. apply is33_shape33, (Hst t Ht).
Qed.

Lemma condense_ok n s : shaped_st n s -> condense s n = Ok (map condense1 s).
Proof.
  intros H. unfold condense. rewrite (forallb_shape33_st n s H).
  destruct H as [<- _]. rewrite map_nth_seq_all. reflexivity.
Qed.

Lemma condense_and_flatten_ok n s : shaped_st n s ->
  condense_and_flatten s n = Ok (concat (map condense1 s)).
Proof.
  intros H. unfold condense_and_flatten. rewrite (forallb_shape33_st n s H).
  destruct H as [<- _]. rewrite flat_map_concat_map.
  f_equal. f_equal.
  rewrite <- (map_nth_seq_all condense1 s []).
  apply map_ext. intros i. unfold condense1. apply map_ext.
  intros j. apply condense_flat_entry_eq.
Qed.

Lemma uncondense_ok n c : shaped n 5 c -> uncondense c n = Ok (map uncondense1 c).
Proof.
  intros [Hl Hr]. unfold uncondense.
  rewrite <- Hl, firstn_all, Nat.leb_refl.
  replace (forallb (fun r => Nat.leb 5 (length r)) c) with true.
  - cbn [andb]. rewrite map_nth_seq_all. reflexivity.
  - symmetry. apply forallb_forall. intros r Hin. rewrite (Hr r Hin). reflexivity.
Qed.

Lemma shaped_condense n s : shaped_st n s -> shaped n 5 (map condense1 s).
Proof.
  intros [Hl _]. split; [rewrite map_length; exact Hl|].
  intros r Hin. apply in_map_iff in Hin. destruct Hin as [m [<- _]]. reflexivity.
Qed.

Lemma condense_uncondense_roundtrip n s : shaped_st n s ->
  exists c, condense s n = Ok c /\ uncondense c n = Ok s /\
            condense_and_flatten s n = Ok (concat c).
Proof.
  intros H. exists (map condense1 s). rewrite (condense_ok n s H).
  rewrite (condense_and_flatten_ok n s H).
  rewrite (uncondense_ok n _ (shaped_condense n s H)).
  rewrite map_map. split; [reflexivity|]. split; [|reflexivity].
  f_equal. transitivity (map (fun x => x) s); [|apply map_id].
  apply map_ext_in. intros t Ht. apply uncondense1_condense1. apply H, Ht.
Qed.

Lemma uncondense_condense_roundtrip n c : shaped n 5 c ->
  exists s, uncondense c n = Ok s /\ shaped_st n s /\ condense s n = Ok c.
Proof.
  intros H. exists (map uncondense1 c). rewrite (uncondense_ok n c H).
  assert (Hst : shaped_st n (map uncondense1 c)).
  { split; [rewrite map_length; apply H|].
    intros t Ht. apply in_map_iff in Ht. destruct Ht as [x [<- _]].
    apply uncondense1_sym_traceless. }
  split; [reflexivity|]. split; [exact Hst|].
  rewrite (condense_ok n _ Hst). f_equal. rewrite map_map.
  transitivity (map (fun x => x) c); [|apply map_id].
  apply map_ext_in. intros t Ht. apply condense1_uncondense1. apply H, Ht.
Qed.

(** ** Packing *)

Lemma concat_length_rows {A} n w (l : list (list A)) :
  length l = n -> (forall r, In r l -> length r = w) -> length (concat l) = (n * w)%nat.
Proof.
  intros <- H. induction l as [|r l IH]; simpl; [reflexivity|].
  rewrite app_length, (H r (or_introl eq_refl)), IH; [reflexivity|].
  intros r' Hr'; apply H; right; exact Hr'.
Qed.

Lemma chunks_concat {A} n w (l : list (list A)) :
  length l = n -> (forall r, In r l -> length r = w) -> chunks n w (concat l) = l.
Proof.
  intros <- H. induction l as [|r l IH]; simpl; [reflexivity|].
  assert (Hr : length r = w) by (apply H; simpl; auto).
  rewrite firstn_app, firstn_all2 by lia. rewrite Hr, Nat.sub_diag. simpl.
  rewrite app_nil_r. f_equal.
  rewrite skipn_app, skipn_all2 by lia. rewrite Hr, Nat.sub_diag. simpl.
  apply IH. intros r' Hr'. apply H. simpl; auto.
Qed.

Lemma reshape_concat n w l : shaped n w l -> reshape n w (concat l) = Ok l.
Proof.
  intros [Hl Hr]. unfold reshape.
  rewrite (concat_length_rows n w l Hl Hr), Nat.eqb_refl.
  rewrite chunks_concat by assumption. reflexivity.
Qed.

Lemma lslice_app {A} (a b c : list A) lo hi :
  length a = lo -> length b = (hi - lo)%nat -> lslice (a ++ b ++ c) lo hi = b.
Proof.
  intros Ha Hb. unfold lslice.
  rewrite skipn_app, skipn_all2 by lia. rewrite Ha, Nat.sub_diag. simpl.
  rewrite firstn_app, firstn_all2 by lia. rewrite Hb, Nat.sub_diag. simpl.
  apply app_nil_r.
Qed.

Definition packed (f t : list (list R)) (s : list (list (list R))) (fb dfb : list (list R)) : list R :=
  concat f ++ concat t ++ concat (map condense1 s) ++ concat fb ++ concat dfb.

Lemma construct_ok Ns Nd f t s fb dfb :
  shaped Ns 3 f -> shaped Ns 3 t -> shaped_st Ns s -> shaped Nd 3 fb -> shaped Nd 3 dfb ->
  construct_force_vector_from_fts Ns Nd f t s fb dfb = Ok (packed f t s fb dfb).
Proof.
  intros Hf Ht Hs Hfb Hdfb. unfold construct_force_vector_from_fts, packed.
  rewrite (condense_and_flatten_ok Ns s Hs). cbn [bind].
  assert (nil_of : forall (l : list (list R)) w, shaped 0 w l -> l = []).
  { intros l w [Hl _]. destruct l; [reflexivity|discriminate Hl]. }
  destruct Ns as [|Ns], Nd as [|Nd]; f_equal.
  - rewrite (nil_of f 3%nat), (nil_of t 3%nat), (nil_of fb 3%nat), (nil_of dfb 3%nat) by assumption.
    destruct Hs as [Hl _]; destruct s; [reflexivity|discriminate Hl].
  - rewrite (nil_of f 3%nat), (nil_of t 3%nat) by assumption.
    destruct Hs as [Hl _]; destruct s; [reflexivity|discriminate Hl].
  - rewrite (nil_of fb 3%nat), (nil_of dfb 3%nat) by assumption. simpl. rewrite !app_nil_r. reflexivity.
Qed.

Lemma packed_length Ns Nd f t s fb dfb :
  shaped Ns 3 f -> shaped Ns 3 t -> shaped_st Ns s -> shaped Nd 3 fb -> shaped Nd 3 dfb ->
  length (packed f t s fb dfb) = (11 * Ns + 6 * Nd)%nat.
Proof.
  intros [Hf1 Hf2] [Ht1 Ht2] Hs [Hfb1 Hfb2] [Hdfb1 Hdfb2]. unfold packed.
  destruct (shaped_condense _ _ Hs) as [Hc1 Hc2].
  rewrite !app_length.
  rewrite (concat_length_rows _ _ f Hf1 Hf2), (concat_length_rows _ _ t Ht1 Ht2).
  rewrite (concat_length_rows _ _ fb Hfb1 Hfb2), (concat_length_rows _ _ dfb Hdfb1 Hdfb2).
  rewrite (concat_length_rows _ _ _ Hc1 Hc2). lia.
Qed.

Lemma deconstruct_packed Ns Nd f t s fb dfb :
  shaped Ns 3 f -> shaped Ns 3 t -> shaped_st Ns s -> shaped Nd 3 fb -> shaped Nd 3 dfb ->
  deconstruct_velocity_vector_for_fts Ns Nd (packed f t s fb dfb) = Ok (f, t, s, fb, dfb).
Proof.
  intros Hf Ht Hs Hfb Hdfb.
  pose proof (shaped_condense _ _ Hs) as Hc.
  pose proof (concat_length_rows _ _ f (proj1 Hf) (proj2 Hf)) as Lf.
  pose proof (concat_length_rows _ _ t (proj1 Ht) (proj2 Ht)) as Lt.
  pose proof (concat_length_rows _ _ _ (proj1 Hc) (proj2 Hc)) as Lc.
  pose proof (concat_length_rows _ _ fb (proj1 Hfb) (proj2 Hfb)) as Lb.
  pose proof (concat_length_rows _ _ dfb (proj1 Hdfb) (proj2 Hdfb)) as Ld.
  unfold deconstruct_velocity_vector_for_fts, packed.
  set (cf := concat f) in *. set (ct := concat t) in *.
  set (cc := concat (map condense1 s)) in *.
  set (cb := concat fb) in *. set (cd := concat dfb) in *.
  replace (lslice (cf ++ ct ++ cc ++ cb ++ cd) 0 (3 * Ns)) with cf.
  2:{ symmetry. apply (lslice_app [] cf (ct ++ cc ++ cb ++ cd)); simpl; lia. }
  replace (lslice (cf ++ ct ++ cc ++ cb ++ cd) (3 * Ns) (6 * Ns)) with ct.
  2:{ symmetry. apply (lslice_app cf ct (cc ++ cb ++ cd)); lia. }
  replace (lslice (cf ++ ct ++ cc ++ cb ++ cd) (6 * Ns) (11 * Ns)) with cc.
  2:{ symmetry. replace (cf ++ ct ++ cc ++ cb ++ cd) with ((cf ++ ct) ++ cc ++ (cb ++ cd))
        by (rewrite <- !app_assoc; reflexivity).
      apply lslice_app; rewrite ?app_length; lia. }
  replace (lslice (cf ++ ct ++ cc ++ cb ++ cd) (11 * Ns) (11 * Ns + 3 * Nd)) with cb.
  2:{ symmetry. replace (cf ++ ct ++ cc ++ cb ++ cd) with ((cf ++ ct ++ cc) ++ cb ++ cd)
        by (rewrite <- !app_assoc; reflexivity).
      apply lslice_app; rewrite ?app_length; lia. }
  replace (lslice (cf ++ ct ++ cc ++ cb ++ cd) (11 * Ns + 3 * Nd) (11 * Ns + 6 * Nd)) with cd.
  2:{ symmetry. replace (cf ++ ct ++ cc ++ cb ++ cd) with ((cf ++ ct ++ cc ++ cb) ++ cd ++ [])
        by (rewrite <- !app_assoc, app_nil_r; reflexivity).
      apply lslice_app; rewrite ?app_length; lia. }
  unfold cf, ct, cc, cb, cd.
  rewrite (reshape_concat _ _ f Hf). cbn [bind].
  rewrite (reshape_concat _ _ t Ht). cbn [bind].
  rewrite (reshape_concat _ _ _ Hc). cbn [bind].
  rewrite (reshape_concat _ _ fb Hfb). cbn [bind].
  rewrite (reshape_concat _ _ dfb Hdfb). cbn [bind].
  rewrite (uncondense_ok _ _ Hc). cbn [bind].
  rewrite map_map.
  assert (Es : map (fun x => uncondense1 (condense1 x)) s = s).
  { transitivity (map (fun x => x) s); [|apply map_id].
    apply map_ext_in. intros x Hx. apply uncondense1_condense1, Hs, Hx. }
  rewrite Es. reflexivity.
Qed.

Lemma pack_unpack Ns Nd f t s fb dfb :
  shaped Ns 3 f -> shaped Ns 3 t -> shaped_st Ns s -> shaped Nd 3 fb -> shaped Nd 3 dfb ->
  exists v, construct_force_vector_from_fts Ns Nd f t s fb dfb = Ok v
            /\ length v = (11 * Ns + 6 * Nd)%nat
            /\ deconstruct_velocity_vector_for_fts Ns Nd v = Ok (f, t, s, fb, dfb).
Proof.
  intros Hf Ht Hs Hfb Hdfb. exists (packed f t s fb dfb).
  split; [apply construct_ok; assumption|].
  split; [apply packed_length; assumption|apply deconstruct_packed; assumption].
Qed.

(** Unpacking never silently drops data: a vector of any other length is
    rejected when too short. *)
Lemma deconstruct_wrong_length Ns Nd v :
  (length v < 11 * Ns + 6 * Nd)%nat ->
  exists e, deconstruct_velocity_vector_for_fts Ns Nd v = Raise e.
Proof.
  intros Hl. unfold deconstruct_velocity_vector_for_fts, reshape, lslice.
  repeat rewrite firstn_length. repeat rewrite skipn_length.
  destruct (Nat.eqb_spec (Nat.min (3 * Ns - 0) (length v - 0)) (Ns * 3)); cbn [bind]; [|eexists; reflexivity].
  destruct (Nat.eqb_spec (Nat.min (6 * Ns - 3 * Ns) (length v - 3 * Ns)) (Ns * 3)); cbn [bind]; [|eexists; reflexivity].
  destruct (Nat.eqb_spec (Nat.min (11 * Ns - 6 * Ns) (length v - 6 * Ns)) (Ns * 5)); cbn [bind]; [|eexists; reflexivity].
  destruct (Nat.eqb_spec (Nat.min (11 * Ns + 3 * Nd - 11 * Ns) (length v - 11 * Ns)) (Nd * 3)); cbn [bind]; [|eexists; reflexivity].
  destruct (Nat.eqb_spec (Nat.min (11 * Ns + 6 * Nd - (11 * Ns + 3 * Nd)) (length v - (11 * Ns + 3 * Nd))) (Nd * 3)); cbn [bind]; [|eexists; reflexivity].
  exfalso; lia.
Qed.

(** ** Power *)

Lemma ldot_app a b c d : length a = length c -> ldot (a ++ b) (c ++ d) = ldot a c + ldot b d.
Proof.
  revert c. induction a as [|x a IH]; intros [|y c] H; try discriminate H; simpl; [ring|].
  rewrite IH by (simpl in H; lia). ring.
Qed.

Lemma ldot_concat n w a b : shaped n w a -> shaped n w b ->
  ldot (concat a) (concat b) = rowdot a b.
Proof.
  intros [Ha1 Ha2] [Hb1 Hb2]. revert n b Ha1 Hb1 Hb2.
  induction a as [|x a IH]; intros n b Ha1 Hb1 Hb2.
  - destruct b; reflexivity.
  - destruct b as [|y b]; [simpl in *; lia|]. simpl.
    rewrite ldot_app.
    + destruct n; [simpl in Ha1; lia|].
      rewrite (IH (fun r Hr => Ha2 r (or_intror Hr)) n b); simpl in *; auto; lia.
    + rewrite (Ha2 x (or_introl eq_refl)), (Hb2 y (or_introl eq_refl)); reflexivity.
Qed.

Lemma rowdot_condense n s e : shaped_st n s -> shaped_st n e ->
  rowdot (map condense1 s) (map condense1 e) = sumddot s e.
Proof.
  intros [Hs1 Hs2] [He1 He2]. revert n e Hs1 He1 He2.
  induction s as [|x s IH]; intros n e Hs1 He1 He2; [reflexivity|].
  destruct e as [|y e]; [reflexivity|]. simpl map. cbn [rowdot sumddot].
  rewrite condense1_ddot by (first [exact (Hs2 _ (or_introl eq_refl)) | exact (He2 _ (or_introl eq_refl))]).
  destruct n; [simpl in Hs1; lia|].
  rewrite (IH (fun r Hr => Hs2 r (or_intror Hr)) n e); simpl in *; auto; lia.
Qed.

Lemma shaped_len n w l : shaped n w l -> length (concat l) = (n * w)%nat.
Proof. intros [H1 H2]; apply concat_length_rows; assumption. Qed.

Lemma packed_power Ns Nd f t s fb dfb u o e ub hdu :
  shaped Ns 3 f -> shaped Ns 3 t -> shaped_st Ns s -> shaped Nd 3 fb -> shaped Nd 3 dfb ->
  shaped Ns 3 u -> shaped Ns 3 o -> shaped_st Ns e -> shaped Nd 3 ub -> shaped Nd 3 hdu ->
  ldot (packed f t s fb dfb) (packed u o e ub hdu)
  = rowdot f u + rowdot t o + sumddot s e + rowdot fb ub + rowdot dfb hdu.
Proof.
  intros Hf Ht Hs Hfb Hdfb Hu Ho He Hub Hhdu. unfold packed.
  pose proof (shaped_condense _ _ Hs) as Hsc. pose proof (shaped_condense _ _ He) as Hec.
  rewrite ldot_app by (rewrite (shaped_len _ _ _ Hf), (shaped_len _ _ _ Hu); reflexivity).
  rewrite ldot_app by (rewrite (shaped_len _ _ _ Ht), (shaped_len _ _ _ Ho); reflexivity).
  rewrite ldot_app by (rewrite (shaped_len _ _ _ Hsc), (shaped_len _ _ _ Hec); reflexivity).
  rewrite ldot_app by (rewrite (shaped_len _ _ _ Hfb), (shaped_len _ _ _ Hub); reflexivity).
  rewrite (ldot_concat _ _ _ _ Hf Hu), (ldot_concat _ _ _ _ Ht Ho).
  rewrite (ldot_concat _ _ _ _ Hsc Hec), (ldot_concat _ _ _ _ Hfb Hub), (ldot_concat _ _ _ _ Hdfb Hhdu).
  rewrite (rowdot_condense _ _ _ Hs He). ring.
Qed.

Lemma construct_power Ns Nd f t s fb dfb u o e ub hdu :
  shaped Ns 3 f -> shaped Ns 3 t -> shaped_st Ns s -> shaped Nd 3 fb -> shaped Nd 3 dfb ->
  shaped Ns 3 u -> shaped Ns 3 o -> shaped_st Ns e -> shaped Nd 3 ub -> shaped Nd 3 hdu ->
  exists v w,
    construct_force_vector_from_fts Ns Nd f t s fb dfb = Ok v /\
    construct_force_vector_from_fts Ns Nd u o e ub hdu = Ok w /\
    ldot v w = rowdot f u + rowdot t o + sumddot s e + rowdot fb ub + rowdot dfb hdu.
Proof.
  intros. exists (packed f t s fb dfb), (packed u o e ub hdu).
  split; [apply construct_ok; assumption|]. split; [apply construct_ok; assumption|].
  eapply packed_power; eassumption.
Qed.
