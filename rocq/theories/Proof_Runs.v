(** Runs that do not raise: solving one configuration. *)
From Coq Require Import Reals List Arith Bool Lra Lia.
From Verif Require Import Base Py Model_Pack Model_Convert Model_Minf Model_Close Model_R2B Model_MinfP Model_Grand Model_GrandP
  Model_Step Model_Output Model_Frame Model_Inputs Model_Sim Spec_Output Spec_Runs Spec_Pack Proof_Pack Spec_Convert Proof_Convert Proof_Output Proof_Output2 Proof_Polygon.
Import ListNotations.
Local Open Scope R_scope.

Lemma fte_ok inv Ns Nd R0 : (0 < Ns)%nat -> exists R1, fts_to_fte_matrix inv Ns Nd R0 = Ok R1.
Proof. intros H. unfold fts_to_fte_matrix. apply Nat.ltb_lt in H. rewrite H. eexists. reflexivity. Qed.
Lemma ufte_ok inv k Ns Nd R0 : (0 < Ns)%nat -> exists R1, fte_to_ufte_matrix inv k Ns Nd R0 = Ok R1.
Proof. intros H. unfold fte_to_ufte_matrix. apply Nat.ltb_lt in H. rewrite H. eexists. reflexivity. Qed.

(** Strain outputs suffice for the loop. *)
Definition enough {A} (Ns : nat) (l : list A) : Prop := (Ns <= length l)%nat /\ (0 < length l)%nat.

Lemma lslice_trim {A} (l : list A) k n : lslice (firstn n l) k n = lslice l k n.
Proof.
  unfold lslice. destruct (le_lt_dec k n) as [H|H].
  - rewrite skipn_firstn_comm, firstn_firstn, Nat.min_id. reflexivity.
  - replace (n - k)%nat with 0%nat by lia. reflexivity.
Qed.
Lemma split_out_trim {A} n k (a b : list (option A)) : split_out n k a (firstn n b) = split_out n k a b.
Proof. unfold split_out. rewrite lslice_trim. reflexivity. Qed.

Section Output.
Variable inv : nat -> mat -> mat.
Variable solve : nat -> mat -> list R -> list R.
Variables Ns Nd : nat.
Let N := (11 * Ns + 6 * Nd)%nat.
Hypothesis Hsolve : solves_shape solve.

Lemma solve_step A b : length b = N -> exists v, np_solve solve N A b = Ok v /\ length v = N.
Proof. intros H. exists (solve N A b). unfold np_solve. rewrite H, Nat.eqb_refl. split; [reflexivity|apply Hsolve, H]. Qed.

Lemma output_returns fm extract R0 i :
  complete fm Ns Nd i -> (fm = ufte -> extract = false) ->
  exists o, generate_output inv solve Ns Nd fm extract R0 i (fun _ => i) = Ok o /\ enough Ns (Model_Output.o_Ea o).
Proof.
  intros HC HX. destruct i as [Fa Ta Sa Fb DFb Ua Oa Ea Ub HDU].
  destruct fm; cbv zeta delta [complete] in HC; cbn [i_Fa i_Ta i_Sa i_Fb i_DFb i_Ua i_Ea i_Ub i_HalfDUb] in HC; try contradiction HC; unfold generate_output.
  - destruct HC as (LU & HZ & HF & HT & HS & HFb & HDFb).
    destruct (all_given_rows _ _ _ HF) as (F & -> & SF). destruct (all_given_rows _ _ _ HT) as (T & -> & ST).
    destruct (all_given33_rows _ _ HS) as (S & -> & LS & SS).
    destruct (all_given_rows _ _ _ HFb) as (FB & -> & SFB). destruct (all_given_rows _ _ _ HDFb) as (DFB & -> & SDFB).
    assert (Lb : length (grand F T S FB DFB) = N) by (apply grand_length; assumption).
    destruct (solve_step R0 _ Lb) as (v & Ev & Lv).
    destruct (unpack_blocks Ns Nd v Lv) as (u & o & e & ub & hdu & Ed & Su & So & Se & Sub & Shdu & Evv).
    unfold output_fts. cbn [i_Fa i_Ta i_Sa i_Fb i_DFb i_Ea i_Ua]. rewrite LU.
    rewrite force_vector_ok by assumption. cbn [bind]. fold N. rewrite Ev. cbn [bind]. rewrite Ed. cbn [bind].
    rewrite !given_map. cbn [bind]. destruct (Nat.eqb_spec Ns 0) as [E0|E0].
    + destruct (HZ E0) as [m ->]. cbn [given bind]. eexists. split; [reflexivity|]. unfold enough. cbn [Model_Output.o_Ea length]. lia.
    + cbn [bind]. eexists. split; [reflexivity|]. unfold enough. cbn [Model_Output.o_Ea]. destruct Se as [-> _]. lia.
  - destruct HC as (HNs & HF & HT & HS & HFb & HDFb).
    destruct (all_given_rows _ _ _ HF) as (F & -> & SF). destruct (all_given_rows _ _ _ HT) as (T & -> & ST).
    destruct (all_given33_rows _ _ HS) as (S & -> & LS & SS).
    destruct (all_given_rows _ _ _ HFb) as (FB & -> & SFB). destruct (all_given_rows _ _ _ HDFb) as (DFB & -> & SDFB).
    assert (Lb : length (grand F T S FB DFB) = N) by (apply grand_length; assumption).
    destruct (fte_ok inv Ns Nd R0 HNs) as (R1 & E1). destruct (solve_step R1 _ Lb) as (v & Ev & Lv).
    destruct (unpack_blocks Ns Nd v Lv) as (u & o & e & ub & hdu & Ed & _).
    unfold output_fte. rewrite E1. cbn [bind]. cbv zeta. cbn [i_Fa i_Ta i_Sa i_Fb i_DFb i_Ea i_Ua].
    rewrite force_vector_ok by assumption. cbn [bind]. fold N. rewrite Ev. cbn [bind]. rewrite Ed. cbn [bind].
    rewrite !given_map. cbn [bind]. eexists. split; [reflexivity|]. unfold enough. cbn [Model_Output.o_Ea]. lia.
  - destruct HC as (HNs & (k & HU & Hrest) & HT & HE & HFb & HDFb). rewrite (HX eq_refl).
    assert (Hk : (k <= Ns)%nat) by apply HU.
    pose proof (nfix_count _ _ _ _ HU Hrest) as Hcount.
    destruct (split_given_rows _ _ _ _ HU) as (u1 & f2 & EU & SU & EF0 & SF2).
    assert (EF : lslice Fa k Ns = map Some f2) by (rewrite <- (lslice_trim Fa k Ns); exact EF0).
    destruct (all_given_rows _ _ _ HT) as (T & -> & ST).
    destruct (all_given33_rows _ _ HE) as (E & -> & LE & SE).
    destruct (all_given_rows _ _ _ HFb) as (FB & -> & SFB). destruct (all_given_rows _ _ _ HDFb) as (DFB & -> & SDFB).
    assert (SUF : shaped Ns 3 (u1 ++ f2)).
    { replace Ns with (k + (Ns - k))%nat by lia. apply shaped_app; assumption. }
    assert (Lb : length (grand (u1 ++ f2) T E FB DFB) = N) by (apply grand_length; assumption).
    destruct (fte_ok inv Ns Nd R0 HNs) as (R1 & E1). destruct (ufte_ok inv k Ns Nd R1 HNs) as (R2 & E2).
    destruct (solve_step R2 _ Lb) as (v & Ev & Lv).
    destruct (unpack_blocks Ns Nd v Lv) as (FU & o & e & ub & hdu & Ed & SFU & _).
    destruct (split_shapes Ns k FU Hk SFU) as (EFU1 & SFU1 & EFU2 & SFU2).
    destruct HU as (_ & LUa & LFa & _).
    unfold output_ufte. cbn [i_Fa i_Ta i_Ea i_Fb i_DFb i_Ua]. cbv zeta. rewrite LUa, Hcount, EU, EF, <- map_app.
    rewrite force_vector_ok by assumption. cbn [bind]. rewrite E1. cbn [bind]. rewrite E2. cbn [bind].
    fold N. rewrite Ev. cbn [bind]. rewrite Ed. cbn [bind].
    rewrite <- (split_out_trim Ns k (map Some FU) Fa). rewrite !split_out_eq by (rewrite ?map_length; try assumption; apply SFU).
    rewrite EU, EF0, EFU1, EFU2, <- !map_app, !given_map. cbn [bind]. eexists. split; [reflexivity|]. unfold enough. cbn [Model_Output.o_Ea]. lia.
  - destruct HC as (HNs & (k & HU & Hrest) & HT & HE & (m & HB & Hrestb & HD)). clear HX.
    assert (Hk : (k <= Ns)%nat) by apply HU. assert (Hm : (m <= Nd)%nat) by apply HB.
    pose proof (nfix_count _ _ _ _ HU Hrest) as Hcount. pose proof (nfix_count _ _ _ _ HB Hrestb) as Hcountb.
    destruct (split_given_rows _ _ _ _ HU) as (u1 & f2 & EU & SU & EF0 & SF2).
    assert (EF : lslice Fa k Ns = map Some f2) by (rewrite <- (lslice_trim Fa k Ns); exact EF0).
    destruct (split_given_rows _ _ _ _ HB) as (b1 & g2 & EB & SB & EG & SG2).
    destruct (split_given_rows _ _ _ _ HD) as (d1 & h2 & EDd & SD & EH & SH2).
    destruct (all_given_rows _ _ _ HT) as (T & -> & ST).
    destruct (all_given33_rows _ _ HE) as (E & -> & LE & SE).
    assert (SUF : shaped Ns 3 (u1 ++ f2)).
    { replace Ns with (k + (Ns - k))%nat by lia. apply shaped_app; assumption. }
    assert (SUB : shaped Nd 3 (b1 ++ g2)).
    { replace Nd with (m + (Nd - m))%nat by lia. apply shaped_app; assumption. }
    assert (SUD : shaped Nd 3 (d1 ++ h2)).
    { replace Nd with (m + (Nd - m))%nat by lia. apply shaped_app; assumption. }
    assert (Lb : length (grand (u1 ++ f2) T E (b1 ++ g2) (d1 ++ h2)) = N) by (apply grand_length; assumption).
    destruct (fte_ok inv Ns Nd R0 HNs) as (R1 & E1). destruct (ufte_ok inv k Ns Nd R1 HNs) as (R2 & E2).
    destruct (solve_step (ufte_to_ufteu_matrix inv m k Ns Nd R2) _ Lb) as (v & Ev & Lv).
    destruct (unpack_blocks Ns Nd v Lv) as (FU & o & e & FB & DB & Ed & SFU & _ & _ & SFB & SDB & _).
    destruct (split_shapes Ns k FU Hk SFU) as (EFU1 & SFU1 & EFU2 & SFU2).
    destruct (split_shapes Nd m FB Hm SFB) as (EFB1 & SFB1 & EFB2 & SFB2).
    destruct (split_shapes Nd m DB Hm SDB) as (EDB1 & SDB1 & EDB2 & SDB2).
    destruct HU as (_ & LUa & LFa & _). destruct HB as (_ & LUb & LFb & _). destruct HD as (_ & LDb & LDF & _).
    unfold output_ufteu. cbn [i_Fa i_Ta i_Ea i_Fb i_DFb i_Ua i_Ub i_HalfDUb]. cbv zeta.
    rewrite LUa, LUb, Hcount, Hcountb, EU, EF, EB, EG, EDd, EH, <- !map_app.
    rewrite force_vector_ok by assumption. cbn [bind]. rewrite E1. cbn [bind]. rewrite E2. cbn [bind].
    fold N. rewrite Ev. cbn [bind]. rewrite Ed. cbn [bind].
    rewrite <- (split_out_trim Ns k (map Some FU) Fa). rewrite !split_out_eq by (rewrite ?map_length; try assumption; first [apply SFU|apply SFB|apply SDB]).
    rewrite EU, EF0, EFU1, EFU2, EB, EG, EFB1, EFB2, EDd, EH, EDB1, EDB2, <- !map_app, !given_map.
    cbn [bind]. eexists. split; [reflexivity|]. unfold enough. cbn [Model_Output.o_Ea]. lia.
Qed.
End Output.

(** The table look-ups. *)
Lemma found_from x table : forall k lam, In x table -> isclose x lam = true -> exists n, lam_index_from k table lam = Some n.
Proof.
  induction table as [|y l IH]; intros k lam H Hc; [contradiction H|]. simpl.
  destruct (isclose y lam) eqn:E; [eexists; reflexivity|]. destruct H as [->|H]; [congruence|apply IH; assumption].
Qed.
Lemma tabulated_found table sizes a b : tabulated table sizes -> In a sizes -> In b sizes -> found table (b / a) = true.
Proof.
  intros HT Ha Hb. destruct (HT a b Ha Hb) as (x & Hx & Hc). unfold found, lam_index.
  destruct (found_from x table 0 (b / a) Hx) as [n ->]; [|reflexivity]. unfold isclose. apply Rleb_t. exact Hc.
Qed.

Section Near.
Variable sc : nat -> nat -> R -> nat -> R.
Variables table sizes : list R.
Hypothesis HT : tabulated table sizes.

Lemma loop_returns a bb Ns Nd pairs :
  (forall t, In t pairs -> In (a (cp1 t)) sizes /\ In (a (cp2 t)) sizes /\ cp_ratio t = a (cp2 t) / a (cp1 t)) ->
  exists M, generate_R2Bexact_loop sc table bb a Ns Nd pairs = Some M.
Proof.
  intros HP. unfold generate_R2Bexact_loop.
  assert (L : forall l M, incl l pairs -> exists M', fold_left (r2b_step sc table bb a Ns Nd pairs) l (Some M) = Some M').
  { induction l as [|t l IH]; intros M Hi; [eexists; reflexivity|]. simpl.
    assert (Hl : lookups_ok table a pairs t = true).
    { destruct (HP t (Hi t (or_introl eq_refl))) as (Ha & Hb & Hr). unfold lookups_ok. rewrite Hr.
      rewrite (tabulated_found table sizes) by assumption.
      replace (1 / (a (cp2 t) / a (cp1 t))) with (a (cp1 t) / a (cp2 t)).
      2:{ unfold Rdiv. rewrite Rinv_mult, Rinv_inv, Rmult_1_l. apply Rmult_comm. }
      rewrite (tabulated_found table sizes) by assumption. cbn [andb].
      destruct (Nat.eqb _ _); [|reflexivity]. apply forallb_forall. intros n Hn.
      apply (tabulated_found table sizes); [exact HT|exact Ha|].
      unfold nearby in Hn. apply in_flat_map in Hn. destruct Hn as (t' & Ht' & Hn).
      destruct (HP t' Ht') as (Ha' & Hb' & _). apply in_app_or in Hn.
      destruct Hn as [Hn|Hn].
      - destruct (_ && _)%bool; [|contradiction Hn]. destruct Hn as [<-|[]]. exact Hb'.
      - destruct (_ && _)%bool; [|contradiction Hn]. destruct Hn as [<-|[]]. exact Ha'. }
    rewrite Hl. apply IH. intros x Hx. apply Hi. right. exact Hx. }
  destruct (L pairs mzero (incl_refl _)) as [M ->]. eexists; reflexivity.
Qed.

Lemma free_returns bb q cf mu :
  (forall k, (k < num_spheres q + 2 * num_dumbbells q)%nat -> In (bead_sizes q k) sizes) ->
  exists M, generate_R2Bexact_free sc table bb q cf mu = Some M.
Proof.
  intros HS. unfold generate_R2Bexact_free, generate_R2Bexact.
  destruct (loop_returns (bead_sizes q) bb (num_spheres q) (num_dumbbells q)
    (close_particles_free (bead_positions q) (bead_sizes q) (num_spheres q + 2 * num_dumbbells q) cf)) as [M ->]; [|eexists; reflexivity].
  intros t Ht. unfold close_particles_free in Ht. apply in_map_iff in Ht. destruct Ht as (f & <- & Hf).
  cbn [cp1 cp2 cp_ratio]. apply filter_In, proj1, filter_In, proj1 in Hf.
  apply in_flat_map in Hf. destruct Hf as (i & Hi & Hf). apply in_map_iff in Hf. destruct Hf as (j & <- & Hj).
  apply in_seq in Hi, Hj. cbn [fst snd]. split; [apply HS; lia|]. split; [apply HS; lia|reflexivity].
Qed.
Lemma periodic_returns inv3 bb q cf mu box Ot Et :
  (forall k, (k < num_spheres q + 2 * num_dumbbells q)%nat -> In (bead_sizes q k) sizes) ->
  exists M, generate_R2Bexact_periodic inv3 sc table bb q cf mu box Ot Et = Some M.
Proof.
  intros HS. unfold generate_R2Bexact_periodic, generate_R2Bexact.
  destruct (loop_returns (bead_sizes q) bb (num_spheres q) (num_dumbbells q)
    (close_particles_periodic inv3 (bead_positions q) (bead_sizes q) (num_spheres q + 2 * num_dumbbells q) cf box Ot Et)) as [M ->]; [|eexists; reflexivity].
  intros t Ht. unfold close_particles_periodic in Ht. apply in_map_iff in Ht. destruct Ht as (f & <- & Hf).
  cbn [cp1 cp2 cp_ratio]. apply filter_In, proj1 in Hf.
  apply in_flat_map in Hf. destruct Hf as (i & Hi & Hf). apply in_map_iff in Hf. destruct Hf as (j & <- & Hj).
  do 3 apply filter_In, proj1 in Hj. apply in_seq in Hi, Hj. cbn [fst snd]. split; [apply HS; lia|]. split; [apply HS; lia|reflexivity].
Qed.
End Near.
