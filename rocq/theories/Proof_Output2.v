(** The solved configuration keeps prescribed values and satisfies the
    resistance relation, for every input form. *)
From Coq Require Import Reals List Arith Bool Lia Lra.
From Verif Require Import Base Py Model_Pack Spec_Pack Proof_Pack Model_Convert Spec_Convert Proof_Convert Model_Output Spec_Output Proof_Output.
Import ListNotations.
Local Open Scope R_scope.

Lemma lexch_parts s off x1 x2 y1 y2 n1 n2 :
  length x1 = n1 -> length y1 = n1 -> length x2 = n2 -> length y2 = n2 ->
  (forall i, (off <= i < off + n1)%nat -> s i = true) ->
  (forall i, (off + n1 <= i < off + n1 + n2)%nat -> s i = false) ->
  lexch s off (x1 ++ x2) (y1 ++ y2) = y1 ++ x2.
Proof.
  intros H1 H2 H3 H4 St Sf. rewrite lexch_app by lia.
  rewrite lexch_true by (try lia; intros; apply St; lia).
  rewrite lexch_false by (try lia; intros; apply Sf; lia). reflexivity.
Qed.

Lemma grand_exch s Ns Nd k kd a1 a2 t e b1 b2 c1 c2 a1' a2' t' e' b1' b2' c1' c2' :
  (k <= Ns)%nat -> (kd <= Nd)%nat ->
  shaped k 3 a1 -> shaped (Ns - k) 3 a2 -> shaped Ns 3 t -> length e = Ns ->
  shaped kd 3 b1 -> shaped (Nd - kd) 3 b2 -> shaped kd 3 c1 -> shaped (Nd - kd) 3 c2 ->
  shaped k 3 a1' -> shaped (Ns - k) 3 a2' -> shaped Ns 3 t' -> length e' = Ns ->
  shaped kd 3 b1' -> shaped (Nd - kd) 3 b2' -> shaped kd 3 c1' -> shaped (Nd - kd) 3 c2' ->
  (forall i, (i < 11 * Ns + 6 * Nd)%nat -> s i =
     union_set (union_set (strain_set Ns) (fixed_spheres_set k)) (fixed_dumbbells_set kd Ns Nd) i) ->
  lexch s 0 (grand (a1 ++ a2) t e (b1 ++ b2) (c1 ++ c2)) (grand (a1' ++ a2') t' e' (b1' ++ b2') (c1' ++ c2'))
  = grand (a1' ++ a2) t e' (b1' ++ b2) (c1' ++ c2).
Proof.
  intros Hk Hkd Ha1 Ha2 Ht He Hb1 Hb2 Hc1 Hc2 Ha1' Ha2' Ht' He' Hb1' Hb2' Hc1' Hc2' Hs.
  apply shaped_len in Ha1, Ha2, Ht, Hb1, Hb2, Hc1, Hc2, Ha1', Ha2', Ht', Hb1', Hb2', Hc1', Hc2'.
  assert (Le : length (flat_map five e) = (5 * Ns)%nat) by (rewrite flat_five_length; lia).
  assert (Le' : length (flat_map five e') = (5 * Ns)%nat) by (rewrite flat_five_length; lia).
  assert (Hset : forall i, (i < 11 * Ns + 6 * Nd)%nat ->
    s i = true <-> (i < 3 * k \/ 6 * Ns <= i < 11 * Ns + 3 * kd \/ 11 * Ns + 3 * Nd <= i < 11 * Ns + 3 * Nd + 3 * kd)%nat).
  { intros i Hi. rewrite (Hs i Hi). unfold union_set, strain_set, fixed_spheres_set, fixed_dumbbells_set, rangeb.
    rewrite !orb_true_iff, !andb_true_iff, !Nat.leb_le, !Nat.ltb_lt. lia. }
  assert (HT : forall i, (i < 11 * Ns + 6 * Nd)%nat ->
    (i < 3 * k \/ 6 * Ns <= i < 11 * Ns + 3 * kd \/ 11 * Ns + 3 * Nd <= i < 11 * Ns + 3 * Nd + 3 * kd)%nat -> s i = true).
  { intros i Hi H. apply Hset; assumption. }
  assert (HF : forall i, (i < 11 * Ns + 6 * Nd)%nat ->
    ~ (i < 3 * k \/ 6 * Ns <= i < 11 * Ns + 3 * kd \/ 11 * Ns + 3 * Nd <= i < 11 * Ns + 3 * Nd + 3 * kd)%nat -> s i = false).
  { intros i Hi H. destruct (s i) eqn:E; [|reflexivity]. exfalso. apply H, Hset; assumption. }
  clear Hset Hs.
  unfold grand. rewrite !concat_app.
  rewrite (lexch_app s (concat a1 ++ concat a2)) by (rewrite !app_length; lia). rewrite app_length.
  f_equal.
  { apply (lexch_parts s 0 _ _ _ _ (k * 3) ((Ns - k) * 3)); try lia; intros i Hi; [apply HT|apply HF]; lia. }
  rewrite lexch_app by lia. f_equal.
  { apply lexch_false; [lia|]. intros i Hi. apply HF; lia. }
  rewrite lexch_app by lia. f_equal.
  { apply lexch_true; [lia|]. intros i Hi. apply HT; lia. }
  rewrite (lexch_app s (concat b1 ++ concat b2)) by (rewrite !app_length; lia). rewrite app_length.
  f_equal; (apply (lexch_parts s _ _ _ _ _ (kd * 3) ((Nd - kd) * 3)); try lia; intros i Hi; [apply HT|apply HF]; lia).
Qed.

Lemma union_set_comm3 a b c i : union_set (union_set a b) c i = union_set (union_set b a) c i.
Proof. unfold union_set. rewrite (orb_comm (a i)). reflexivity. Qed.

Lemma fixed_spheres_none Ns i : union_set (strain_set Ns) (fixed_spheres_set 0) i = strain_set Ns i.
Proof. unfold union_set, fixed_spheres_set, rangeb. simpl. apply orb_false_r. Qed.
Lemma fixed_dumbbells_none s Ns Nd i : union_set s (fixed_dumbbells_set 0 Ns Nd) i = s i.
Proof.
  unfold union_set, fixed_dumbbells_set, rangeb.
  replace (11 * Ns + 3 * 0)%nat with (11 * Ns)%nat by lia.
  replace (11 * Ns + 3 * Nd + 3 * 0)%nat with (11 * Ns + 3 * Nd)%nat by lia.
  replace (Nat.leb (11 * Ns) i && Nat.ltb i (11 * Ns))%bool with false.
  2:{ symmetry. apply andb_false_iff. destruct (Nat.leb_spec (11 * Ns) i); [right; apply Nat.ltb_ge; lia|left; reflexivity]. }
  replace (Nat.leb (11 * Ns + 3 * Nd) i && Nat.ltb i (11 * Ns + 3 * Nd))%bool with false.
  2:{ symmetry. apply andb_false_iff. destruct (Nat.leb_spec (11 * Ns + 3 * Nd) i); [right; apply Nat.ltb_ge; lia|left; reflexivity]. }
  rewrite !orb_false_r. reflexivity.
Qed.

Lemma np_solve_ok solve n A b : solve_ok solve n A -> length b = n ->
  exists v, np_solve solve n A b = Ok v /\ length v = n /\ linrel n A (lvec v) (lvec b).
Proof.
  intros Hs Hb. exists (solve n A b). unfold np_solve. rewrite Hb, Nat.eqb_refl.
  destruct (Hs b Hb). auto.
Qed.

Lemma split_shapes n k (FU : list (list R)) : (k <= n)%nat -> shaped n 3 FU ->
  lslice (map Some FU) 0 k = map Some (firstn k FU) /\ shaped k 3 (firstn k FU) /\
  lslice (map Some FU) k n = map Some (skipn k FU) /\ shaped (n - k) 3 (skipn k FU).
Proof.
  intros Hk HS. split; [|split; [apply (shaped_lo n); assumption|split; [|apply shaped_hi; assumption]]].
  - rewrite lslice_map_some. unfold lslice. rewrite Nat.sub_0_r. reflexivity.
  - rewrite lslice_map_some. unfold lslice. rewrite firstn_all2; [reflexivity|].
    rewrite skipn_length. destruct HS; lia.
Qed.

Section Forms.
Variable inv : nat -> mat -> mat.
Variable solve : nat -> mat -> list R -> list R.
Variables Ns Nd : nat.
Let N := (11 * Ns + 6 * Nd)%nat.

(** *** fts *)
Lemma output_fts_correct R0 (i : inputs) :
  length (i_Ua i) = Ns -> (Ns = 0%nat -> i_Ea i = []) ->
  solve_ok solve N R0 ->
  all_given Ns 3 (i_Fa i) -> all_given Ns 3 (i_Ta i) -> all_given33 Ns (i_Sa i) ->
  all_given Nd 3 (i_Fb i) -> all_given Nd 3 (i_DFb i) ->
  exists o, output_fts solve Ns Nd R0 i = Ok o /\
    keeps 0 Ns (i_Fa i) (o_Fa o) /\ keeps 0 Ns (i_Ta i) (o_Ta o) /\ keeps 0 Ns (i_Sa i) (o_Sa o) /\
    keeps 0 Nd (i_Fb i) (o_Fb o) /\ keeps 0 Nd (i_DFb i) (o_DFb o) /\
    resistance_relation Ns Nd R0 (o_Fa o) (o_Ta o) (o_Sa o) (o_Fb o) (o_DFb o)
                                 (o_Ua o) (o_Oa o) (o_Ea o) (o_Ub o) (o_HalfDUb o).
Proof.
  intros LUa HNs Hsolve HF HT HS HFb HDFb.
  destruct i as [Fa Ta Sa Fb DFb Ua Oa Ea Ub HDU]. cbn [i_Fa i_Ta i_Sa i_Fb i_DFb i_Ea i_Ua] in *.
  destruct (all_given_rows _ _ _ HF) as (F & -> & SF). destruct (all_given_rows _ _ _ HT) as (T & -> & ST).
  destruct (all_given33_rows _ _ HS) as (S & -> & LS & SS).
  destruct (all_given_rows _ _ _ HFb) as (FB & -> & SFB). destruct (all_given_rows _ _ _ HDFb) as (DFB & -> & SDFB).
  assert (Lb : length (grand F T S FB DFB) = N) by (apply grand_length; assumption).
  destruct (np_solve_ok solve N R0 _ Hsolve Lb) as (v & Ev & Lv & Hv).
  destruct (unpack_blocks Ns Nd v Lv) as (u & o & e & ub & hdu & Ed & Su & So & Se & Sub & Shdu & Evv).
  unfold output_fts. cbn [i_Fa i_Ta i_Sa i_Fb i_DFb i_Ea i_Ua]. rewrite LUa.
  rewrite force_vector_ok by assumption. cbn [bind]. fold N. rewrite Ev. cbn [bind]. rewrite Ed. cbn [bind].
  rewrite !given_map. cbn [bind].
  assert (EE : (if Nat.eqb Ns 0 then given ValueError Ea else Ok e) = Ok e).
  { destruct (Nat.eqb_spec Ns 0) as [E0|_]; [|reflexivity].
    rewrite (HNs E0). destruct Se as [Le _]. destruct e; [reflexivity|]. rewrite E0 in Le. discriminate Le. }
  rewrite EE. cbn [bind].
  eexists. split; [reflexivity|]. cbn [o_Fa o_Ta o_Sa o_Fb o_DFb o_Ua o_Oa o_Ea o_Ub o_HalfDUb].
  repeat (split; [apply keeps_all; first [apply SF|apply ST|exact LS|apply SFB|apply SDFB]|]).
  split; [exact Lb|]. rewrite <- Evv. split; [exact Lv|]. exact Hv.
Qed.

(** *** fte *)
Lemma output_fte_correct R0 (second : mat -> inputs) :
  (0 < Ns)%nat -> msym N R0 ->
  inv_ok inv (5 * Ns) (slice R0 (6 * Ns) (6 * Ns)) ->
  exists Rfte, fts_to_fte_matrix inv Ns Nd R0 = Ok Rfte /\
  let i := second Rfte in
  (solve_ok solve N Rfte ->
   all_given Ns 3 (i_Fa i) -> all_given Ns 3 (i_Ta i) -> all_given33 Ns (i_Ea i) ->
   all_given Nd 3 (i_Fb i) -> all_given Nd 3 (i_DFb i) ->
   exists o, output_fte inv solve Ns Nd R0 second = Ok o /\
     keeps 0 Ns (i_Fa i) (o_Fa o) /\ keeps 0 Ns (i_Ta i) (o_Ta o) /\ keeps 0 Ns (i_Ea i) (o_Ea o) /\
     keeps 0 Nd (i_Fb i) (o_Fb o) /\ keeps 0 Nd (i_DFb i) (o_DFb o) /\
     resistance_relation Ns Nd R0 (o_Fa o) (o_Ta o) (o_Sa o) (o_Fb o) (o_DFb o)
                                  (o_Ua o) (o_Oa o) (o_Ea o) (o_Ub o) (o_HalfDUb o)).
Proof.
  intros HNs Hsym Hinv.
  destruct (fts_to_fte_correct inv Ns Nd R0 HNs Hsym Hinv) as (Rfte & E1 & Hsp & _).
  exists Rfte. split; [exact E1|]. unfold output_fte. rewrite E1. cbn [bind]. cbv zeta.
  generalize (second Rfte) as i. clear second.
  intros i Hsolve HF HT HE HFb HDFb.
  destruct i as [Fa Ta Sa Fb DFb Ua Oa Ea Ub HDU]. cbn [i_Fa i_Ta i_Ea i_Fb i_DFb] in *.
  destruct (all_given_rows _ _ _ HF) as (F & -> & SF). destruct (all_given_rows _ _ _ HT) as (T & -> & ST).
  destruct (all_given33_rows _ _ HE) as (E & -> & LE & SE).
  destruct (all_given_rows _ _ _ HFb) as (FB & -> & SFB). destruct (all_given_rows _ _ _ HDFb) as (DFB & -> & SDFB).
  assert (Lb : length (grand F T E FB DFB) = N) by (apply grand_length; assumption).
  destruct (np_solve_ok solve N Rfte _ Hsolve Lb) as (v & Ev & Lv & Hv).
  destruct (unpack_blocks Ns Nd v Lv) as (u & o & e & ub & hdu & Ed & Su & So & Se & Sub & Shdu & Evv).
  rewrite force_vector_ok by assumption. cbn [bind]. fold N. rewrite Ev. cbn [bind]. rewrite Ed. cbn [bind].
  rewrite !given_map. cbn [bind].
  eexists. split; [reflexivity|]. cbn [o_Fa o_Ta o_Sa o_Fb o_DFb o_Ua o_Oa o_Ea o_Ub o_HalfDUb].
  repeat (split; [apply keeps_all; first [apply SF|apply ST|exact LE|apply SFB|apply SDFB]|]).
  split; [apply grand_length; try assumption; apply Se|]. split; [apply grand_length; try assumption; apply Se|].
  pose proof (exchange_solution N _ R0 Rfte v (grand F T E FB DFB) Hsp Lv Lb Hv) as H.
  rewrite Evv in H.
  assert (nils : shaped 0 3 []) by (split; [reflexivity|intros r []]).
  assert (Hset : forall j, (j < 11 * Ns + 6 * Nd)%nat -> strain_set Ns j =
     union_set (union_set (strain_set Ns) (fixed_spheres_set 0)) (fixed_dumbbells_set 0 Ns Nd) j).
  { intros j _. rewrite fixed_dumbbells_none, fixed_spheres_none. reflexivity. }
  pose proof (grand_exch (strain_set Ns) Ns Nd 0 0 [] u o e [] ub [] hdu [] F T E [] FB [] DFB) as G1.
  pose proof (grand_exch (strain_set Ns) Ns Nd 0 0 [] F T E [] FB [] DFB [] u o e [] ub [] hdu) as G2.
  simpl app in G1, G2. rewrite !Nat.sub_0_r in G1, G2.
  rewrite G1, G2 in H by (try assumption; try lia; apply Se). exact H.
Qed.

(** *** ufteu; ufte is the case of no fixed dumbbells but differs in code *)
Lemma output_ufte_correct nfix R0 Rfte Rufte (i : inputs) :
  (0 < Ns)%nat -> msym N R0 ->
  inv_ok inv (5 * Ns) (slice R0 (6 * Ns) (6 * Ns)) ->
  fts_to_fte_matrix inv Ns Nd R0 = Ok Rfte ->
  inv_ok inv (3 * nfix) (slice Rfte 0 0) ->
  fte_to_ufte_matrix inv nfix Ns Nd Rfte = Ok Rufte ->
  solve_ok solve N Rufte ->
  split_given Ns nfix (i_Ua i) (i_Fa i) -> rest_missing Ns nfix (i_Ua i) ->
  all_given Ns 3 (i_Ta i) -> all_given33 Ns (i_Ea i) ->
  all_given Nd 3 (i_Fb i) -> all_given Nd 3 (i_DFb i) ->
  exists o, output_ufte inv solve Ns Nd false R0 i = Ok o /\
    keeps 0 nfix (i_Ua i) (o_Ua o) /\ keeps nfix Ns (i_Fa i) (o_Fa o) /\
    keeps 0 Ns (i_Ta i) (o_Ta o) /\ keeps 0 Ns (i_Ea i) (o_Ea o) /\
    keeps 0 Nd (i_Fb i) (o_Fb o) /\ keeps 0 Nd (i_DFb i) (o_DFb o) /\
    resistance_relation Ns Nd R0 (o_Fa o) (o_Ta o) (o_Sa o) (o_Fb o) (o_DFb o)
                                 (o_Ua o) (o_Oa o) (o_Ea o) (o_Ub o) (o_HalfDUb o).
Proof.
  intros HNs Hsym Hinv E1 Hinv2 E2 Hsolve HU Hrest HT HE HFb HDFb.
  assert (Hk : (nfix <= Ns)%nat) by apply HU.
  destruct (chain_ufte inv nfix Ns Nd R0 HNs Hk Hsym Hinv) as (R1 & E1' & C).
  rewrite E1 in E1'. injection E1' as <-. destruct (C Hinv2) as (R2 & E2' & Hsp & _).
  rewrite E2 in E2'. injection E2' as <-. clear C.
  destruct i as [Fa Ta Sa Fb DFb Ua Oa Ea Ub HDU]. cbn [i_Fa i_Ta i_Ea i_Fb i_DFb i_Ua] in *.
  pose proof (nfix_count _ _ _ _ HU Hrest) as Hcount.
  destruct (split_given_rows _ _ _ _ HU) as (u1 & f2 & EU & SU & EF & SF2).
  destruct (all_given_rows _ _ _ HT) as (T & -> & ST).
  destruct (all_given33_rows _ _ HE) as (E & -> & LE & SE).
  destruct (all_given_rows _ _ _ HFb) as (FB & -> & SFB). destruct (all_given_rows _ _ _ HDFb) as (DFB & -> & SDFB).
  assert (SUF : shaped Ns 3 (u1 ++ f2)).
  { replace Ns with (nfix + (Ns - nfix))%nat by lia. apply shaped_app; assumption. }
  assert (Lb : length (grand (u1 ++ f2) T E FB DFB) = N) by (apply grand_length; assumption).
  destruct (np_solve_ok solve N Rufte _ Hsolve Lb) as (v & Ev & Lv & Hv).
  destruct (unpack_blocks Ns Nd v Lv) as (FU & o & e & ub & hdu & Ed & SFU & So & Se & Sub & Shdu & Evv).
  destruct (split_shapes Ns nfix FU Hk SFU) as (EFU1 & SFU1 & EFU2 & SFU2).
  destruct HU as (_ & LUa & LFa & _).
  unfold output_ufte. cbn [i_Fa i_Ta i_Ea i_Fb i_DFb i_Ua]. cbv zeta. rewrite LUa, Hcount, EU, EF, <- map_app.
  rewrite force_vector_ok by assumption. cbn [bind]. rewrite E1. cbn [bind]. rewrite E2. cbn [bind].
  fold N. rewrite Ev. cbn [bind]. rewrite Ed. cbn [bind].
  rewrite !split_out_eq by (rewrite ?map_length; try assumption; apply SFU).
  rewrite EU, EF, EFU1, EFU2, <- !map_app, !given_map. cbn [bind].
  eexists. split; [reflexivity|]. cbn [o_Fa o_Ta o_Sa o_Fb o_DFb o_Ua o_Oa o_Ea o_Ub o_HalfDUb].
  split; [apply (keeps_lo Ns); try assumption; apply SU|].
  split; [apply keeps_hi; try assumption; [apply SFU1|apply SF2]|].
  repeat (split; [apply keeps_all; first [apply ST|exact LE|apply SFB|apply SDFB]|]).
  assert (S3 : shaped Ns 3 (firstn nfix FU ++ f2)).
  { replace Ns with (nfix + (Ns - nfix))%nat by lia. apply shaped_app; assumption. }
  assert (S4 : shaped Ns 3 (u1 ++ skipn nfix FU)).
  { replace Ns with (nfix + (Ns - nfix))%nat by lia. apply shaped_app; assumption. }
  split; [apply grand_length; try assumption; apply Se|]. split; [apply grand_length; try assumption; apply Se|].
  pose proof (exchange_solution N _ R0 Rufte v _ Hsp Lv Lb Hv) as H.
  rewrite Evv in H.
  assert (nils : shaped 0 3 []) by (split; [reflexivity|intros r []]).
  set (ss := union_set (strain_set Ns) (fixed_spheres_set nfix)) in *.
  assert (Hset : forall j, (j < 11 * Ns + 6 * Nd)%nat -> ss j =
     union_set (union_set (strain_set Ns) (fixed_spheres_set nfix)) (fixed_dumbbells_set 0 Ns Nd) j).
  { intros j _. rewrite fixed_dumbbells_none. reflexivity. }
  pose proof (grand_exch ss Ns Nd nfix 0 (firstn nfix FU) (skipn nfix FU) o e [] ub [] hdu u1 f2 T E [] FB [] DFB) as G1.
  pose proof (grand_exch ss Ns Nd nfix 0 u1 f2 T E [] FB [] DFB (firstn nfix FU) (skipn nfix FU) o e [] ub [] hdu) as G2.
  simpl app in G1, G2. rewrite !Nat.sub_0_r in G1, G2. rewrite firstn_skipn in G1, G2.
  rewrite G1, G2 in H by (try assumption; try lia; apply Se). exact H.
Qed.

Lemma output_ufteu_correct nfix nfixd R0 Rfte Rufte (i : inputs) :
  (0 < Ns)%nat -> msym N R0 ->
  inv_ok inv (5 * Ns) (slice R0 (6 * Ns) (6 * Ns)) ->
  fts_to_fte_matrix inv Ns Nd R0 = Ok Rfte ->
  inv_ok inv (3 * nfix) (slice Rfte 0 0) ->
  fte_to_ufte_matrix inv nfix Ns Nd Rfte = Ok Rufte ->
  inv_ok inv (3 * nfixd) (slice Rufte (11 * Ns) (11 * Ns)) ->
  inv_ok inv (3 * nfixd)
    (slice (ufte_to_ufteu_step1 inv nfixd nfix Ns Nd Rufte) (11 * Ns + 3 * Nd) (11 * Ns + 3 * Nd)) ->
  solve_ok solve N (ufte_to_ufteu_matrix inv nfixd nfix Ns Nd Rufte) ->
  split_given Ns nfix (i_Ua i) (i_Fa i) -> rest_missing Ns nfix (i_Ua i) ->
  all_given Ns 3 (i_Ta i) -> all_given33 Ns (i_Ea i) ->
  split_given Nd nfixd (i_Ub i) (i_Fb i) -> rest_missing Nd nfixd (i_Ub i) ->
  split_given Nd nfixd (i_HalfDUb i) (i_DFb i) ->
  exists o, output_ufteu inv solve Ns Nd R0 i = Ok o /\
    keeps 0 nfix (i_Ua i) (o_Ua o) /\ keeps nfix Ns (i_Fa i) (o_Fa o) /\
    keeps 0 Ns (i_Ta i) (o_Ta o) /\ keeps 0 Ns (i_Ea i) (o_Ea o) /\
    keeps 0 nfixd (i_Ub i) (o_Ub o) /\ keeps nfixd Nd (i_Fb i) (o_Fb o) /\
    keeps 0 nfixd (i_HalfDUb i) (o_HalfDUb o) /\ keeps nfixd Nd (i_DFb i) (o_DFb o) /\
    resistance_relation Ns Nd R0 (o_Fa o) (o_Ta o) (o_Sa o) (o_Fb o) (o_DFb o)
                                 (o_Ua o) (o_Oa o) (o_Ea o) (o_Ub o) (o_HalfDUb o).
Proof.
  intros HNs Hsym Hinv E1 Hinv2 E2 Hinv3 Hinv4 Hsolve HU Hrest HT HE HUb Hrestb HD.
  assert (Hk : (nfix <= Ns)%nat) by apply HU. assert (Hkd : (nfixd <= Nd)%nat) by apply HUb.
  pose proof (chain_ufteu inv nfixd nfix Ns Nd R0 Rfte Rufte HNs Hk Hkd Hsym Hinv E1 Hinv2 E2 Hinv3 Hinv4) as Hsp.
  destruct i as [Fa Ta Sa Fb DFb Ua Oa Ea Ub HDU]. cbn [i_Fa i_Ta i_Ea i_Fb i_DFb i_Ua i_Ub i_HalfDUb] in *.
  pose proof (nfix_count _ _ _ _ HU Hrest) as Hcount. pose proof (nfix_count _ _ _ _ HUb Hrestb) as Hcountb.
  destruct (split_given_rows _ _ _ _ HU) as (u1 & f2 & EU & SU & EF & SF2).
  destruct (split_given_rows _ _ _ _ HUb) as (ub1 & fb2 & EUb & SUb & EFb & SFb2).
  destruct (split_given_rows _ _ _ _ HD) as (hd1 & df2 & EHD & SHD & EDF & SDF2).
  destruct (all_given_rows _ _ _ HT) as (T & -> & ST).
  destruct (all_given33_rows _ _ HE) as (E & -> & LE & SE).
  assert (Jo : forall n k a b, (k <= n)%nat -> shaped k 3 a -> shaped (n - k) 3 b -> shaped n 3 (a ++ b)).
  { intros n k a b Hkn Ha Hb. replace n with (k + (n - k))%nat by lia. apply shaped_app; assumption. }
  assert (Lb : length (grand (u1 ++ f2) T E (ub1 ++ fb2) (hd1 ++ df2)) = N).
  { apply grand_length; try assumption; eapply Jo; eassumption. }
  destruct (np_solve_ok solve N _ _ Hsolve Lb) as (v & Ev & Lv & Hv).
  destruct (unpack_blocks Ns Nd v Lv) as (FU & o & e & FUb & DFU & Ed & SFU & So & Se & SFUb & SDFU & Evv).
  destruct (split_shapes Ns nfix FU Hk SFU) as (EFU1 & SFU1 & EFU2 & SFU2).
  destruct (split_shapes Nd nfixd FUb Hkd SFUb) as (EFUb1 & SFUb1 & EFUb2 & SFUb2).
  destruct (split_shapes Nd nfixd DFU Hkd SDFU) as (EDFU1 & SDFU1 & EDFU2 & SDFU2).
  destruct HU as (_ & LUa & LFa & _). destruct HUb as (_ & LUb & LFb & _). destruct HD as (_ & LHD & LDF & _).
  unfold output_ufteu. cbn [i_Fa i_Ta i_Ea i_Fb i_DFb i_Ua i_Ub i_HalfDUb]. cbv zeta.
  rewrite LUa, LUb, Hcount, Hcountb, EU, EF, EUb, EFb, EHD, EDF, <- !map_app.
  rewrite force_vector_ok by (try assumption; eapply Jo; eassumption).
  cbn [bind]. rewrite E1. cbn [bind]. rewrite E2. cbn [bind].
  fold N. rewrite Ev. cbn [bind]. rewrite Ed. cbn [bind].
  rewrite !split_out_eq by (rewrite ?map_length; try assumption; first [apply SFU|apply SFUb|apply SDFU]).
  rewrite EU, EF, EUb, EFb, EHD, EDF, EFU1, EFU2, EFUb1, EFUb2, EDFU1, EDFU2, <- !map_app, !given_map. cbn [bind].
  eexists. split; [reflexivity|]. cbn [o_Fa o_Ta o_Sa o_Fb o_DFb o_Ua o_Oa o_Ea o_Ub o_HalfDUb].
  split; [apply (keeps_lo Ns); try assumption; apply SU|].
  split; [apply keeps_hi; try assumption; [apply SFU1|apply SF2]|].
  split; [apply keeps_all, ST|]. split; [apply keeps_all, LE|].
  split; [apply (keeps_lo Nd); try assumption; apply SUb|].
  split; [apply keeps_hi; try assumption; [apply SFUb1|apply SFb2]|].
  split; [apply (keeps_lo Nd); try assumption; apply SHD|].
  split; [apply keeps_hi; try assumption; [apply SDFU1|apply SDF2]|].
  split; [apply grand_length; try assumption; first [apply Se|eapply Jo; eassumption]|].
  split; [apply grand_length; try assumption; first [eapply Jo; eassumption|apply LE]|].
  pose proof (exchange_solution N _ R0 _ v _ Hsp Lv Lb Hv) as H.
  rewrite Evv in H.
  set (ss := union_set (union_set (strain_set Ns) (fixed_spheres_set nfix)) (fixed_dumbbells_set nfixd Ns Nd)) in *.
  pose proof (grand_exch ss Ns Nd nfix nfixd (firstn nfix FU) (skipn nfix FU) o e
     (firstn nfixd FUb) (skipn nfixd FUb) (firstn nfixd DFU) (skipn nfixd DFU) u1 f2 T E ub1 fb2 hd1 df2) as G1.
  pose proof (grand_exch ss Ns Nd nfix nfixd u1 f2 T E ub1 fb2 hd1 df2 (firstn nfix FU) (skipn nfix FU) o e
     (firstn nfixd FUb) (skipn nfixd FUb) (firstn nfixd DFU) (skipn nfixd DFU)) as G2.
  rewrite !firstn_skipn in G1, G2.
  rewrite G1, G2 in H by (try assumption; try reflexivity; apply Se). exact H.
Qed.
End Forms.

(** *** duf: dumbbells only *)
Lemma output_duf_correct inv solve Nd nfixd R0 (i : inputs) :
  let N := (6 * Nd)%nat in
  msym N R0 ->
  inv_ok inv (3 * nfixd) (slice R0 0 0) ->
  inv_ok inv (3 * nfixd) (slice (fts_to_duf_step1 inv nfixd Nd R0) (3 * Nd) (3 * Nd)) ->
  solve_ok solve N (fts_to_duf_matrix inv nfixd Nd R0) ->
  all_given 0 3 (i_Fa i) -> all_given 0 3 (i_Ta i) -> all_given33 0 (i_Ea i) ->
  split_given Nd nfixd (i_Ub i) (i_Fb i) -> rest_missing Nd nfixd (i_Ub i) ->
  split_given Nd nfixd (i_HalfDUb i) (i_DFb i) ->
  exists o, output_duf inv solve 0 Nd R0 i = Ok o /\
    keeps 0 nfixd (i_Ub i) (o_Ub o) /\ keeps nfixd Nd (i_Fb i) (o_Fb o) /\
    keeps 0 nfixd (i_HalfDUb i) (o_HalfDUb o) /\ keeps nfixd Nd (i_DFb i) (o_DFb o) /\
    resistance_relation 0 Nd R0 (o_Fa o) (o_Ta o) (o_Sa o) (o_Fb o) (o_DFb o)
                                (o_Ua o) (o_Oa o) (o_Ea o) (o_Ub o) (o_HalfDUb o).
Proof.
  intros N Hsym Hinv3 Hinv4 Hsolve HF HT HE HUb Hrestb HD.
  assert (Hkd : (nfixd <= Nd)%nat) by apply HUb.
  pose proof (fts_to_duf_correct inv nfixd Nd Hkd R0 Hsym Hinv3 Hinv4) as Hsp.
  destruct i as [Fa Ta Sa Fb DFb Ua Oa Ea Ub HDU]. cbn [i_Fa i_Ta i_Ea i_Fb i_DFb i_Ua i_Ub i_HalfDUb] in *.
  pose proof (nfix_count _ _ _ _ HUb Hrestb) as Hcountb.
  destruct (split_given_rows _ _ _ _ HUb) as (ub1 & fb2 & EUb & SUb & EFb & SFb2).
  destruct (split_given_rows _ _ _ _ HD) as (hd1 & df2 & EHD & SHD & EDF & SDF2).
  destruct (all_given_rows _ _ _ HF) as (F & -> & SF).
  destruct (all_given_rows _ _ _ HT) as (T & -> & ST).
  destruct (all_given33_rows _ _ HE) as (E & -> & LE & SE).
  destruct F; [|destruct SF; discriminate]. destruct T; [|destruct ST; discriminate]. destruct E; [|discriminate].
  assert (Jo : forall n k a b, (k <= n)%nat -> shaped k 3 a -> shaped (n - k) 3 b -> shaped n 3 (a ++ b)).
  { intros n k a b Hkn Ha Hb. replace n with (k + (n - k))%nat by lia. apply shaped_app; assumption. }
  assert (nils : shaped 0 3 []) by (split; [reflexivity|intros r []]).
  assert (Lb : length (grand [] [] [] (ub1 ++ fb2) (hd1 ++ df2)) = N).
  { apply (grand_length 0 Nd); try assumption; try reflexivity; eapply Jo; eassumption. }
  destruct (np_solve_ok solve N _ _ Hsolve Lb) as (v & Ev & Lv & Hv).
  destruct (unpack_blocks 0 Nd v ltac:(lia)) as (FU & o & e & FUb & DFU & Ed & SFU & So & Se & SFUb & SDFU & Evv).
  destruct FU; [|destruct SFU; discriminate]. destruct o; [|destruct So; discriminate].
  destruct e; [|destruct Se; discriminate].
  destruct (split_shapes Nd nfixd FUb Hkd SFUb) as (EFUb1 & SFUb1 & EFUb2 & SFUb2).
  destruct (split_shapes Nd nfixd DFU Hkd SDFU) as (EDFU1 & SDFU1 & EDFU2 & SDFU2).
  destruct HUb as (_ & LUb & LFb & _). destruct HD as (_ & LHD & LDF & _).
  unfold output_duf. cbn [i_Fa i_Ta i_Ea i_Fb i_DFb i_Ua i_Ub i_HalfDUb]. cbv zeta.
  rewrite LUb, Hcountb, EUb, EFb, EHD, EDF, <- !map_app.
  rewrite force_vector_ok by (try assumption; try reflexivity; eapply Jo; eassumption).
  cbn [bind]. change (11 * 0 + 6 * Nd)%nat with N. rewrite Ev. cbn [bind]. rewrite Ed. cbn [bind].
  rewrite !split_out_eq by (rewrite ?map_length; try assumption; first [apply SFUb|apply SDFU]).
  rewrite EUb, EFb, EHD, EDF, EFUb1, EFUb2, EDFU1, EDFU2, <- !map_app, !given_map. cbn [bind].
  eexists. split; [reflexivity|]. cbn [o_Fa o_Ta o_Sa o_Fb o_DFb o_Ua o_Oa o_Ea o_Ub o_HalfDUb].
  split; [apply (keeps_lo Nd); try assumption; apply SUb|].
  split; [apply keeps_hi; try assumption; [apply SFUb1|apply SFb2]|].
  split; [apply (keeps_lo Nd); try assumption; apply SHD|].
  split; [apply keeps_hi; try assumption; [apply SDFU1|apply SDF2]|].
  split; [apply (grand_length 0 Nd); try assumption; try reflexivity; eapply Jo; eassumption|].
  split; [apply (grand_length 0 Nd); try assumption; try reflexivity; eapply Jo; eassumption|].
  pose proof (exchange_solution N _ R0 _ v _ Hsp Lv Lb Hv) as H.
  rewrite Evv in H.
  set (ss := fixed_dumbbells_set nfixd 0 Nd) in *.
  assert (Hset : forall j, (j < 11 * 0 + 6 * Nd)%nat -> ss j =
     union_set (union_set (strain_set 0) (fixed_spheres_set 0)) (fixed_dumbbells_set nfixd 0 Nd) j).
  { intros j _. unfold union_set, strain_set, fixed_spheres_set, rangeb. simpl. reflexivity. }
  pose proof (grand_exch ss 0 Nd 0 nfixd [] [] [] []
     (firstn nfixd FUb) (skipn nfixd FUb) (firstn nfixd DFU) (skipn nfixd DFU) [] [] [] [] ub1 fb2 hd1 df2) as G1.
  pose proof (grand_exch ss 0 Nd 0 nfixd [] [] [] [] ub1 fb2 hd1 df2 [] [] [] []
     (firstn nfixd FUb) (skipn nfixd FUb) (firstn nfixd DFU) (skipn nfixd DFU)) as G2.
  simpl app in G1, G2. rewrite !firstn_skipn in G1, G2.
  rewrite G1, G2 in H by (try assumption; try reflexivity; lia). exact H.
Qed.
