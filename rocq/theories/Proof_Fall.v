(** Two equal spheres at a tabulated separation, pulled alike. *)
From Coq Require Import Reals List Arith ZArith Bool Lia Lra.
From Verif Require Import Base Py Model_Pack Model_Mob Model_Layout Model_Minf Model_Grand Model_Close Model_R2B Model_GrandP Model_Step Model_Subtract
  Model_Output Model_Frame Model_Inputs Model_Sim
  Spec_Pack Spec_Convert Spec_Output Spec_Layout Spec_Minf Spec_Rotate Spec_Close Spec_R2B Spec_Step Spec_Frame Spec_Posdef Spec_Run Spec_Run4
  Spec_Turn Spec_Turn4 Spec_Renumber Spec_Work Spec_Pair Spec_Two Spec_Scalars Spec_Subtract Spec_Exact Spec_Fall
  Proof_Layout Proof_GrandP Proof_Run Proof_Close Proof_R2B Proof_R2B3 Proof_R2B4 Proof_Minf3 Proof_Rotate3 Proof_Posdef Proof_Turn1 Proof_Turn2 Proof_Work2 Proof_Pair Proof_Pair2 Proof_Two5
  Proof_Linear Proof_Subtract1 Proof_Subtract2 Proof_Subtract6 Proof_Exact1 Proof_Exact2 Proof_Exact3.
Import ListNotations.
Local Open Scope R_scope.

(** ** Only the sizes of the beads there are matter *)
Section Sizes.
Variables (a a' : nat -> R) (n : nat).
Hypothesis HA : forall b, (b < n)%nat -> a b = a' b.

Lemma close_size x cf : close_particles_free x a n cf = close_particles_free x a' n cf.
Proof.
  unfold close_particles_free. cbv zeta.
  set (L := flat_map (fun i => map (fun j => (i, j)) (seq 0 n)) (seq 0 n)).
  assert (HL : forall f, In f L -> (fst f < n)%nat /\ (snd f < n)%nat).
  { intros f Hf. apply in_flat_map in Hf. destruct Hf as (i & Hi & Hf). apply in_map_iff in Hf. destruct Hf as (j & <- & Hj).
    apply in_seq in Hi. apply in_seq in Hj. cbn [fst snd]. lia. }
  rewrite (filter_ext_in (fun f => Rltb (norm (vsub (x (fst f)) (x (snd f))) / (1 / 2 * (a (snd f) + a (fst f)))) (2 * cf))
                         (fun f => Rltb (norm (vsub (x (fst f)) (x (snd f))) / (1 / 2 * (a' (snd f) + a' (fst f)))) (2 * cf)) L).
  2: { intros f Hf. destruct (HL f Hf) as [H1 H2]. rewrite (HA _ H1), (HA _ H2). reflexivity. }
  apply map_ext_in. intros f Hf. apply filter_In in Hf. destruct Hf as [Hf _]. apply filter_In in Hf. destruct Hf as [Hf _].
  destruct (HL f Hf) as [H1 H2]. rewrite (HA _ H1), (HA _ H2). reflexivity.
Qed.

Variables (sc : nat -> nat -> R -> nat -> R) (table : list R) (bb : bool) (Ns Nd : nat) (pairs : list cpair).
Hypothesis HP : forall t, In t pairs -> (cp1 t < n)%nat /\ (cp2 t < n)%nat.

Lemma nearby_lt u m : In m (nearby pairs u) -> (fst (fst m) < n)%nat.
Proof.
  intros H. apply in_flat_map in H. destruct H as (t & Ht & H). destruct (HP t Ht) as [H1 H2]. apply in_app_or in H.
  destruct H as [H|H]; (destruct (_ && _)%bool in H; [|destruct H]); destruct H as [<-|[]]; assumption.
Qed.
Lemma near_size u (K : R -> vec -> R -> mat) : near_sum (nearby pairs u) (fun q => K (a q)) = near_sum (nearby pairs u) (fun q => K (a' q)).
Proof. unfold near_sum. apply fold_left_ext_in. intros S m Hm. rewrite (HA _ (nearby_lt u m Hm)). reflexivity. Qed.
Lemma write_size M t : In t pairs -> r2b_write sc table bb a Ns Nd pairs M t = r2b_write sc table bb a' Ns Nd pairs M t.
Proof.
  intros Ht. destruct (HP t Ht) as [H1 H2]. unfold r2b_write. cbv zeta. rewrite (HA _ H1), (HA _ H2).
  pose proof (near_size (cp1 t) (fun w d s i j => Af sc 0 d (lam_ix table (w / a' (cp1 t))) s i j * (6 * PI * a' (cp1 t)))) as E1.
  pose proof (near_size (cp1 t) (fun w d s i j => Bf sc 0 d (lam_ix table (w / a' (cp1 t))) s j i * (4 * PI * a' (cp1 t) ^ 2))) as E2.
  pose proof (near_size (cp1 t) (fun w d s i j => Cf sc 0 d (lam_ix table (w / a' (cp1 t))) s i j * (8 * PI * a' (cp1 t) ^ 3))) as E3.
  pose proof (near_size (cp1 t) (fun w d s i j => con_Gf_row sc 0 d (lam_ix table (w / a' (cp1 t))) s i j * (4 * PI * a' (cp1 t) ^ 2))) as E4.
  pose proof (near_size (cp1 t) (fun w d s i j => con_Hf_row sc 0 d (lam_ix table (w / a' (cp1 t))) s i j * (8 * PI * a' (cp1 t) ^ 3))) as E5.
  pose proof (near_size (cp1 t) (fun w d s i j => con_Mf sc 0 d (lam_ix table (w / a' (cp1 t))) s i j * (20 / 3 * PI * a' (cp1 t) ^ 3))) as E6.
  cbv beta in E1, E2, E3, E4, E5, E6. rewrite E1, E2, E3, E4, E5, E6. reflexivity.
Qed.
Lemma lookups_size t : In t pairs -> lookups_ok table a pairs t = lookups_ok table a' pairs t.
Proof.
  intros Ht. destruct (HP t Ht) as [H1 _]. unfold lookups_ok. f_equal. destruct (Nat.eqb _ _); [|reflexivity].
  assert (K : forall l, (forall m, In m l -> (fst (fst m) < n)%nat) ->
    forallb (fun m : nat * vec * R => found table (a (fst (fst m)) / a (cp1 t))) l = forallb (fun m => found table (a' (fst (fst m)) / a' (cp1 t))) l).
  { induction l as [|m l IH]; intros H; [reflexivity|]. cbn [forallb]. rewrite IH by (intros m' Hm'; apply H; right; exact Hm').
    rewrite (HA _ (H m (or_introl eq_refl))), (HA _ H1). reflexivity. }
  apply K. apply nearby_lt.
Qed.
Lemma loop_size : generate_R2Bexact_loop sc table bb a Ns Nd pairs = generate_R2Bexact_loop sc table bb a' Ns Nd pairs.
Proof.
  unfold generate_R2Bexact_loop.
  rewrite (fold_left_ext_in (r2b_step sc table bb a Ns Nd pairs) (r2b_step sc table bb a' Ns Nd pairs)); [reflexivity|].
  intros [M|] t Ht; [|reflexivity]. unfold r2b_step. rewrite (lookups_size t Ht), (write_size M t Ht). reflexivity.
Qed.
End Sizes.

Lemma near_two sc table bb p a cf mu : c_ssizes p 0%nat = a -> c_ssizes p 1%nat = a -> 
  generate_R2Bexact_free sc table bb (posdata_of 2 0 p) cf mu = generate_R2Bexact_free sc table bb (two_spheres (c_spos p 0%nat) (c_spos p 1%nat) a a) cf mu.
Proof.
  intros S0 S1. set (P := posdata_of 2 0 p). set (T := two_spheres _ _ _ _). unfold generate_R2Bexact_free.
  change (num_spheres P + 2 * num_dumbbells P)%nat with 2%nat. change (num_spheres T + 2 * num_dumbbells T)%nat with 2%nat.
  change (num_spheres T) with (num_spheres P). change (num_dumbbells T) with (num_dumbbells P).
  assert (HA : forall b, (b < 2)%nat -> bead_sizes P b = bead_sizes T b) by (intros [|[|b]] Hb; [exact S0|exact S1|lia]).
  rewrite (close_ext (bead_positions P) (bead_positions T)) by (intros [|[|b]] Hb; [reflexivity|reflexivity|lia]).
  rewrite (close_size (bead_sizes P) (bead_sizes T) 2 HA).
  unfold generate_R2Bexact. rewrite (loop_size (bead_sizes P) (bead_sizes T) 2 HA); [reflexivity|].
  intros t Ht. apply free_in in Ht. destruct Ht as (Hb & _). lia.
Qed.

(** Only the first three components of the direction enter. *)
Lemma law_dir X d d' U O F T E S : (forall l, (l < 3)%nat -> d l = d' l) -> resistance_law X d U O F T E S -> resistance_law X d' U O F T E S.
Proof.
  intros H (A & B & C). split; [|split].
  - intros p i Hp Hi. rewrite (A p i Hp Hi). apply rsum_ext. intros q Hq.
    f_equal; [f_equal|]; apply rsum_ext; intros j Hj; [| |apply rsum_ext; intros k Hk]; f_equal; unfold tA, tB, tG; cbn [rsum]; rewrite !H by lia; reflexivity.
  - intros p i Hp Hi. rewrite (B p i Hp Hi). apply rsum_ext. intros q Hq.
    f_equal; [f_equal|]; apply rsum_ext; intros j Hj; [| |apply rsum_ext; intros k Hk]; f_equal; unfold tB, tC, tH; cbn [rsum]; rewrite !H by lia; reflexivity.
  - intros p i j Hp Hi Hj. rewrite (C p i j Hp Hi Hj). apply rsum_ext. intros q Hq.
    f_equal; [f_equal|]; apply rsum_ext; intros k Hk; [| |apply rsum_ext; intros l Hl]; f_equal; unfold tG, tH, tM; cbn [rsum]; rewrite !H by lia; reflexivity.
Qed.

(** ** The grand resistance matrix is that of the table *)
Section Table.
Variables (x X : R -> R -> R -> nat -> R) (lams srange : list R) (raw : nat -> nat -> nat -> nat -> R).
Hypothesis HX : two_sphere_scalars x X.
Hypothesis HT : tabulates X lams srange raw.
Hypothesis Hinc : increasing srange.
Hypothesis Hdis : distinguishable lams.
Hypothesis Hpos : forall l, In l lams -> 0 < l.
Hypothesis Hapart : forall t, In t srange -> 2 < t.
Hypothesis One : In 1 lams.
Variables (inv : nat -> mat -> mat) (bb : bool).
Hypothesis Hinv : inverts_posdef inv.
Variable p0 : config.
Variables cf mu : R.
Let a := c_ssizes p0 0%nat.
Let r := norm (vsub (c_spos p0 1%nat) (c_spos p0 0%nat)).
Let sc := XYZ (subtract_R2Binfinity inv bb lams srange raw) srange.
Hypothesis Hsz : c_ssizes p0 0%nat = c_ssizes p0 1%nat.
Hypothesis Ha : 0 < a.
Hypothesis Hmu : 0 < mu.
Hypothesis Hclose : r / a < 2 * cf.
Hypothesis Is : In (r / a) srange.
Hypothesis E8 : / 10 ^ 8 < r.
Notation paired := (paired (c_ssizes p0) (c_dsizes p0) (vsub (c_spos p0 1%nat) (c_spos p0 0%nat))).
Notation pair_at q := (two_spheres (c_spos q 0%nat) (c_spos q 1%nat) a a).

Lemma paired_norm q : paired q -> norm (vsub (c_spos q 1%nat) (c_spos q 0%nat)) = r.
Proof. intros (_ & _ & S). unfold r, norm. f_equal. unfold vsub in *. rewrite !S by lia. reflexivity. Qed.
Lemma paired_dir q l : paired q -> (l < 3)%nat -> vsub (c_spos q 1%nat) (c_spos q 0%nat) l = vsub (c_spos p0 1%nat) (c_spos p0 0%nat) l.
Proof. intros (_ & _ & S) Hl. exact (S l Hl). Qed.
Lemma paired_a q : paired q -> c_ssizes q 0%nat = a /\ c_ssizes q 1%nat = a.
Proof. intros (Z & _). rewrite Z. split; [reflexivity|symmetry; exact Hsz]. Qed.
Lemma mean_ratio : 2 * r / (a + a) = r / a.
Proof. field. lra. Qed.
Lemma own_ratio : a / a = 1.
Proof. field. lra. Qed.
Lemma pair_apart : a + a < r.
Proof.
  pose proof (Hapart _ Is) as H. apply Rmult_lt_compat_r with (r := a) in H; [|exact Ha]. unfold Rdiv in H. rewrite Rmult_assoc, Rinv_l in H by lra. lra.
Qed.
Lemma ratio_tiny : / 10 ^ 8 < r / a.
Proof. pose proof (Hapart _ Is). apply Rlt_trans with 1; [|lra]. rewrite <- Rinv_1. apply Rinv_lt_contravar; simpl; lra. Qed.

Lemma far_same p q i j : paired p -> paired q -> (i < 22)%nat -> (j < 22)%nat ->
  generate_Minfinity bb (posdata_of 2 0 p) mu i j = generate_Minfinity bb (pair_at q) mu i j.
Proof.
  intros P Q Hi Hj. rewrite <- (gen_translate bb (posdata_of 2 0 p) mu (vsub (c_spos q 0%nat) (c_spos p 0%nat))).
  destruct (paired_a p P) as [A0 A1]. apply two_ext; try reflexivity; try assumption.
  - intros [|[|b]] Hb; [| |lia]; cbn [translate posdata_of sphere_sizes two_spheres]; rewrite ?A0, ?A1; split; (exact Ha || reflexivity).
  - intros b t Hb Ht. pose proof (paired_dir p t P Ht) as D. pose proof (paired_dir q t Q Ht) as D'. unfold vsub in D, D'.
    destruct b as [|[|b]]; [| |lia]; cbn [translate posdata_of sphere_positions two_spheres]; unfold vadd, vsub; lra.
  - cbn [translate posdata_of sphere_positions]. replace (norm _) with r; [exact E8|]. rewrite <- (paired_norm p P). unfold norm, vsub, vadd. f_equal. ring.
Qed.

Lemma grand_table g L N0 : g_use_drag g = false -> far_pair bb g p0 mu L -> near_pair sc lams bb false cf p0 mu N0 ->
  exists q G, paired q /\ generate_R2Bexact_free (XYZ raw srange) lams bb (pair_at q) cf mu = Some G /\
    forall i j, (i < 22)%nat -> (j < 22)%nat -> G i j = madd L N0 i j.
Proof.
  intros Hd FP (q & Q & _ & EN). unfold far_pair in FP. rewrite Hd in FP. destruct FP as (p & P & _ & IV).
  pose proof (Hapart _ Is) as H2. destruct (paired_a q Q) as [A0 A1].
  assert (One' : In (a / a) lams) by (rewrite own_ratio; exact One).
  destruct (pair_some (XYZ raw srange) lams bb (c_spos q 0%nat) (c_spos q 1%nat) a a cf mu ltac:(lra) Ha Ha One One' One') as [G HG].
  exists q, G. split; [exact Q|]. split; [exact HG|]. rewrite (near_two sc lams bb q a cf mu A0 A1) in EN.
  assert (Is' : In (2 * norm (vsub (c_spos q 1%nat) (c_spos q 0%nat)) / (a + a)) srange) by (rewrite (paired_norm q Q), mean_ratio; exact Is).
  assert (E8' : / 10 ^ 8 < norm (vsub (c_spos q 1%nat) (c_spos q 0%nat))) by (rewrite (paired_norm q Q); exact E8).
  pose proof (far_inverted inv bb Hinv (c_spos q 0%nat) (c_spos q 1%nat) a a mu Ha Ha Hmu E8') as IQ.
  assert (EL : forall i j, (i < 22)%nat -> (j < 22)%nat -> inv 22%nat (generate_Minfinity bb (pair_at q) mu) i j = L i j).
  { apply (is_inv_same 22 (generate_Minfinity bb (posdata_of 2 0 p) mu) (generate_Minfinity bb (pair_at q) mu)); [|exact IV|exact IQ].
    intros i j Hi Hj. apply far_same; assumption. }
  intros i j Hi Hj. unfold madd. rewrite <- (EL i j Hi Hj), Rplus_comm. symmetry.
  refine (isolated inv bb lams srange raw (c_spos q 0%nat) (c_spos q 1%nat) a a cf mu Hinc Hdis _ Ha Ha _ E8' _ _ Is' One' One' _ IQ G N0 HG EN i j Hi Hj).
  - lra.
  - rewrite (paired_norm q Q), mean_ratio. exact Hclose.
  - rewrite (paired_norm q Q). exact ratio_tiny.
  - rewrite (paired_norm q Q). exact ratio_tiny.
  - intros lam t. exact (table_inverted lams srange Hpos Hapart inv bb Hinv lam t).
Qed.

Lemma table_posdef q G : paired q -> generate_R2Bexact_free (XYZ raw srange) lams bb (pair_at q) cf mu = Some G -> pos_def 22 G.
Proof.
  intros Q HG. pose proof (Hapart _ Is) as H2.
  apply (near_pos_def x X lams srange raw HX HT Hinc Hdis (c_spos q 0%nat) (c_spos q 1%nat) a a cf mu bb G Ha Ha); try exact HG; try exact Hmu;
    rewrite ?(paired_norm q Q), ?mean_ratio, ?own_ratio; try assumption; try lra. exact pair_apart.
Qed.
Lemma table_grand : grand_posdef sc lams bb false cf p0 mu.
Proof.
  intros g L N0 Hd A B. destruct (grand_table g L N0 Hd A B) as (q & G & Q & HG & E). exact (pos_def_ext 22 G _ E (table_posdef q G Q HG)).
Qed.

(** ** What is solved for *)
Variable g : settings.
Variable fm : form.
Variable input : config -> R -> res (inputs * flow).
Variable F : list R.
Hypothesis HI : pulled_alike fm mu F input.
Hypothesis Hd : g_use_drag g = false.
Notation dir := (vscal (/ r) (vsub (c_spos p0 1%nat) (c_spos p0 0%nat))).

Lemma solved_law f o : solved_pair sc lams fm bb false cf g input p0 mu f o ->
  mobility_law (x a a r) dir (rowof (Model_Output.o_Ua o)) (rowof (Model_Output.o_Oa o))
    (fun _ k => nth k F 0 / mu) (fun _ _ => 0) (fun _ _ _ => 0) (fun q k l => matof (Model_Output.o_Sa o) q k l / mu).
Proof.
  intros (i & c & t & L & N0 & EI & FP & NP & PD & HA).
  destruct (HI c t i f EI) as (FO & UB & Mu & IF & IM).
  assert (AL : alike fm F i f) by (split; [exact FO|split; assumption]).
  assert (Nf : fm <> fts) by exact (alike_fm fm F i f AL).
  pose proof (quiet_answers 2 0 fm i f (madd L N0) o Nf FO HA) as QU.
  assert (FF : forall b, (b < 2)%nat -> nth b (Model_Output.o_Fa o) [] = F) by (intros b Hb; exact (alike_forces fm F i f (madd L N0) o b AL HA Hb)).
  pose proof (proj1 (proj2 HA)) as SH. unfold of_shape in SH. destruct SH as (s1 & s2 & s3 & s4 & s5 & s6 & s7 & s8 & (s9 & s10) & (s11 & s12) & s13).
  assert (TS : forall j, (j < 2)%nat -> st (matof (Model_Output.o_Sa o) j)) by (intros j Hj; apply (matof_st 2); [destruct fm; try contradiction; exact s13|exact Hj]).
  assert (EZ : forall j k l, (j < 2)%nat -> (k < 3)%nat -> (l < 3)%nat -> matof (Model_Output.o_Ea o) j k l = 0).
  { intros j k l Hj Hk Hl. unfold matof. rewrite (proj2 QU (nth j (Model_Output.o_Ea o) [])) by (apply nth_In; lia). unfold zeros33, zeros3. idx3 Hk; idx3 Hl; reflexivity. }
  assert (TZ : forall j k, (j < 2)%nat -> (k < 3)%nat -> rowof (o_Ta o) j k = 0).
  { intros j k Hj Hk. unfold rowof. rewrite (proj1 QU (nth j (o_Ta o) [])) by (apply nth_In; destruct s2; lia). unfold zeros3. idx3 Hk; reflexivity. }
  destruct (grand_table g L N0 Hd FP NP) as (q & G & Q & HG & EG).
  destruct (grand_of 2 0 fm (madd L N0) i o HA) as (u & w & LR & B). pose proof (Hapart _ Is) as H2.
  assert (BS : forall k b n, k <> KB -> (b < 2)%nat -> (n < ksize k)%nat -> vecs k u b n = vel 2 0 o k b n /\ vecs k w b n = frc 2 0 o k b n).
  { intros k b n N Hb Hn. apply B; [destruct k; cbn; lia || congruence|exact Hn]. }
  assert (LG : linrel 22 G u w) by (intros k Hk; rewrite (LR k Hk); apply rsum_ext; intros l Hl; rewrite EG by assumption; reflexivity).
  assert (ED : forall l, (l < 3)%nat -> vscal (/ norm (vsub (c_spos q 1%nat) (c_spos q 0%nat))) (vsub (c_spos q 1%nat) (c_spos q 0%nat)) l = dir l).
  { intros l Hl. unfold vscal. rewrite (paired_norm q Q), (paired_dir q l Q Hl). reflexivity. }
  assert (UD : unit_vector dir).
  { unfold unit_vector, vscal. pose proof e8. assert (K : r * r = vsub (c_spos p0 1%nat) (c_spos p0 0%nat) 0%nat ^ 2 + vsub (c_spos p0 1%nat) (c_spos p0 0%nat) 1%nat ^ 2 + vsub (c_spos p0 1%nat) (c_spos p0 0%nat) 2%nat ^ 2).
    { unfold r, norm. rewrite sqrt_sqrt; [ring|]. repeat apply Rplus_le_le_0_compat; apply pow2_ge_0. }
    set (v := vsub _ _) in *. transitivity ((v 0%nat ^ 2 + v 1%nat ^ 2 + v 2%nat ^ 2) / (r * r)); [field; lra|]. rewrite <- K. field. lra. }
  apply (proj1 HX); try assumption; [exact pair_apart|intros b Hb; split; [reflexivity|ring]|].
  apply (law_ext _ _ (vecs KU u) (vecs KO u) (vecs KU (fun t => w t / mu)) (vecs KO (fun t => w t / mu)) (tens u) (tens (fun t => w t / mu))).
  - intros b n Hb Hn. destruct (BS KU b n ltac:(discriminate) Hb Hn) as [A1 A2]. destruct (BS KO b n ltac:(discriminate) Hb Hn) as [A3 A4].
    split; [exact A1|]. split; [exact A3|]. unfold vecs in *. rewrite A2, A4. change (frc 2 0 o KU b n) with (nth n (nth b (Model_Output.o_Fa o) []) 0). change (frc 2 0 o KO b n) with (rowof (o_Ta o) b n). rewrite (FF b Hb). split; [reflexivity|].
    rewrite (TZ b n Hb Hn). unfold Rdiv. ring.
  - intros b k l Hb Hk Hl. split.
    + rewrite <- (EZ b k l Hb Hk Hl). assert (SE : st (matof (Model_Output.o_Ea o) b)) by (split; [intros m n Hm Hn; rewrite !EZ by assumption; reflexivity|rewrite !EZ by lia; ring]).
      rewrite <- (tensor_condense _ k l SE Hk Hl). apply tensor_ext. intros m Hm. apply (BS KS b m ltac:(discriminate) Hb Hm).
    + rewrite <- (tensor_condense _ k l (TS b Hb) Hk Hl). transitivity (tens w b k l * / mu); [apply (tens_scal w (/ mu) b k l Hk Hl)|]. unfold Rdiv. f_equal. apply tensor_ext. intros m Hm. apply (BS KS b m ltac:(discriminate) Hb Hm).
  - pose proof (near_law x X lams srange raw HX HT Hinc Hdis (c_spos q 0%nat) (c_spos q 1%nat) a a cf mu bb G Ha Ha) as NL.
    rewrite (paired_norm q Q), mean_ratio, own_ratio in NL. specialize (NL ltac:(lra) Hclose Is One One pair_apart HG Hmu u w LG).
    revert NL. apply law_dir. intros l Hl. rewrite <- (ED l Hl), (paired_norm q Q). reflexivity.
Qed.
End Table.
