(** Turned inputs have turned answers. *)
From Coq Require Import Reals List Arith Bool Lia Lra.
From Verif Require Import Base Py Model_Pack Model_Mob Model_Layout Model_Minf Model_Output
  Spec_Pack Spec_Convert Spec_Output Spec_Layout Spec_Minf Spec_Rotate Spec_Posdef Spec_Run Spec_Turn
  Proof_Pack Proof_Output Proof_Layout Proof_Posdef Proof_Minf Proof_Rotate1 Proof_Rotate2 Proof_Rotate3 Proof_Rotate4 Proof_Rotate5 Proof_Rotate8.
Import ListNotations.
Local Open Scope R_scope.

(** ** Entries of the grand vector *)
Lemma nth_concat n w : forall l j a, shaped n w l -> (j < n)%nat -> (a < w)%nat -> nth (w * j + a) (concat l) 0 = nth a (nth j l []) 0.
Proof.
  induction n as [|n IH]; intros l j a [L H] Hj Ha; [lia|]. destruct l as [|x l]; [discriminate|].
  cbn [concat]. assert (Hx : length x = w) by (apply H; left; reflexivity). destruct j as [|j].
  - rewrite Nat.mul_0_r, app_nth1 by lia. reflexivity.
  - rewrite app_nth2 by nia. rewrite Hx. replace (w * S j + a - w)%nat with (w * j + a)%nat by nia. cbn [nth].
    apply IH; [|lia|exact Ha]. split; [injection L as L; exact L|]. intros r Hr. apply H. right. exact Hr.
Qed.
Lemma nth_five m c : (c < 5)%nat -> nth c (five m) 0 = condense_idx (fun a b => nth b (nth a m []) 0) c.
Proof.
  intros Hc. unfold five, condense_idx, contraction, hs3p1, hs3m1, s3, s2, rsum.
  destruct c as [|[|[|[|[|c]]]]]; try lia; cbn [nth]; field.
Qed.
Lemma nth_fives n l j c : length l = n -> (j < n)%nat -> (c < 5)%nat -> nth (5 * j + c) (flat_map five l) 0 = condense_idx (matof l j) c.
Proof.
  intros L Hj Hc. rewrite flat_map_concat_map. rewrite (nth_concat n 5 (map five l)); [| |exact Hj|exact Hc].
  - rewrite (nth_indep _ [] (five [])) by (rewrite map_length; lia). rewrite map_nth. apply nth_five. exact Hc.
  - split; [rewrite map_length; exact L|]. intros r Hr. apply in_map_iff in Hr. destruct Hr as (m & <- & _). reflexivity.
Qed.

Definition blk (F T : list (list R)) (S : list (list (list R))) (B D : list (list R)) (Ns Nd : nat) (k : kind) (p : nat) : vec :=
  match k with
  | KU => rowof F p
  | KO => rowof T p
  | KS => condense_idx (matof S p)
  | KB => if Nat.ltb (p - Ns) Nd then rowof B (p - Ns) else rowof D (p - Ns - Nd)
  end.
Lemma grand_at Ns Nd F T S B D k p c :
  shaped Ns 3 F -> shaped Ns 3 T -> length S = Ns -> shaped Nd 3 B -> shaped Nd 3 D -> kvalid Ns Nd k p -> (c < ksize k)%nat ->
  lvec (grand F T S B D) (kstart Ns k p + c)%nat = blk F T S B D Ns Nd k p c.
Proof.
  intros HF HT HS HB HD V Hc. unfold lvec, grand.
  pose proof (shaped_len _ _ _ HF) as LF. pose proof (shaped_len _ _ _ HT) as LT. pose proof (flat_five_length S) as LS. rewrite HS in LS.
  pose proof (shaped_len _ _ _ HB) as LB.
  destruct k; cbn [kstart kvalid ksize blk] in *.
  - rewrite app_nth1 by lia. apply (nth_concat Ns); assumption.
  - rewrite app_nth2, app_nth1 by lia. replace (3 * Ns + 3 * p + c - length (concat F))%nat with (3 * p + c)%nat by lia.
    apply (nth_concat Ns); assumption.
  - rewrite app_nth2, app_nth2, app_nth1 by lia.
    replace (6 * Ns + 5 * p + c - length (concat F) - length (concat T))%nat with (5 * p + c)%nat by lia.
    apply (nth_fives Ns); assumption.
  - rewrite app_nth2, app_nth2, app_nth2 by lia. destruct (Nat.ltb_spec (p - Ns) Nd).
    + rewrite app_nth1 by lia.
      replace (11 * Ns + 3 * (p - Ns) + c - length (concat F) - length (concat T) - length (flat_map five S))%nat with (3 * (p - Ns) + c)%nat by lia.
      apply (nth_concat Nd); assumption.
    + rewrite app_nth2 by lia.
      replace (11 * Ns + 3 * (p - Ns) + c - length (concat F) - length (concat T) - length (flat_map five S) - length (concat B))%nat
        with (3 * (p - Ns - Nd) + c)%nat by lia.
      apply (nth_concat Nd); (assumption || lia).
Qed.

(** ** One solution of the mixed problem *)
Lemma unique_or n A u f u' f' :
  pos_def n A -> linrel n A u f -> linrel n A u' f' -> (forall i, (i < n)%nat -> u i = u' i \/ f i = f' i) ->
  forall i, (i < n)%nat -> u i = u' i /\ f i = f' i.
Proof.
  intros H L L' K. apply (unique_solution n (fun i => if Req_EM_T (u i) (u' i) then true else false) A); try assumption.
  intros i Hi. destruct (Req_EM_T (u i) (u' i)); [assumption|]. destruct (K i Hi); [contradiction|assumption].
Qed.

Section Turn.
Variable Q : mat.
Hypothesis HQ : orthogonal Q.

(** The components of one block turn. *)
Definition bt (k : kind) (g g' : nat -> R) : Prop :=
  forall c, (c < ksize k)%nat -> g' c = rsum (ksize k) (fun a => tmat Q k c a * g a).
Lemma bt_vec v v' : vec_turned Q v v' -> bt KU v v'.
Proof. intros H c Hc. apply H. exact Hc. Qed.
Lemma bt_vecB v v' : vec_turned Q v v' -> bt KB v v'.
Proof. intros H c Hc. apply H. exact Hc. Qed.
Lemma bt_pseudo v v' : pseudo_turned Q v v' -> bt KO v v'.
Proof.
  intros H c Hc. cbn [ksize] in Hc. rewrite (H c Hc). unfold rot, mvec. cbn [ksize tmat]. unfold mscal. rewrite <- rsum_scal_l. apply rsum_ext. intros. ring.
Qed.
Lemma bt_mat A A' : st A -> mat_turned Q A A' -> bt KS (condense_idx A) (condense_idx A').
Proof. intros S H c Hc. cbn [ksize] in *. rewrite <- (cond_rot Q A c S Hc). apply condense_ext. exact H. Qed.
Lemma vec_bt v v' : bt KU v v' -> vec_turned Q v v'.
Proof. intros H c Hc. apply (H c Hc). Qed.
Lemma vec_btB v v' : bt KB v v' -> vec_turned Q v v'.
Proof. intros H c Hc. apply (H c Hc). Qed.
Lemma pseudo_bt v v' : bt KO v v' -> pseudo_turned Q v v'.
Proof.
  intros H c Hc. rewrite (H c Hc). unfold rot, mvec. cbn [ksize tmat]. unfold mscal. rewrite <- rsum_scal_l. apply rsum_ext. intros. ring.
Qed.
Lemma tensor_ext c d i j : (forall m, (m < 5)%nat -> c m = d m) -> tensor_of c i j = tensor_of d i j.
Proof. intros H. unfold tensor_of. rewrite !H by lia. reflexivity. Qed.
Lemma mat_bt A A' : st A -> st A' -> bt KS (condense_idx A) (condense_idx A') -> mat_turned Q A A'.
Proof.
  intros S S' H k l Hk Hl. rewrite <- (tensor_condense A' k l S' Hk Hl).
  rewrite (tensor_ext _ (condense_idx (rot2 Q A))).
  - apply tensor_condense; [apply st_rot; assumption|assumption|assumption].
  - intros m Hm. rewrite (H m Hm). symmetry. apply (cond_rot Q A m S Hm).
Qed.
Lemma sym_st m : sym_traceless m -> st (fun a b => nth b (nth a m []) 0).
Proof. intros (_ & A & B). split; [exact A|exact B]. Qed.
Lemma matof_st n l j : shaped_st n l -> (j < n)%nat -> st (matof l j).
Proof. intros [L H] Hj. apply sym_st. apply H. apply nth_In. lia. Qed.

Variables Ns Nd : nat.
Notation n := (11 * Ns + 6 * Nd)%nat.

(** Prescribed values of turned inputs. *)
Lemma kept_turned {A} (rel : A -> A -> Prop) l l' lo hi lo' hi' out out' (d : A) j :
  lists_turned rel l l' -> keeps lo hi l out -> keeps lo' hi' l' out' -> (lo <= j < hi)%nat -> (lo' <= j < hi')%nat ->
  (j < length out)%nat -> (j < length out')%nat -> rel (nth j out d) (nth j out' d).
Proof.
  intros [_ H] K K' Hj Hj' L L'. specialize (H j). rewrite (K j Hj), (K' j Hj') in H.
  rewrite (nth_error_nth' out d L), (nth_error_nth' out' d L') in H. exact H.
Qed.
Lemma kept_in {A} (l : list (option A)) lo hi out (d : A) j : keeps lo hi l out -> (lo <= j < hi)%nat -> (j < length out)%nat -> In (Some (nth j out d)) l.
Proof. intros K Hj L. apply (nth_error_In l j). rewrite (K j Hj). f_equal. apply nth_error_nth'. exact L. Qed.
(** Both lists switch from values to placeholders at the same place. *)
Lemma same_switch rel (l l' : list (option (list R))) k k' N out out' :
  lists_turned rel l l' -> rest_missing N k l -> rest_missing N k' l' -> keeps 0 k l out -> keeps 0 k' l' out' ->
  length out = N -> length out' = N -> forall j, (j < N)%nat -> (j < k <-> j < k')%nat.
Proof.
  intros [_ H] R R' K K' L L' j Hj. specialize (H j).
  assert (Z : (j < length out)%nat) by lia. assert (Z' : (j < length out')%nat) by lia.
  destruct (Nat.lt_ge_cases j k) as [A|A]; destruct (Nat.lt_ge_cases j k') as [B|B]; try (split; intros; lia); exfalso.
  - rewrite (K j ltac:(lia)), (R' j ltac:(lia)) in H. rewrite (nth_error_nth' out [] Z) in H. exact H.
  - rewrite (R j ltac:(lia)), (K' j ltac:(lia)) in H. rewrite (nth_error_nth' out' [] Z') in H. exact H.
Qed.

Notation oFa := Model_Output.o_Fa.
Notation oSa := Model_Output.o_Sa.
Notation oFb := Model_Output.o_Fb.
Notation oDFb := Model_Output.o_DFb.
Notation oUa := Model_Output.o_Ua.
Notation oOa := Model_Output.o_Oa.
Notation oEa := Model_Output.o_Ea.
Notation oUb := Model_Output.o_Ub.
Notation oHDUb := Model_Output.o_HalfDUb.

Definition outputs_turned (o o' : outputs) : Prop :=
  (forall j, (j < Ns)%nat -> vec_turned Q (rowof (oFa o) j) (rowof (oFa o') j) /\ pseudo_turned Q (rowof (o_Ta o) j) (rowof (o_Ta o') j) /\
     mat_turned Q (matof (oSa o) j) (matof (oSa o') j) /\
     vec_turned Q (rowof (oUa o) j) (rowof (oUa o') j) /\ pseudo_turned Q (rowof (oOa o) j) (rowof (oOa o') j) /\
     mat_turned Q (matof (oEa o) j) (matof (oEa o') j)) /\
  (forall d, (d < Nd)%nat -> vec_turned Q (rowof (oFb o) d) (rowof (oFb o') d) /\ vec_turned Q (rowof (oDFb o) d) (rowof (oDFb o') d) /\
     vec_turned Q (rowof (oUb o) d) (rowof (oUb o') d) /\ vec_turned Q (rowof (oHDUb o) d) (rowof (oHDUb o') d)).

Definition frc (o : outputs) := blk (oFa o) (o_Ta o) (oSa o) (oFb o) (oDFb o) Ns Nd.
Definition vel (o : outputs) := blk (oUa o) (oOa o) (oEa o) (oUb o) (oHDUb o) Ns Nd.

Section Two.
Variables fm : form.
Variables i i' : inputs.
Variables R0 R0' : mat.
Variables o o' : outputs.
Hypothesis HI : inputs_turned Q i i'.
Hypothesis HA : answers Ns Nd fm i R0 o.
Hypothesis HA' : answers Ns Nd fm i' R0' o'.

Ltac shapes :=
  pose proof (proj1 (proj2 HA)) as SH; pose proof (proj1 (proj2 HA')) as SH'; unfold of_shape in SH, SH';
  destruct SH as (s1 & s2 & s3 & s4 & s5 & s6 & s7 & s8 & (s9 & s10) & (s11 & s12) & s13);
  destruct SH' as (z1 & z2 & z3 & z4 & z5 & z6 & z7 & z8 & (z9 & z10) & (z11 & z12) & z13).

Lemma tensors_st j : (j < Ns)%nat -> st (matof (oSa o) j) /\ st (matof (oSa o') j) /\ st (matof (oEa o) j) /\ st (matof (oEa o') j).
Proof.
  intros Hj. shapes. destruct HI as (_ & _ & _ & _ & _ & _ & _ & _ & _ & G1 & G2 & G3 & G4).
  destruct HA as (_ & _ & _ & K). destruct HA' as (_ & _ & _ & K').
  destruct fm; try contradiction.
  - destruct K as (_ & K & _). destruct K' as (_ & K' & _).
    split; [|split; [|split]]; try (apply (matof_st Ns); assumption).
    + apply sym_st, G1. apply (kept_in _ 0 Ns); [exact K|lia|lia].
    + apply sym_st, G2. apply (kept_in _ 0 Ns); [exact K'|lia|lia].
  - destruct K as (_ & K & _). destruct K' as (_ & K' & _).
    split; [|split; [|split]]; try (apply (matof_st Ns); assumption).
    + apply sym_st, G3. apply (kept_in _ 0 Ns); [exact K|lia|lia].
    + apply sym_st, G4. apply (kept_in _ 0 Ns); [exact K'|lia|lia].
  - destruct K as (_ & K & _). destruct K' as (_ & K' & _).
    split; [|split; [|split]]; try (apply (matof_st Ns); assumption).
    + apply sym_st, G3. apply (kept_in _ 0 Ns); [exact K|lia|lia].
    + apply sym_st, G4. apply (kept_in _ 0 Ns); [exact K'|lia|lia].
  - destruct K as (_ & K & _). destruct K' as (_ & K' & _).
    split; [|split; [|split]]; try (apply (matof_st Ns); assumption).
    + apply sym_st, G3. apply (kept_in _ 0 Ns); [exact K|lia|lia].
    + apply sym_st, G4. apply (kept_in _ 0 Ns); [exact K'|lia|lia].
Qed.

(** In each block velocities or forces are prescribed. *)
Lemma prescribed k p : kvalid Ns Nd k p -> bt k (vel o k p) (vel o' k p) \/ bt k (frc o k p) (frc o' k p).
Proof.
  intros V. shapes. destruct HI as (IF & IT & IS & IB & ID & IU & IE & IUb & IH & G1 & G2 & G3 & G4).
  assert (LFa : length (oFa o) = Ns) by apply s1. assert (LFa' : length (oFa o') = Ns) by apply z1.
  assert (LTa : length (o_Ta o) = Ns) by apply s2. assert (LTa' : length (o_Ta o') = Ns) by apply z2.
  assert (LFb : length (oFb o) = Nd) by apply s3. assert (LFb' : length (oFb o') = Nd) by apply z3.
  assert (LD : length (oDFb o) = Nd) by apply s4. assert (LD' : length (oDFb o') = Nd) by apply z4.
  assert (LUa : length (oUa o) = Ns) by apply s5. assert (LUa' : length (oUa o') = Ns) by apply z5.
  assert (LUb : length (oUb o) = Nd) by apply s7. assert (LUb' : length (oUb o') = Nd) by apply z7.
  assert (LH : length (oHDUb o) = Nd) by apply s8. assert (LH' : length (oHDUb o') = Nd) by apply z8.
  destruct HA as (_ & _ & KT & K). destruct HA' as (_ & _ & KT' & K').
  unfold vel, frc, blk. destruct k; cbn [kvalid] in V.
  - (* spheres, linear *)
    assert (HF : keeps 0 Ns (i_Fa i) (oFa o) -> keeps 0 Ns (i_Fa i') (oFa o') -> bt KU (rowof (oFa o) p) (rowof (oFa o') p)).
    { intros A B. apply bt_vec. apply (kept_turned _ _ _ _ _ _ _ _ _ [] p IF A B); lia. }
    assert (HS : (exists nfix, rest_missing Ns nfix (i_Ua i) /\ keeps 0 nfix (i_Ua i) (oUa o) /\ keeps nfix Ns (i_Fa i) (oFa o)) ->
       (exists nfix, rest_missing Ns nfix (i_Ua i') /\ keeps 0 nfix (i_Ua i') (oUa o') /\ keeps nfix Ns (i_Fa i') (oFa o')) ->
       bt KU (rowof (oUa o) p) (rowof (oUa o') p) \/ bt KU (rowof (oFa o) p) (rowof (oFa o') p)).
    { intros (k & A1 & A2 & A3) (k' & B1 & B2 & B3).
      pose proof (same_switch _ _ _ _ _ _ _ _ IU A1 B1 A2 B2 LUa LUa' p V) as SW.
      destruct (Nat.lt_ge_cases p k) as [C|C]; [left|right]; apply bt_vec.
      - apply (kept_turned _ _ _ _ _ _ _ _ _ [] p IU A2 B2); lia.
      - apply (kept_turned _ _ _ _ _ _ _ _ _ [] p IF A3 B3); lia. }
    destruct fm; try contradiction; destruct K as (K & _); destruct K' as (K' & _); auto.
  - (* spheres, angular *)
    right. apply bt_pseudo. apply (kept_turned _ _ _ _ _ _ _ _ _ [] p IT KT KT'); lia.
  - (* tensors *)
    destruct (tensors_st p V) as (T1 & T2 & T3 & T4).
    destruct fm; try contradiction; destruct K as (_ & K & _); destruct K' as (_ & K' & _); [right|left|left|left]; apply bt_mat; try assumption;
      [apply (kept_turned _ _ _ _ _ _ _ _ _ [] p IS K K'); lia|apply (kept_turned _ _ _ _ _ _ _ _ _ [] p IE K K'); lia..].
  - (* dumbbells *)
    assert (HF : keeps 0 Nd (i_Fb i) (oFb o) /\ keeps 0 Nd (i_DFb i) (oDFb o) -> keeps 0 Nd (i_Fb i') (oFb o') /\ keeps 0 Nd (i_DFb i') (oDFb o') ->
      bt KB (if Nat.ltb (p - Ns) Nd then rowof (oFb o) (p - Ns) else rowof (oDFb o) (p - Ns - Nd))
            (if Nat.ltb (p - Ns) Nd then rowof (oFb o') (p - Ns) else rowof (oDFb o') (p - Ns - Nd))).
    { intros [A1 A2] [B1 B2]. destruct (Nat.ltb_spec (p - Ns) Nd); apply bt_vecB.
      - apply (kept_turned _ _ _ _ _ _ _ _ _ [] (p - Ns) IB A1 B1); lia.
      - apply (kept_turned _ _ _ _ _ _ _ _ _ [] (p - Ns - Nd) ID A2 B2); lia. }
    destruct fm; try contradiction; destruct K as (_ & _ & K); destruct K' as (_ & _ & K'); try (right; apply HF; assumption).
    destruct K as (k & A1 & A2 & A3 & A4 & A5). destruct K' as (k' & B1 & B2 & B3 & B4 & B5).
    destruct (Nat.ltb_spec (p - Ns) Nd) as [C|C].
    + pose proof (same_switch _ _ _ _ _ _ _ _ IUb A1 B1 A2 B2 LUb LUb' (p - Ns) C) as SW.
      destruct (Nat.lt_ge_cases (p - Ns) k) as [E|E]; [left|right]; apply bt_vecB.
      * apply (kept_turned _ _ _ _ _ _ _ _ _ [] (p - Ns) IUb A2 B2); lia.
      * apply (kept_turned _ _ _ _ _ _ _ _ _ [] (p - Ns) IB A3 B3); lia.
    + pose proof (same_switch _ _ _ _ _ _ _ _ IUb A1 B1 A2 B2 LUb LUb' (p - Ns - Nd) ltac:(lia)) as SW.
      destruct (Nat.lt_ge_cases (p - Ns - Nd) k) as [E|E]; [left|right]; apply bt_vecB.
      * apply (kept_turned _ _ _ _ _ _ _ _ _ [] (p - Ns - Nd) IH A4 B4); lia.
      * apply (kept_turned _ _ _ _ _ _ _ _ _ [] (p - Ns - Nd) ID A5 B5); lia.
Qed.

Hypothesis HC : commutes Q Ns Nd R0 R0'.
Hypothesis HP : pos_def n R0'.

Lemma blocks_turned k p : kvalid Ns Nd k p -> bt k (vel o k p) (vel o' k p) /\ bt k (frc o k p) (frc o' k p).
Proof.
  shapes. destruct HA as ((_ & _ & L) & _). destruct HA' as ((_ & _ & L') & _).
  set (u := lvec (grand (oUa o) (oOa o) (oEa o) (oUb o) (oHDUb o))) in *.
  set (f := lvec (grand (oFa o) (o_Ta o) (oSa o) (oFb o) (oDFb o))) in *.
  set (u' := lvec (grand (oUa o') (oOa o') (oEa o') (oUb o') (oHDUb o'))) in *.
  set (f' := lvec (grand (oFa o') (o_Ta o') (oSa o') (oFb o') (oDFb o'))) in *.
  assert (Au : forall k p c, kvalid Ns Nd k p -> (c < ksize k)%nat -> u (kstart Ns k p + c)%nat = vel o k p c)
    by (intros; apply grand_at; assumption).
  assert (Af : forall k p c, kvalid Ns Nd k p -> (c < ksize k)%nat -> f (kstart Ns k p + c)%nat = frc o k p c)
    by (intros; apply grand_at; assumption).
  assert (Au' : forall k p c, kvalid Ns Nd k p -> (c < ksize k)%nat -> u' (kstart Ns k p + c)%nat = vel o' k p c)
    by (intros; apply grand_at; assumption).
  assert (Af' : forall k p c, kvalid Ns Nd k p -> (c < ksize k)%nat -> f' (kstart Ns k p + c)%nat = frc o' k p c)
    by (intros; apply grand_at; assumption).
  assert (Tu : forall k p c, kvalid Ns Nd k p -> (c < ksize k)%nat ->
     turn_vec Q Ns u (kstart Ns k p + c)%nat = rsum (ksize k) (fun a => tmat Q k c a * vel o k p a)).
  { intros k0 p0 c V Hc. rewrite (turn_at Q Ns Nd) by assumption. apply rsum_ext. intros a Ha. rewrite Au by assumption. reflexivity. }
  assert (Tf : forall k p c, kvalid Ns Nd k p -> (c < ksize k)%nat ->
     turn_vec Q Ns f (kstart Ns k p + c)%nat = rsum (ksize k) (fun a => tmat Q k c a * frc o k p a)).
  { intros k0 p0 c V Hc. rewrite (turn_at Q Ns Nd) by assumption. apply rsum_ext. intros a Ha. rewrite Af by assumption. reflexivity. }
  clearbody u f u' f'.
  assert (LT : linrel n R0' (turn_vec Q Ns u) (turn_vec Q Ns f)).
  { intros r Hr. transitivity (turn_vec Q Ns (mvec n R0 u) r).
    - apply (turn_ext Q Ns Nd); [|exact Hr]. intros t Ht. apply L. exact Ht.
    - symmetry. apply HC. exact Hr. }
  assert (E : forall r, (r < n)%nat -> turn_vec Q Ns u r = u' r /\ turn_vec Q Ns f r = f' r).
  { apply (unique_or n R0'); try assumption. intros r Hr. destruct (block_cover Ns Nd r Hr) as (k0 & p0 & c & V & Hc & ->).
    rewrite Tu, Tf, Au', Af' by assumption. destruct (prescribed k0 p0 V) as [A|A]; [left|right]; symmetry; apply A; exact Hc. }
  intros V. split; intros c Hc; [rewrite <- Au', <- Tu by assumption|rewrite <- Af', <- Tf by assumption]; symmetry; apply E;
    apply block_range; assumption.
Qed.

Lemma answers_turned : outputs_turned o o'.
Proof.
  split.
  - intros j Hj. destruct (tensors_st j Hj) as (T1 & T2 & T3 & T4).
    destruct (blocks_turned KU j Hj) as [A1 A2]. destruct (blocks_turned KO j Hj) as [B1 B2]. destruct (blocks_turned KS j Hj) as [C1 C2].
    cbn [vel frc blk] in *. auto 10 using vec_bt, pseudo_bt, mat_bt.
  - intros d Hd.
    destruct (blocks_turned KB (Ns + d) ltac:(cbn [kvalid]; lia)) as [A1 A2].
    destruct (blocks_turned KB (Ns + Nd + d) ltac:(cbn [kvalid]; lia)) as [B1 B2].
    unfold vel, frc, blk in *.
    replace (Ns + d - Ns)%nat with d in * by lia. replace (Ns + Nd + d - Ns)%nat with (Nd + d)%nat in * by lia.
    replace (Nd + d - Nd)%nat with d in * by lia.
    destruct (Nat.ltb_spec d Nd); [|lia]. destruct (Nat.ltb_spec (Nd + d) Nd); [lia|]. auto 10 using vec_btB.
Qed.
End Two.
End Turn.
