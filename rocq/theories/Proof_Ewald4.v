(** The real-space tensors and pair functions. *)
From Coq Require Import Reals Lra Lia Arith List.
From Verif Require Import Base Model_Mob Model_Ewald Spec_Calc Spec_Ewald Proof_Calc Proof_Mob
  Proof_Ewald1 Proof_Ewald2 Proof_Ewald3.
Import ListNotations.
Local Open Scope R_scope.

Section Chain.
Variable e : nat -> R -> R.
Hypothesis He : forall k t, (k < 6)%nat -> derivable_pt_lim (e k) t (e (S k) t).
Notation E := (eat e).

Definition fJ i j q := Jr q (len q) i j (E q).
Definition fDJ l i j q := D_Jr q (len q) l i j (E q).
Definition fDDJ m l i j q := DD_Jr q (len q) m l i j (E q).
Definition fLJ i j q := Lap_Jr q (len q) i j (E q).
Definition fDLJ k i j q := DLap_Jr q (len q) k i j (E q).
Definition fDDLJ l k i j q := DDLap_Jr q (len q) l k i j (E q).

Lemma fJ_pot i j r : (i < 3)%nat -> (j < 3)%nat -> nonzero r ->
  exists d w, second i j (pot e) r d /\ laplacian (pot e) r w /\ fJ i j r = delta i j * w - d.
Proof.
  intros Hi Hj Hr. exists (cDD e i j r), (cLap e r). split; [|split].
  - exists (T1 (Fphi e) j). split; [intros q Hq; apply pot_D; assumption|apply DD_ok; assumption].
  - apply Lap_ok; assumption.
  - reflexivity.
Qed.
Lemma fDJ_ok l i j r : (l < 3)%nat -> nonzero r -> partial l (fJ i j) r (fDJ l i j r).
Proof.
  intros Hl Hr. apply (partial_minus l (fun q => delta i j * cLap e q) (cDD e i j)).
  - apply partial_scal. apply DLap_ok; assumption.
  - apply DDD_ok; assumption.
Qed.
Lemma fDDJ_ok m l i j r : (m < 3)%nat -> nonzero r -> partial m (fDJ l i j) r (fDDJ m l i j r).
Proof.
  intros Hl Hr. apply (partial_minus m (fun q => delta i j * cDLap e l q) (cDDD e i j l)).
  - apply partial_scal. apply DDLap_ok; assumption.
  - apply DDDD_ok; assumption.
Qed.
(** third derivative of J *)
Definition fD3J n m l i j q := delta i j * cDDDLap e l m n q - cD5 e i j l m n q.
Lemma fD3J_ok n m l i j r : (n < 3)%nat -> nonzero r -> partial n (fDDJ m l i j) r (fD3J n m l i j r).
Proof.
  intros Hl Hr. apply (partial_minus n (fun q => delta i j * cDDLap e l m q) (cDDDD e i j l m)).
  - apply partial_scal. apply DDDLap_ok; assumption.
  - apply D5_ok; assumption.
Qed.
Lemma rsum3 f : rsum 3 f = f 0%nat + f 1%nat + f 2%nat.
Proof. unfold rsum. ring. Qed.
Lemma fLJ_ok i j r : (i < 3)%nat -> (j < 3)%nat -> nonzero r -> laplacian (fJ i j) r (fLJ i j r).
Proof.
  intros Hi Hj Hr. exists (fun l => fDJ l i j), (fun l => fDDJ l l i j r). split; [|split].
  - intros l q Hl Hq. apply fDJ_ok; assumption.
  - intros l Hl. apply fDDJ_ok; assumption.
  - unfold fLJ, Lap_Jr. fold (cLapLap e r). fold (cDDLap e i j r).
    rewrite <- (DDDD_trace e i j r Hi Hj Hr), (cDDLap_trace e r Hr). rewrite !rsum3.
    unfold fDDJ, DD_Jr, cDDLap, cDDDD. ring.
Qed.
Lemma fDLJ_ok k i j r : (k < 3)%nat -> nonzero r -> partial k (fLJ i j) r (fDLJ k i j r).
Proof.
  intros Hl Hr. apply (partial_minus k (fun q => delta i j * cLapLap e q) (cDDLap e i j)).
  - apply partial_scal. apply DLapLap_ok; assumption.
  - apply DDDLap_ok; assumption.
Qed.
Lemma fDDLJ_ok l k i j r : (l < 3)%nat -> nonzero r -> partial l (fDLJ k i j) r (fDDLJ l k i j r).
Proof.
  intros Hl Hr. apply (partial_minus l (fun q => delta i j * cDLapLap e k q) (cDDDLap e i j k)).
  - apply partial_scal. apply DDLapLap_ok; assumption.
  - apply DDDDLap_ok; assumption.
Qed.
(** Laplacian of the first derivative of J. *)
Lemma fLDJ_ok k i j r : (k < 3)%nat -> (i < 3)%nat -> (j < 3)%nat -> nonzero r ->
  laplacian (fDJ k i j) r (fDLJ k i j r).
Proof.
  intros Hk Hi Hj Hr. exists (fun l => fDDJ l k i j), (fun l => fD3J l l k i j r). split; [|split].
  - intros l q Hl Hq. apply fDDJ_ok; assumption.
  - intros l Hl. apply fD3J_ok; assumption.
  - unfold fDLJ, DLap_Jr. fold (cDLapLap e k r). fold (cDDDLap e i j k r).
    rewrite <- (D5_trace e i j k r Hi Hj Hk Hr), <- (DDDLap_div e k r Hk Hr). rewrite !rsum3.
    unfold fD3J.
    assert (S : forall l, (l < 3)%nat -> cDDDLap e k l l r = cDDDLap e l k l r).
    { intros l Hl. unfold cDDDLap, DDDLap_rerfclr. rewrite (delta_sym k l). unfold Rdiv. ring. }
    rewrite (S 0%nat), (S 1%nat), (S 2%nat) by lia. ring.
Qed.

Lemma real_derivatives : derivatives nonzero fJ fDJ fDDJ fLJ fDLJ fDDLJ.
Proof.
  constructor; intros.
  - apply fDJ_ok; assumption.
  - apply fDDJ_ok; assumption.
  - apply fLJ_ok; assumption.
  - apply fDLJ_ok; assumption.
  - apply fDDLJ_ok; assumption.
Qed.

(** Incompressibility and symmetry. *)
Lemma fJ_sym i j r : fJ i j r = fJ j i r.
Proof. unfold fJ, Jr, DD_rerfclr. rewrite (delta_sym j i). unfold Rdiv. ring. Qed.
Lemma fJ_div j r : (j < 3)%nat -> nonzero r -> divergence (fun i => fJ i j) r 0.
Proof.
  intros Hj Hr. exists (fun l => fDJ l l j r). split.
  - intros l Hl. apply fDJ_ok; assumption.
  - rewrite rsum3. pose proof (DDD_div e j 0 r Hj ltac:(lia) Hr) as H. rewrite rsum3 in H.
    unfold fDJ, D_Jr. fold (cDLap e 0 r) (cDLap e 1 r) (cDLap e 2 r).
    change (DDD_rerfclr (r 0%nat) (r j) (r 0%nat) (len r) (E r 0%nat) (E r 1%nat) (E r 2%nat) (E r 3%nat) 0 j 0) with (cDDD e 0 j 0 r).
    change (DDD_rerfclr (r 1%nat) (r j) (r 1%nat) (len r) (E r 0%nat) (E r 1%nat) (E r 2%nat) (E r 3%nat) 1 j 1) with (cDDD e 1 j 1 r).
    change (DDD_rerfclr (r 2%nat) (r j) (r 2%nat) (len r) (E r 0%nat) (E r 1%nat) (E r 2%nat) (E r 3%nat) 2 j 2) with (cDDD e 2 j 2 r).
    change (DLap_rerfclr (r 0%nat) (len r) (E r 0%nat) (E r 1%nat) (E r 2%nat) (E r 3%nat)) with (cDLap e 0 r).
    change (DLap_rerfclr (r 1%nat) (len r) (E r 0%nat) (E r 1%nat) (E r 2%nat) (E r 3%nat)) with (cDLap e 1 r).
    change (DLap_rerfclr (r 2%nat) (len r) (E r 0%nat) (E r 1%nat) (E r 2%nat) (E r 3%nat)) with (cDLap e 2 r).
    idx3 Hj; unfold delta; simpl Nat.eqb; cbv iota; lra.
Qed.

(** Rotlet and K. *)
Lemma Rr_rot q i j : (j < 3)%nat ->
  Rr q (len q) i j (E q) = - (1 / 2) * rot (fun k l => fDJ k i l q) j.
Proof.
  intros Hj. unfold Rr, rot. fold (fDJ). rewrite !rsum3.
  idx3 Hj; cbn [Nat.add Nat.modulo Nat.divmod fst snd Nat.sub]; unfold eps; simpl INR; unfold fDJ; field.
Qed.
Lemma Lap_Rr_rot q i j : (j < 3)%nat ->
  Lap_Rr q (len q) i j (E q) = - (1 / 2) * rot (fun k l => fDLJ k i l q) j.
Proof.
  intros Hj. unfold Lap_Rr, rot. rewrite !rsum3.
  idx3 Hj; cbn [Nat.add Nat.modulo Nat.divmod fst snd Nat.sub]; unfold eps; simpl INR; unfold fDLJ; field.
Qed.
Lemma D_Rr_rot q l i j : (j < 3)%nat ->
  D_Rr q (len q) l i j (E q) = - (1 / 2) * rot (fun m n => fDDJ l m i n q) j.
Proof.
  intros Hj. unfold D_Rr, rot. rewrite !rsum3.
  idx3 Hj; cbn [Nat.add Nat.modulo Nat.divmod fst snd Nat.sub]; unfold eps; simpl INR; unfold fDDJ; field.
Qed.

(** The pair functions are the operators applied to J^r. *)
Lemma ar_op q a1 a2 i j c mu : tiny < len q ->
  ar q (len q) a1 a2 i j (E q) c mu = op_a fJ fLJ c a1 a2 q i j.
Proof. intros Hs. unfold ar. destruct (Rlt_dec tiny (len q)); [reflexivity|lra]. Qed.
Lemma btr_op q a1 a2 i j c mu : (j < 3)%nat -> tiny < len q ->
  btr q (len q) a1 a2 i j (E q) c mu = op_b fDJ fDLJ c a1 q i j.
Proof.
  intros Hj Hs. unfold btr. destruct (Rlt_dec tiny (len q)); [|lra].
  unfold op_b. rewrite Rr_rot, Lap_Rr_rot by exact Hj. reflexivity.
Qed.
Lemma cr_op q a1 a2 i j c mu : (i < 3)%nat -> (j < 3)%nat -> tiny < abs1 q ->
  cr q (len q) a1 a2 i j (E q) c mu = op_c fDDJ c q i j.
Proof.
  intros Hi Hj Hs. unfold cr. destruct (Rle_dec (abs1 q) tiny); [lra|].
  cbv zeta. rewrite !D_Rr_rot by exact Hj. unfold op_c.
  set (G := fun k l => - (1 / 2) * rot (fun m n => fDDJ k m l n q) j).
  change (c * (1 / 2) * (G ((i + 1) mod 3)%nat ((i + 2) mod 3)%nat - G ((i + 2) mod 3)%nat ((i + 1) mod 3)%nat)
          = c * (1 / 2 * rot G i)).
  clearbody G. unfold rot. rewrite !rsum3.
  idx3 Hi; cbn [Nat.add Nat.modulo Nat.divmod fst snd Nat.sub]; unfold eps; simpl INR; field.
Qed.
Lemma gtr_op q a1 a2 i j k c mu : tiny < len q ->
  gtr q (len q) a1 a2 i j k (E q) c mu = op_g fDJ fDLJ c a1 a2 q i j k.
Proof. intros Hs. unfold gtr. destruct (Rlt_dec tiny (len q)); [reflexivity|lra]. Qed.
Lemma htr_op q a1 a2 i j k c mu : (i < 3)%nat -> tiny < abs1 q ->
  htr q (len q) a1 a2 i j k (E q) c mu = op_h fDDJ fDDLJ c (a2 ^ 2 / 6) q i j k.
Proof.
  intros Hi Hs. unfold htr. destruct (Rlt_dec tiny (abs1 q)); [|lra].
  cbv zeta. unfold op_h, D_Kr, DLap_Kr.
  set (G := fun l m => 1 / 2 * (fDDJ l k m j q + fDDJ l j m k q)
       + a2 ^ 2 / 6 * (1 / 2 * (fDDLJ l k m j q + fDDLJ l j m k q))).
  change (c * - (1 / 2) * (G ((i + 1) mod 3)%nat ((i + 2) mod 3)%nat - G ((i + 2) mod 3)%nat ((i + 1) mod 3)%nat)
          = - c * (1 / 2 * rot G i)).
  clearbody G. unfold rot. rewrite !rsum3.
  idx3 Hi; cbn [Nat.add Nat.modulo Nat.divmod fst snd Nat.sub]; unfold eps; simpl INR; field.
Qed.
Lemma mr_op q a1 a2 i j k l c mu : tiny < len q ->
  mr q (len q) a1 a2 i j k l (E q) c mu = op_m fDDJ fDDLJ c a1 a2 q i j k l.
Proof.
  intros Hs. unfold mr. destruct (Rlt_dec tiny (len q)); [|lra].
  unfold op_m, D_Kr, DLap_Kr, fDDJ, fDDLJ. field.
Qed.

(** derivatives and Laplacians of R and K *)
Lemma laplacian_ext f g r v : (forall q, f q = g q) -> laplacian f r v -> laplacian g r v.
Proof.
  intros Eq (d & h & H1 & H2 & H3). exists d, h. split; [|split; assumption].
  intros l q Hl Hq. apply (partial_ext l f g); [exact Eq|apply H1; assumption].
Qed.
Lemma laplacian_lin c a f g r v w : laplacian f r v -> laplacian g r w ->
  laplacian (fun q => c * (f q + a * g q)) r (c * (v + a * w)).
Proof.
  intros (d & h & H1 & H2 & H3) (d' & h' & H1' & H2' & H3').
  exists (fun l q => c * (d l q + a * d' l q)), (fun l => c * (h l + a * h' l)).
  split; [|split].
  - intros l q Hl Hq. apply partial_scal. apply partial_plus; [apply H1|apply partial_scal; apply H1']; assumption.
  - intros l Hl. apply partial_scal. apply (partial_plus l (d l) (fun q => a * d' l q)); [apply H2|apply partial_scal; apply H2']; assumption.
  - rewrite H3, H3'. rewrite !rsum3. ring.
Qed.
Lemma mod3_lt n : (n mod 3 < 3)%nat.
Proof. apply Nat.mod_upper_bound. lia. Qed.
Lemma Lap_Rr_ok i j r : (i < 3)%nat -> nonzero r ->
  laplacian (fun q => Rr q (len q) i j (E q)) r (Lap_Rr r (len r) i j (E r)).
Proof.
  intros Hi Hr. unfold Rr, Lap_Rr. cbv zeta.
  apply (laplacian_ext (fun q => - (1 / 2) * (fDJ ((j + 1) mod 3) i ((j + 2) mod 3) q
       + -1 * fDJ ((j + 2) mod 3) i ((j + 1) mod 3) q))).
  { intros q. unfold fDJ. ring. }
  replace (DLap_Jr r (len r) ((j + 1) mod 3) i ((j + 2) mod 3) (E r)
      - DLap_Jr r (len r) ((j + 2) mod 3) i ((j + 1) mod 3) (E r))
   with (fDLJ ((j + 1) mod 3) i ((j + 2) mod 3) r + -1 * fDLJ ((j + 2) mod 3) i ((j + 1) mod 3) r)
   by (unfold fDLJ; ring).
  apply laplacian_lin; apply fLDJ_ok; try assumption; apply mod3_lt.
Qed.
Lemma Lap_Kr_ok i j k r : (i < 3)%nat -> (j < 3)%nat -> (k < 3)%nat -> nonzero r ->
  laplacian (fun q => Kr q (len q) i j k (E q)) r (Lap_Kr r (len r) i j k (E r)).
Proof.
  intros Hi Hj Hk Hr. unfold Kr, Lap_Kr.
  apply (laplacian_ext (fun q => 1 / 2 * (fDJ k i j q + 1 * fDJ j i k q))).
  { intros q. unfold fDJ. ring. }
  replace (DLap_Jr r (len r) k i j (E r) + DLap_Jr r (len r) j i k (E r))
    with (fDLJ k i j r + 1 * fDLJ j i k r) by (unfold fDLJ; ring).
  apply laplacian_lin; apply fLDJ_ok; assumption.
Qed.
Lemma D_Rr_ok l i j r : (l < 3)%nat -> nonzero r ->
  partial l (fun q => Rr q (len q) i j (E q)) r (D_Rr r (len r) l i j (E r)).
Proof.
  intros Hl Hr. unfold Rr, D_Rr. cbv zeta. apply partial_scal.
  apply (partial_minus l (fDJ ((j + 1) mod 3) i ((j + 2) mod 3)) (fDJ ((j + 2) mod 3) i ((j + 1) mod 3)));
    apply fDDJ_ok; assumption.
Qed.
Lemma D_Kr_ok l i j k r : (l < 3)%nat -> nonzero r ->
  partial l (fun q => Kr q (len q) i j k (E q)) r (D_Kr r (len r) l i j k (E r)).
Proof.
  intros Hl Hr. unfold Kr, D_Kr. apply partial_scal.
  apply (partial_plus l (fDJ k i j) (fDJ j i k)); apply fDDJ_ok; assumption.
Qed.
Lemma DLap_Kr_ok l i j k r : (l < 3)%nat -> nonzero r ->
  partial l (fun q => Lap_Kr q (len q) i j k (E q)) r (DLap_Kr r (len r) l i j k (E r)).
Proof.
  intros Hl Hr. unfold Lap_Kr, DLap_Kr. apply partial_scal.
  apply (partial_plus l (fDLJ k i j) (fDLJ j i k)); apply fDDLJ_ok; assumption.
Qed.
End Chain.
