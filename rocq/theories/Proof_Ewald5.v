(** Wave-space functions, and agreement with the unbounded tensors. *)
From Coq Require Import Reals Lra Lia Arith List.
From Verif Require Import Base Model_Mob Model_Ewald Spec_Calc Spec_Ewald Proof_Calc Proof_Mob Proof_Mob2
  Proof_Ewald1 Proof_Ewald2 Proof_Ewald3 Proof_Ewald4.
Local Open Scope R_scope.

(** ** Plane waves *)
Definition wcos (kk q : vec) : R := cos (dot3 kk q).
Definition wsin (kk q : vec) : R := sin (dot3 kk q).
Lemma dot_D kk l r : (l < 3)%nat -> partial l (fun q => dot3 kk q) r (kk l).
Proof.
  intros Hl. unfold dot3. eapply partial_eq.
  - apply partial_plus; [apply partial_plus|]; apply partial_scal; apply partial_coord.
  - idx3 Hl; unfold delta; simpl; ring.
Qed.
Lemma dot_base kk l r : dot3 kk (upd r l (r l)) = dot3 kk r.
Proof. unfold dot3. rewrite !upd_same. reflexivity. Qed.
Lemma wcos_D kk l r : (l < 3)%nat -> partial l (wcos kk) r (- kk l * wsin kk r).
Proof.
  intros Hl. pose proof (dot_D kk l r Hl) as H. unfold partial in *.
  eapply dl_eq.
  - apply (derivable_pt_lim_comp (fun t => dot3 kk (upd r l t)) cos); [exact H|apply derivable_pt_lim_cos].
  - rewrite dot_base. unfold wsin. ring.
Qed.
Lemma wsin_D kk l r : (l < 3)%nat -> partial l (wsin kk) r (kk l * wcos kk r).
Proof.
  intros Hl. pose proof (dot_D kk l r Hl) as H. unfold partial in *.
  eapply dl_eq.
  - apply (derivable_pt_lim_comp (fun t => dot3 kk (upd r l t)) sin); [exact H|apply derivable_pt_lim_sin].
  - rewrite dot_base. unfold wcos. ring.
Qed.

Section Wave.
Variables (kk : vec) (RR : R).
Notation ks := (norm kk).
Definition Jt (i j : nat) : R := Jtilde (kk i) (kk j) ks i j RR.

Definition wJ (i j : nat) q := Jt i j * wcos kk q.
Definition wDJ (l i j : nat) q := - kk l * Jt i j * wsin kk q.
Definition wDDJ (m l i j : nat) q := - kk m * kk l * Jt i j * wcos kk q.
Definition wLJ (i j : nat) q := - ks ^ 2 * Jt i j * wcos kk q.
Definition wDLJ (l i j : nat) q := kk l * ks ^ 2 * Jt i j * wsin kk q.
Definition wDDLJ (m l i j : nat) q := kk m * kk l * ks ^ 2 * Jt i j * wcos kk q.

Lemma ks_sq : ks ^ 2 = kk 0%nat ^ 2 + kk 1%nat ^ 2 + kk 2%nat ^ 2.
Proof. unfold norm. apply pow2_sqrt. nra. Qed.

Lemma wave_derivatives : derivatives (fun _ => True) wJ wDJ wDDJ wLJ wDLJ wDDLJ.
Proof.
  assert (P1 : forall l i j q, (l < 3)%nat -> partial l (wJ i j) q (wDJ l i j q)).
  { intros l i j q Hl. unfold wJ, wDJ. eapply partial_eq; [apply partial_scal; apply wcos_D; exact Hl|ring]. }
  assert (P2 : forall m l i j q, (m < 3)%nat -> partial m (wDJ l i j) q (wDDJ m l i j q)).
  { intros m l i j q Hl. unfold wDJ, wDDJ. eapply partial_eq; [apply partial_scal; apply wsin_D; exact Hl|ring]. }
  constructor.
  - intros. apply P1. assumption.
  - intros. apply P2. assumption.
  - intros i j q Hi Hj _. exists (fun l => wDJ l i j), (fun l => wDDJ l l i j q). split; [|split].
    + intros l p Hl _. apply P1. exact Hl.
    + intros l Hl. apply P2. exact Hl.
    + rewrite rsum3. unfold wLJ, wDDJ. rewrite ks_sq. ring.
  - intros k i j q Hk _ _ _. unfold wLJ, wDLJ. eapply partial_eq; [apply partial_scal; apply wcos_D; exact Hk|ring].
  - intros l k i j q Hl _ _ _ _. unfold wDLJ, wDDLJ. eapply partial_eq; [apply partial_scal; apply wsin_D; exact Hl|ring].
Qed.

(** J^k = (delta lap - grad grad) applied to RR cos(k.q) *)
Lemma wJ_pot i j r : (i < 3)%nat -> (j < 3)%nat ->
  exists d w, second i j (fun q => RR * wcos kk q) r d /\ laplacian (fun q => RR * wcos kk q) r w /\
    wJ i j r = delta i j * w - d.
Proof.
  intros Hi Hj.
  assert (P1 : forall l q, (l < 3)%nat -> partial l (fun q => RR * wcos kk q) q (- RR * kk l * wsin kk q)).
  { intros l q Hl. eapply partial_eq; [apply partial_scal; apply wcos_D; exact Hl|ring]. }
  assert (P2 : forall m l q, (m < 3)%nat -> partial m (fun q => - RR * kk l * wsin kk q) q (- RR * kk l * kk m * wcos kk q)).
  { intros m l q Hl. eapply partial_eq; [apply partial_scal; apply wsin_D; exact Hl|ring]. }
  exists (- RR * kk j * kk i * wcos kk r), (- ks ^ 2 * RR * wcos kk r). split; [|split].
  - exists (fun q => - RR * kk j * wsin kk q). split; [intros q _; apply P1; exact Hj|apply P2; exact Hi].
  - exists (fun l q => - RR * kk l * wsin kk q), (fun l => - RR * kk l * kk l * wcos kk r). split; [|split].
    + intros l q Hl _. apply P1. exact Hl.
    + intros l Hl. apply P2. exact Hl.
    + rewrite rsum3, ks_sq. ring.
  - unfold wJ, Jt, Jtilde. ring.
Qed.

Lemma aktilde_op q a1 a2 i j c :
  aktilde kk ks a1 a2 i j RR c * wcos kk q = op_a wJ wLJ c a1 a2 q i j.
Proof. unfold aktilde, op_a, Lap_Jtilde, wJ, wLJ, Jt. field. Qed.
Lemma cktilde_op q a1 a2 i j c : (i < 3)%nat -> (j < 3)%nat ->
  cktilde kk ks a1 a2 i j RR c * wcos kk q = op_c wDDJ c q i j.
Proof.
  intros Hi Hj. unfold cktilde, op_c, D_Rtilde, DD_Jtilde, rot, wDDJ, Jt. rewrite !rsum3.
  idx3 Hi; idx3 Hj; cbn [Nat.add Nat.modulo Nat.divmod fst snd Nat.sub]; unfold eps; simpl INR; field.
Qed.
Lemma htktilde_op q a1 a2 i j k c : (i < 3)%nat ->
  htktilde kk ks a1 a2 i j k RR c * wcos kk q = op_h wDDJ wDDLJ c (a2 ^ 2 / 6) q i j k.
Proof.
  intros Hi. unfold htktilde, op_h, D_Ktilde, DLap_Ktilde, DD_Jtilde, rot, wDDJ, wDDLJ, Jt. rewrite !rsum3.
  idx3 Hi; cbn [Nat.add Nat.modulo Nat.divmod fst snd Nat.sub]; unfold eps; simpl INR; field.
Qed.
Lemma mktilde_op q a1 a2 i j k l c :
  mktilde kk ks a1 a2 i j k l RR c * wcos kk q = op_m wDDJ wDDLJ c a1 a2 q i j k l.
Proof.
  unfold mktilde, op_m, D_Ktilde, DLap_Ktilde, DD_Jtilde, wDDJ, wDDLJ, Jt. field.
Qed.
End Wave.

(** ** The unbounded tensors *)
Definition uJ (i j : nat) q := J (q i) (q j) i j (norm q).
Definition uDJ (l i j : nat) q := D_J q (norm q) l i j.
Definition uDDJ (m l i j : nat) q := DD_J q (norm q) m l i j.
Definition uLJ (i j : nat) q := Lap_J (q i) (q j) i j (norm q).
Definition uDLJ (k i j : nat) q := DLap_J q (norm q) k i j.
Definition uDDLJ (l k i j : nat) q := DLap_K q (norm q) l i j k.

Lemma unbounded_derivatives : derivatives nonzero uJ uDJ uDDJ uLJ uDLJ uDDLJ.
Proof.
  constructor; intros.
  - apply D_J_partial; assumption.
  - apply DD_J_partial; assumption.
  - apply Lap_J_laplacian; assumption.
  - apply LJ_partial; assumption.
  - unfold uDLJ, uDDLJ.
    apply (partial_ext l (fun q => Lap_K q (norm q) i j k)).
    { intros p. unfold Lap_K. rewrite (proj2 (DLap_J_sym p (norm p) i j k)), (proj1 (DLap_J_sym p (norm p) i k j)). reflexivity. }
    apply DLap_K_partial; assumption.
Qed.

Ltac conc := unfold eps, levi, lsum2, distinct3; simpl INR; simpl Nat.eqb; simpl andb; simpl negb; simpl orb; cbv iota.
Lemma unb_a q a1 a2 i j c mu : tiny < norm q ->
  M11 (q i) (q j) (norm q) a1 a2 i j c mu = op_a uJ uLJ c a1 a2 q i j.
Proof. intros H. unfold M11. destruct (Rlt_dec tiny (norm q)); [reflexivity|lra]. Qed.
Lemma unb_b q a1 a2 i j c mu : (j < 3)%nat -> tiny < norm q ->
  M12 q (norm q) a1 a2 i j c mu = op_b uDJ uDLJ c a1 q i j.
Proof.
  intros Hj H. unfold M12. destruct (Rlt_dec tiny (norm q)); [|lra].
  unfold Rt, Lap_R, op_b, rot, lsum2. rewrite !rsum3. unfold uDJ, uDLJ.
  idx3 Hj; conc; field.
Qed.
Lemma unb_c q a1 a2 i j c mu : (i < 3)%nat -> (j < 3)%nat -> tiny < abs1 q ->
  M22 q (norm q) a1 a2 i j c mu = op_c uDDJ c q i j.
Proof.
  intros Hi Hj H. unfold M22. fold (abs1 q). destruct (Rlt_dec tiny (abs1 q)); [|lra].
  unfold D_R, op_c, rot, lsum2. rewrite !rsum3. unfold uDDJ.
  idx3 Hi; idx3 Hj; conc; field.
Qed.
Lemma unb_g q a1 a2 i j k c mu : tiny < norm q ->
  M13 q (norm q) a1 a2 i j k c mu = op_g uDJ uDLJ c a1 a2 q i j k.
Proof.
  intros H. unfold M13. destruct (Rlt_dec tiny (norm q)); [|lra].
  unfold op_g, K, Lap_K, uDJ, uDLJ.
  assert (E1 : DLap_J q (norm q) k i j = DLap_J q (norm q) i j k).
  { rewrite (proj1 (DLap_J_sym q (norm q) k i j)). apply DLap_J_sym. }
  assert (E2 : DLap_J q (norm q) j i k = DLap_J q (norm q) i j k).
  { apply DLap_J_sym. }
  rewrite E1, E2. field.
Qed.
Lemma unb_h q a1 a2 i j k c mu w : (i < 3)%nat -> (j < 3)%nat -> (k < 3)%nat -> tiny < abs1 q ->
  M23 q (norm q) a1 a2 i j k c mu = op_h uDDJ uDDLJ c w q i j k.
Proof.
  intros Hi Hj Hk H. unfold M23. fold (abs1 q). destruct (Rlt_dec tiny (abs1 q)); [|lra].
  unfold D_K, op_h, rot, lsum2. rewrite !rsum3. unfold uDDJ, uDDLJ.
  idx3 Hi; conc;
    rewrite ?(DLap_K_swap2 q (norm q) _ _ k j);
    rewrite ?(DLap_K_swap0 q (norm q) 2 1 j k), ?(DLap_K_swap0 q (norm q) 2 0 j k), ?(DLap_K_swap0 q (norm q) 1 0 j k);
    field.
Qed.
Lemma unb_m q a1 a2 i j k l c mu :
  M33 q (norm q) a1 a2 i j k l c mu = op_m uDDJ uDDLJ c a1 a2 q i j k l.
Proof.
  unfold M33, op_m, D_K, uDDJ, uDDLJ.
  assert (S1 : forall a b cc d, DLap_K q (norm q) a b cc d = DLap_K q (norm q) a b d cc).
  { intros. apply DLap_K_swap2. }
  rewrite (S1 j i l k), (S1 i j l k). field.
Qed.

(** ** lambda = 0 *)
Lemma erfcs_zero s n : generate_erfcs s 0 n = match n with 0%nat => 1 | _ => 0 end.
Proof.
  unfold generate_erfcs. destruct n as [|[|[|[|[|[|[|n]]]]]]]; cbv zeta; try ring.
  replace (0 * s) with 0 by ring. apply erfc_0.
Qed.

Lemma erfcs_zero' s : forall n, (n < 6)%nat -> generate_erfcs s 0 (S n) = 0.
Proof. intros n _. rewrite erfcs_zero. reflexivity. Qed.
Ltac lz := intros; rewrite ?erfcs_zero'; rewrite ?erfcs_zero by lia;
  unfold Lap_rerfclr, DD_rerfclr, DLap_rerfclr, DDD_rerfclr, DDLap_rerfclr, DDDD_rerfclr,
    LapLap_rerfclr, DLapLap_rerfclr, DDDLap_rerfclr, DDLapLap_rerfclr, DDDDLap_rerfclr; cbv zeta.
Lemma zero_J r s i j : 0 < s -> Jr r s i j (generate_erfcs s 0) = J (r i) (r j) i j s.
Proof. intros Hs. unfold Jr, J. rewrite !erfcs_zero. lz. field. lra. Qed.
Lemma zero_D_J r s l i j : 0 < s -> D_Jr r s l i j (generate_erfcs s 0) = D_J r s l i j.
Proof. intros Hs. unfold D_Jr, D_J. rewrite !erfcs_zero. lz. field. lra. Qed.
Lemma zero_DD_J r s m l i j : 0 < s -> DD_Jr r s m l i j (generate_erfcs s 0) = DD_J r s m l i j.
Proof. intros Hs. unfold DD_Jr, DD_J, kronkron. rewrite !erfcs_zero. lz. rewrite (delta_sym l j). field. lra. Qed.
Lemma zero_Lap_J r s i j : 0 < s -> Lap_Jr r s i j (generate_erfcs s 0) = Lap_J (r i) (r j) i j s.
Proof. intros Hs. unfold Lap_Jr, Lap_J. rewrite !erfcs_zero. lz. field. lra. Qed.
Lemma zero_DLap_J r s k i j : 0 < s -> DLap_Jr r s k i j (generate_erfcs s 0) = DLap_J r s k i j.
Proof. intros Hs. unfold DLap_Jr, DLap_J. rewrite !erfcs_zero. lz. field. lra. Qed.
Lemma zero_DDLap_J r s l k i j : 0 < s -> DDLap_Jr r s l k i j (generate_erfcs s 0) = DLap_K r s l i j k.
Proof. intros Hs. unfold DDLap_Jr, DLap_K, kronkron. rewrite !erfcs_zero. lz. rewrite (delta_sym k j). field. lra. Qed.
