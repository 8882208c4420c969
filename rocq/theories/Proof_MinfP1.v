(** Parity and exchange symmetry of the periodic pair functions. *)
From Coq Require Import Reals Lra Lia Arith List Permutation FunctionalExtensionality.
From Verif Require Import Base Model_Pack Model_Mob Model_Ewald Model_MinfP Spec_Calc Proof_Calc Proof_Mob Proof_Mob2 Proof_Ewald5.
Import ListNotations.
Local Open Scope R_scope.

Ltac unf := unfold vopp, Jr, D_Jr, DD_Jr, Lap_Jr, DLap_Jr, DDLap_Jr, DD_rerfclr, Lap_rerfclr, DDD_rerfclr, DLap_rerfclr, DDDD_rerfclr,
  DDLap_rerfclr, LapLap_rerfclr, DDDLap_rerfclr, DLapLap_rerfclr, DDDDLap_rerfclr, DDLapLap_rerfclr, Rdiv; cbv zeta.

Section Parity.
Variables (r : vec) (s : R) (e : nat -> R).
Lemma Jr_even i j : Jr (vopp r) s i j e = Jr r s i j e. Proof. unf. ring. Qed.
Lemma D_Jr_odd l i j : D_Jr (vopp r) s l i j e = - D_Jr r s l i j e. Proof. unf. ring. Qed.
Lemma DD_Jr_even m l i j : DD_Jr (vopp r) s m l i j e = DD_Jr r s m l i j e. Proof. unf. ring. Qed.
Lemma Lap_Jr_even i j : Lap_Jr (vopp r) s i j e = Lap_Jr r s i j e. Proof. unf. ring. Qed.
Lemma DLap_Jr_odd l i j : DLap_Jr (vopp r) s l i j e = - DLap_Jr r s l i j e. Proof. unf. ring. Qed.
Lemma DDLap_Jr_even m l i j : DDLap_Jr (vopp r) s m l i j e = DDLap_Jr r s m l i j e. Proof. unf. ring. Qed.

Lemma Jr_sym i j : Jr r s j i e = Jr r s i j e. Proof. unf. rewrite (delta_sym j i). ring. Qed.
Lemma Lap_Jr_sym i j : Lap_Jr r s j i e = Lap_Jr r s i j e. Proof. unf. rewrite (delta_sym j i). ring. Qed.
Lemma DD_Jr_sym m l i j : DD_Jr r s m l j i e = DD_Jr r s m l i j e.
Proof. unf. rewrite (delta_sym j i), (delta_sym l i), (delta_sym l j). ring. Qed.
Lemma DD_Jr_sym' m l i j : DD_Jr r s l m i j e = DD_Jr r s m l i j e.
Proof. unf. rewrite (delta_sym l m), (delta_sym m j), (delta_sym l j). ring. Qed.
Lemma DDLap_Jr_sym m l i j : DDLap_Jr r s m l j i e = DDLap_Jr r s m l i j e.
Proof. unf. rewrite (delta_sym j i), (delta_sym l i), (delta_sym l j). ring. Qed.
Lemma DDLap_Jr_sym' m l i j : DDLap_Jr r s l m i j e = DDLap_Jr r s m l i j e.
Proof. unf. rewrite (delta_sym l m), (delta_sym m j), (delta_sym l j). ring. Qed.
End Parity.

Lemma abs1_vopp r : abs1 (vopp r) = abs1 r.
Proof. unfold abs1, vopp. rewrite !Rabs_Ropp. reflexivity. Qed.

Lemma ar_swap r s a1 a2 i j e c mu : tiny < s -> ar (vopp r) s a2 a1 j i e c mu = ar r s a1 a2 i j e c mu.
Proof.
  intros Hs. unfold ar. destruct (Rlt_dec tiny s); [|contradiction].
  rewrite Jr_even, Lap_Jr_even, Jr_sym, Lap_Jr_sym. unfold Rdiv; ring.
Qed.
Lemma ar_self_sym r s a i j e c mu : ar (vopp r) s a a j i e c mu = ar r s a a i j e c mu.
Proof.
  unfold ar. rewrite Jr_even, Lap_Jr_even, Jr_sym, Lap_Jr_sym, (delta_sym j i). reflexivity.
Qed.
Lemma btr_odd r s a1 a2 i j e c mu : btr (vopp r) s a1 a2 i j e c mu = - btr r s a1 a2 i j e c mu.
Proof.
  unfold btr. destruct (Rlt_dec tiny s); [|ring]. unfold Rr, Lap_Rr. cbv zeta.
  rewrite !D_Jr_odd, !DLap_Jr_odd. ring.
Qed.
Lemma gtr_odd r s a1 a2 i j k e c mu : gtr (vopp r) s a1 a2 i j k e c mu = - gtr r s a1 a2 i j k e c mu.
Proof.
  unfold gtr. destruct (Rlt_dec tiny s); [|ring]. unfold Kr, Lap_Kr. rewrite !D_Jr_odd, !DLap_Jr_odd. ring.
Qed.
Lemma cr_swap' r s a1 b1 a2 b2 i j e c mu : (i < 3)%nat -> (j < 3)%nat -> (tiny < abs1 r \/ a1 = b1) ->
  cr (vopp r) s b1 b2 j i e c mu = cr r s a1 a2 i j e c mu.
Proof.
  intros Hi Hj H. unfold cr. rewrite abs1_vopp.
  destruct (Rle_dec (abs1 r) tiny) as [Hr|Hr].
  - destruct H as [H| ->]; [lra|]. rewrite delta_sym. reflexivity.
  - unfold D_Rr. rewrite !DD_Jr_even.
    idx3 Hi; idx3 Hj; cbn [Nat.add Nat.modulo Nat.divmod fst snd Nat.sub];
    rewrite ?(DD_Jr_sym' r s e 1 0), ?(DD_Jr_sym' r s e 2 0), ?(DD_Jr_sym' r s e 2 1),
            ?(DD_Jr_sym r s e _ _ 0 1), ?(DD_Jr_sym r s e _ _ 0 2), ?(DD_Jr_sym r s e _ _ 1 2); ring.
Qed.
Lemma htr_even r s a1 a2 i j k e c mu : htr (vopp r) s a1 a2 i j k e c mu = htr r s a1 a2 i j k e c mu.
Proof.
  unfold htr. rewrite abs1_vopp. destruct (Rlt_dec tiny (abs1 r)); [|reflexivity].
  unfold D_Kr, DLap_Kr. cbv zeta. rewrite !DD_Jr_even, !DDLap_Jr_even. reflexivity.
Qed.
Lemma kron3t_sym i j k l : kron3traceless k l i j = kron3traceless i j k l.
Proof. unfold kron3traceless. rewrite (delta_sym k i), (delta_sym l j), (delta_sym k j), (delta_sym l i). ring. Qed.
Lemma mr_swap r s a1 a2 i j k l e c mu : (tiny < s \/ a1 = a2) ->
  mr (vopp r) s a2 a1 k l i j e c mu = mr r s a1 a2 i j k l e c mu.
Proof.
  intros H. unfold mr. destruct (Rlt_dec tiny s) as [Hs|Hs].
  - unfold D_Kr, DLap_Kr. rewrite !DD_Jr_even, !DDLap_Jr_even.
    rewrite (DD_Jr_sym' r s e j l), (DD_Jr_sym' r s e i l), (DD_Jr_sym' r s e j k), (DD_Jr_sym' r s e i k).
    rewrite (DDLap_Jr_sym' r s e j l), (DDLap_Jr_sym' r s e i l), (DDLap_Jr_sym' r s e j k), (DDLap_Jr_sym' r s e i k).
    rewrite (DD_Jr_sym r s e _ _ i k), (DD_Jr_sym r s e _ _ i l), (DD_Jr_sym r s e _ _ j k), (DD_Jr_sym r s e _ _ j l).
    rewrite (DDLap_Jr_sym r s e _ _ i k), (DDLap_Jr_sym r s e _ _ i l), (DDLap_Jr_sym r s e _ _ j k), (DDLap_Jr_sym r s e _ _ j l).
    unfold Rdiv; ring.
  - destruct H as [H| ->]; [contradiction|]. rewrite kron3t_sym. reflexivity.
Qed.

(** Wave space. *)
Lemma aktilde_sym K s a1 a2 i j RR c : aktilde K s a2 a1 j i RR c = aktilde K s a1 a2 i j RR c.
Proof. unfold aktilde, Lap_Jtilde, Jtilde. rewrite (delta_sym j i). unfold Rdiv. ring. Qed.
Lemma cktilde_sym K s a1 a2 b1 b2 i j RR c : (i < 3)%nat -> (j < 3)%nat ->
  cktilde K s b1 b2 j i RR c = cktilde K s a1 a2 i j RR c.
Proof.
  intros Hi Hj. unfold cktilde, D_Rtilde, DD_Jtilde, Jtilde, delta.
  idx3 Hi; idx3 Hj; cbn [Nat.add Nat.modulo Nat.divmod fst snd Nat.sub Nat.eqb]; ring.
Qed.
Lemma mktilde_sym K s a1 a2 i j k l RR c : mktilde K s a2 a1 k l i j RR c = mktilde K s a1 a2 i j k l RR c.
Proof.
  unfold mktilde, DLap_Ktilde, D_Ktilde, DD_Jtilde, Jtilde.
  rewrite (delta_sym k i), (delta_sym l j), (delta_sym k j), (delta_sym l i). unfold Rdiv. ring.
Qed.

(** Sums over lists symmetric under reflection. *)
Lemma vsum_ext l f g : (forall X, In X l -> f X = g X) -> vsum l f = vsum l g.
Proof. induction l as [|X l IH]; intros H; simpl; [reflexivity|]. rewrite H, IH; [reflexivity| |left; reflexivity]. intros; apply H; right; assumption. Qed.
Lemma vsum_perm l l' f : Permutation l l' -> vsum l f = vsum l' f.
Proof. induction 1; simpl; [reflexivity|rewrite IHPermutation; reflexivity|ring|congruence]. Qed.
Lemma vsum_map l g f : vsum (map g l) f = vsum l (fun X => f (g X)).
Proof. induction l as [|X l IH]; simpl; [reflexivity|]. rewrite IH. reflexivity. Qed.
Lemma vsum_opp l f : vsum l (fun X => - f X) = - vsum l f.
Proof. induction l as [|X l IH]; simpl; [ring|]. rewrite IH. ring. Qed.
Lemma vsum_scal l k f : vsum l (fun X => k * f X) = k * vsum l f.
Proof. induction l as [|X l IH]; simpl; [ring|]. rewrite IH. ring. Qed.
Lemma vsum_plus l f g : vsum l (fun X => f X + g X) = vsum l f + vsum l g.
Proof. induction l as [|X l IH]; simpl; [ring|]. rewrite IH. ring. Qed.
Lemma vsum_zero l f : (forall X, In X l -> f X = 0) -> vsum l f = 0.
Proof. induction l as [|X l IH]; intros H; simpl; [reflexivity|]. rewrite H, IH; [ring| |left; reflexivity]. intros; apply H; right; assumption. Qed.

Definition reflected (l : list vec) : Prop := Permutation (map vopp l) l.
Lemma vsum_reflect l f : reflected l -> vsum l (fun X => f (vopp X)) = vsum l f.
Proof. intros H. rewrite <- vsum_map. apply vsum_perm. exact H. Qed.
Lemma vopp_invol r : vopp (vopp r) = r.
Proof. apply functional_extensionality. intros t. unfold vopp. ring. Qed.
Lemma vadd_opp r X : vadd (vopp r) (vopp X) = vopp (vadd r X).
Proof. apply functional_extensionality. intros t. unfold vopp, vadd. ring. Qed.
(** sum over images of the reflected separation *)
Lemma vsum_image l r f : reflected l -> vsum l (fun X => f (vadd (vopp r) X)) = vsum l (fun X => f (vopp (vadd r X))).
Proof.
  intros H. rewrite <- (vsum_reflect l (fun X => f (vadd (vopp r) X)) H).
  apply vsum_ext. intros X _. rewrite vadd_opp. reflexivity.
Qed.
Lemma dot3_vopp K r : dot3 K (vopp r) = - dot3 K r.
Proof. unfold dot3, vopp. ring. Qed.
