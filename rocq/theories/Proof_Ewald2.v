(** The helper functions of generate_Minfinity_periodic.py are the derivatives
    they are named after. *)
From Coq Require Import Reals Lra Lia Arith List.
From Verif Require Import Base Model_Mob Model_Ewald Spec_Calc Proof_Calc Proof_Mob Proof_Ewald1.
Import ListNotations.
Local Open Scope R_scope.

Definition t3 (c : R) (k n : nat) : R * nat * nat := (c, k, n).
Definition FL (n : nat) : list (R * nat * nat) :=
  match n with
  | 0 => [t3 (1) 0 0]
  | 1 => [t3 (1) 0 2; t3 (1) 1 1]
  | 2 => [t3 (-1) 0 4; t3 (1) 1 3; t3 (1) 2 2]
  | 3 => [t3 (3) 0 6; t3 (-3) 1 5; t3 (1) 3 3]
  | _ => [t3 (-15) 0 8; t3 (15) 1 7; t3 (-3) 2 6; t3 (-2) 3 5; t3 (1) 4 4]
  end%nat.
Definition GL (n : nat) : list (R * nat * nat) :=
  match n with
  | 0 => [t3 (2) 0 2; t3 (4) 1 1; t3 (1) 2 0]
  | 1 => [t3 (-2) 0 4; t3 (2) 1 3; t3 (5) 2 2; t3 (1) 3 1]
  | 2 => [t3 (6) 0 6; t3 (-6) 1 5; t3 (-3) 2 4; t3 (5) 3 3; t3 (1) 4 2]
  | 3 => [t3 (-30) 0 8; t3 (30) 1 7; t3 (3) 2 6; t3 (-13) 3 5; t3 (4) 4 4; t3 (1) 5 3]
  | _ => [t3 (210) 0 10; t3 (-210) 1 9; t3 (15) 2 8; t3 (55) 3 7; t3 (-25) 4 6; t3 (2) 5 5; t3 (1) 6 4]
  end%nat.
Definition HL (n : nat) : list (R * nat * nat) :=
  match n with
  | 0 => [t3 (12) 2 2; t3 (8) 3 1; t3 (1) 4 0]
  | 1 => [t3 (-12) 2 4; t3 (12) 3 3; t3 (9) 4 2; t3 (1) 5 1]
  | _ => [t3 (36) 2 6; t3 (-36) 3 5; t3 (3) 4 4; t3 (9) 5 3; t3 (1) 6 2]
  end%nat.

Section Chain.
Variable e : nat -> R -> R.
Hypothesis He : forall k t, (k < 6)%nat -> derivable_pt_lim (e k) t (e (S k) t).

Definition Fphi n := comb e (FL n).
Definition Gphi n := comb e (GL n).
Definition Hphi n := comb e (HL n).

Ltac tow := intros n s Hn Hs;
  repeat (destruct n as [|n]; [eapply dl_eq; [apply (comb_deriv e 6); [exact He|repeat constructor; simpl; lia|exact Hs]
     |unfold dcomb, comb, t3; cbn -[pow INR]; cbn [pow INR]; field; lra]|]); lia.
Lemma F_tower : tower 4 Fphi. Proof. unfold Fphi. tow. Qed.
Lemma G_tower : tower 4 Gphi. Proof. unfold Gphi. tow. Qed.
Lemma H_tower : tower 2 Hphi. Proof. unfold Hphi. tow. Qed.

(** The code's functions as functions of the position. *)
Definition eat (q : vec) (k : nat) : R := e k (len q).
Definition cDD i j q := DD_rerfclr (q i) (q j) (len q) (eat q 0) (eat q 1) (eat q 2) i j.
Definition cLap q := Lap_rerfclr (len q) (eat q 0) (eat q 1) (eat q 2).
Definition cDDD i j l q := DDD_rerfclr (q i) (q j) (q l) (len q) (eat q 0) (eat q 1) (eat q 2) (eat q 3) i j l.
Definition cDLap l q := DLap_rerfclr (q l) (len q) (eat q 0) (eat q 1) (eat q 2) (eat q 3).
Definition cDDDD i j l m q := DDDD_rerfclr (q i) (q j) (q l) (q m) (len q)
  (eat q 0) (eat q 1) (eat q 2) (eat q 3) (eat q 4) i j l m.
Definition cDDLap l m q := DDLap_rerfclr (q l) (q m) (len q)
  (eat q 0) (eat q 1) (eat q 2) (eat q 3) (eat q 4) l m.
Definition cLapLap q := LapLap_rerfclr (len q) (eat q 2) (eat q 3) (eat q 4).
Definition cDDDLap i j k q := DDDLap_rerfclr (q i) (q j) (q k) (len q)
  (eat q 0) (eat q 1) (eat q 2) (eat q 3) (eat q 4) (eat q 5) i j k.
Definition cDLapLap k q := DLapLap_rerfclr (q k) (len q) (eat q 2) (eat q 3) (eat q 4) (eat q 5).
Definition cDDDDLap i j k l q := DDDDLap_rerfclr (q i) (q j) (q k) (q l) (len q)
  (eat q 0) (eat q 1) (eat q 2) (eat q 3) (eat q 4) (eat q 5) (eat q 6) i j k l.
Definition cDDLapLap k l q := DDLapLap_rerfclr (q k) (q l) (len q)
  (eat q 2) (eat q 3) (eat q 4) (eat q 5) (eat q 6) k l.

Ltac shape := intros Hq; pose proof (len_pos _ Hq);
  unfold T1, T2, T3, T4, Fphi, Gphi, Hphi, comb, FL, GL, HL, t3,
    cDD, cLap, cDDD, cDLap, cDDDD, cDDLap, cLapLap, cDDDLap, cDLapLap, cDDDDLap, cDDLapLap, eat,
    DD_rerfclr, Lap_rerfclr, DDD_rerfclr, DLap_rerfclr, DDDD_rerfclr, DDLap_rerfclr, LapLap_rerfclr,
    DDDLap_rerfclr, DLapLap_rerfclr, DDDDLap_rerfclr, DDLapLap_rerfclr;
  cbv zeta; cbn [fold_right fst snd];
  field; lra.

Lemma cDD_shape i j q : nonzero q -> T2 Fphi i j q = cDD i j q. Proof. shape. Qed.
Lemma cDDD_shape i j l q : nonzero q -> T3 Fphi i j l q = cDDD i j l q. Proof. shape. Qed.
Lemma cDDDD_shape i j l m q : nonzero q -> T4 Fphi i j l m q = cDDDD i j l m q. Proof. shape. Qed.
Lemma cLap_shape q : nonzero q -> Gphi 0 (len q) = cLap q. Proof. shape. Qed.
Lemma cDLap_shape l q : nonzero q -> T1 Gphi l q = cDLap l q. Proof. shape. Qed.
Lemma cDDLap_shape l m q : nonzero q -> T2 Gphi m l q = cDDLap l m q.
Proof. unfold cDDLap, DDLap_rerfclr. rewrite (delta_sym l m). shape. Qed.
Lemma cDDDLap_shape i j k q : nonzero q -> T3 Gphi j i k q = cDDDLap i j k q.
Proof. unfold T3. rewrite (delta_sym j i). shape. Qed.
Lemma cDDDDLap_shape i j k l q : nonzero q -> T4 Gphi j i k l q = cDDDDLap i j k l q.
Proof. unfold T4. rewrite (delta_sym j i), (delta_sym k i), (delta_sym j k). unfold cDDDDLap, DDDDLap_rerfclr. rewrite (delta_sym j k). shape. Qed.
Lemma cLapLap_shape q : nonzero q -> Hphi 0 (len q) = cLapLap q. Proof. shape. Qed.
Lemma cDLapLap_shape l q : nonzero q -> T1 Hphi l q = cDLapLap l q. Proof. shape. Qed.
Lemma cDDLapLap_shape l m q : nonzero q -> T2 Hphi m l q = cDDLapLap l m q.
Proof. unfold T2. rewrite (delta_sym m l). shape. Qed.

(** r erfc: first derivative, and the chain. *)
Definition pot (q : vec) : R := len q * e 0%nat (len q).
Lemma pot_shape q : Fphi 0 (len q) = pot q.
Proof. unfold Fphi, comb, FL, t3, pot. cbn [fold_right fst snd]. field. Qed.

Lemma pot_D j r : (j < 3)%nat -> nonzero r -> partial j pot r (T1 Fphi j r).
Proof.
  intros Hj Hr. apply (partial_ext j (fun q => Fphi 0 (len q)) pot); [exact pot_shape|].
  apply (T1_partial 4 Fphi F_tower); [lia|exact Hj|exact Hr].
Qed.
Lemma DD_ok i j r : (i < 3)%nat -> nonzero r -> partial i (T1 Fphi j) r (cDD i j r).
Proof.
  intros Hi Hr. rewrite <- cDD_shape by exact Hr. apply (T2_partial 4 Fphi F_tower); [lia|exact Hi|exact Hr].
Qed.
Ltac go lem sh1 sh2 := intros Hl Hr; eapply partial_near; [exact Hl|exact Hr|intros q Hq; apply sh1; exact Hq|];
   rewrite <- sh2 by exact Hr; apply lem; [lia|exact Hl|exact Hr].
Lemma DDD_ok i j l r : (l < 3)%nat -> nonzero r -> partial l (cDD i j) r (cDDD i j l r).
Proof. go (T3_partial 4 Fphi F_tower) cDD_shape cDDD_shape. Qed.
Lemma DDDD_ok i j l m r : (m < 3)%nat -> nonzero r -> partial m (cDDD i j l) r (cDDDD i j l m r).
Proof. go (T4_partial 4 Fphi F_tower) cDDD_shape cDDDD_shape. Qed.
Lemma DLap_ok l r : (l < 3)%nat -> nonzero r -> partial l cLap r (cDLap l r).
Proof. go (T1_partial 4 Gphi G_tower) cLap_shape cDLap_shape. Qed.
Lemma DDLap_ok l m r : (m < 3)%nat -> nonzero r -> partial m (cDLap l) r (cDDLap l m r).
Proof. go (T2_partial 4 Gphi G_tower) cDLap_shape cDDLap_shape. Qed.
Lemma DDDLap_ok i j k r : (k < 3)%nat -> nonzero r -> partial k (cDDLap i j) r (cDDDLap i j k r).
Proof. go (T3_partial 4 Gphi G_tower) cDDLap_shape cDDDLap_shape. Qed.
Lemma DDDDLap_ok i j k l r : (l < 3)%nat -> nonzero r -> partial l (cDDDLap i j k) r (cDDDDLap i j k l r).
Proof. go (T4_partial 4 Gphi G_tower) cDDDLap_shape cDDDDLap_shape. Qed.
Lemma DLapLap_ok k r : (k < 3)%nat -> nonzero r -> partial k cLapLap r (cDLapLap k r).
Proof. go (T1_partial 2 Hphi H_tower) cLapLap_shape cDLapLap_shape. Qed.
Lemma DDLapLap_ok k l r : (l < 3)%nat -> nonzero r -> partial l (cDLapLap k) r (cDDLapLap k l r).
Proof. go (T2_partial 2 Hphi H_tower) cDLapLap_shape cDDLapLap_shape. Qed.

Lemma cDD_trace r : nonzero r -> cLap r = rsum 3 (fun l => cDD l l r).
Proof.
  intros Hr. pose proof (len_pos r Hr) as Hp. pose proof (len_sq r) as Hs. unfold dot3 in Hs.
  unfold cLap, cDD, Lap_rerfclr, DD_rerfclr, rsum. unfold delta. simpl Nat.eqb. cbv iota.
  set (a := r 0%nat) in *. set (b := r 1%nat) in *. set (c := r 2%nat) in *. set (s := len r) in *.
  assert (Hc : c * c = s * s - a * a - b * b) by lra.
  field [Hc]. lra.
Qed.
Lemma cDDLap_trace r : nonzero r -> cLapLap r = rsum 3 (fun l => cDDLap l l r).
Proof.
  intros Hr. pose proof (len_pos r Hr) as Hp. pose proof (len_sq r) as Hs. unfold dot3 in Hs.
  unfold cLapLap, cDDLap, LapLap_rerfclr, DDLap_rerfclr, rsum. unfold delta. simpl Nat.eqb. cbv iota zeta.
  set (a := r 0%nat) in *. set (b := r 1%nat) in *. set (c := r 2%nat) in *. set (s := len r) in *.
  assert (Hc : c * c = s * s - a * a - b * b) by lra.
  field [Hc]. lra.
Qed.
Lemma Lap_ok r : nonzero r -> laplacian pot r (cLap r).
Proof.
  intros Hr. exists (T1 Fphi), (fun l => cDD l l r). split; [|split].
  - intros l q Hl Hq. apply pot_D; assumption.
  - intros l Hl. apply DD_ok; assumption.
  - apply cDD_trace. exact Hr.
Qed.
Lemma LapLap_ok r : nonzero r -> laplacian cLap r (cLapLap r).
Proof.
  intros Hr. exists cDLap, (fun l => cDDLap l l r). split; [|split].
  - intros l q Hl Hq. apply DLap_ok; assumption.
  - intros l Hl. apply DDLap_ok; assumption.
  - apply cDDLap_trace. exact Hr.
Qed.
End Chain.
