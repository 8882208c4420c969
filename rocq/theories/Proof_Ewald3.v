(** Derivatives of the real-space tensors. *)
From Coq Require Import Reals Lra Lia Arith List.
From Verif Require Import Base Model_Mob Model_Ewald Spec_Calc Proof_Calc Proof_Mob Proof_Ewald1 Proof_Ewald2.
Import ListNotations.
Local Open Scope R_scope.

(** One more level of the tower over r erfc. *)
Definition FL5 (n : nat) : list (R * nat * nat) :=
  match n with
  | 5 => [t3 105 0 10; t3 (-105) 1 9; t3 30 2 8; t3 5 3 7; t3 (-5) 4 6; t3 1 5 5]
  | n => FL n
  end%nat.

Definition T5 (phi : nat -> R -> R) (i j l m n : nat) (q : vec) : R :=
  ((delta i j * delta l m + delta j l * delta i m + delta i l * delta j m) * q n
   + delta i j * (delta l n * q m + delta m n * q l)
   + delta i l * (delta j n * q m + delta m n * q j)
   + delta l j * (delta i n * q m + delta m n * q i)
   + delta i m * (delta j n * q l + delta l n * q j)
   + delta j m * (delta i n * q l + delta l n * q i)
   + delta l m * (delta i n * q j + delta j n * q i)) * phi 3%nat (len q)
  + ((delta i j * q l * q m + delta i l * q j * q m + delta l j * q i * q m
      + delta i m * q j * q l + delta j m * q i * q l + delta l m * q i * q j) * q n
     + delta i n * q j * q l * q m + delta j n * q i * q l * q m
     + delta l n * q i * q j * q m + delta m n * q i * q j * q l) * phi 4%nat (len q)
  + q i * q j * q l * q m * q n * phi 5%nat (len q).

Lemma T5_partial N phi i j l m n r : tower N phi -> (4 < N)%nat -> (n < 3)%nat -> nonzero r ->
  partial n (T4 phi i j l m) r (T5 phi i j l m n r).
Proof.
  intros HT HN Hn Hr. unfold T4, T5. eapply partial_eq.
  - apply partial_plus; [apply partial_plus|].
    + apply partial_scal. apply (partial_radial N); [exact HT|lia|exact Hn|exact Hr].
    + apply partial_mult; [resp|resp| |apply (partial_radial N); [exact HT|lia|exact Hn|exact Hr]].
      repeat apply partial_plus;
       (apply partial_mult; [resp|resp|apply partial_scal; apply partial_coord|apply partial_coord]).
    + apply partial_mult; [resp|resp| |apply (partial_radial N); [exact HT|lia|exact Hn|exact Hr]].
      repeat (apply partial_mult; [resp|resp| |apply partial_coord]). apply partial_coord.
  - cbv beta. ring.
Qed.

Section Chain.
Variable e : nat -> R -> R.
Hypothesis He : forall k t, (k < 6)%nat -> derivable_pt_lim (e k) t (e (S k) t).

Definition Fphi5 n := comb e (FL5 n).
Lemma F5_tower : tower 5 Fphi5.
Proof.
  unfold Fphi5. intros n s Hn Hs.
  repeat (destruct n as [|n]; [eapply dl_eq; [apply (comb_deriv e 6); [exact He|repeat constructor; simpl; lia|exact Hs]
     |unfold dcomb, comb, t3; cbn -[pow INR]; cbn [pow INR]; field; lra]|]); lia.
Qed.

Definition cD5 i j l m n q := T5 Fphi5 i j l m n q.
Lemma D5_ok i j l m n r : (n < 3)%nat -> nonzero r -> partial n (cDDDD e i j l m) r (cD5 i j l m n r).
Proof.
  intros Hn Hr. eapply partial_near; [exact Hn|exact Hr|intros q Hq; apply cDDDD_shape; exact Hq|].
  apply (T5_partial 5 Fphi5); [exact F5_tower|lia|exact Hn|exact Hr].
Qed.

Ltac tr r Hr := pose proof (len_pos r Hr) as Hp; pose proof (len_sq r) as Hs; unfold dot3 in Hs;
  set (a := r 0%nat) in *; set (b := r 1%nat) in *; set (c := r 2%nat) in *; set (s := len r) in *;
  assert (Hc : c * c = s * s - a * a - b * b) by lra.

(** Contractions. *)
Lemma DDDD_trace i j r : (i < 3)%nat -> (j < 3)%nat -> nonzero r ->
  rsum 3 (fun l => cDDDD e i j l l r) = cDDLap e i j r.
Proof.
  intros Hi Hj Hr. unfold cDDDD, cDDLap, eat, DDDD_rerfclr, DDLap_rerfclr, rsum. cbv zeta.
  idx3 Hi; idx3 Hj; unfold delta; simpl Nat.eqb; cbv iota; tr r Hr; field [Hc]; lra.
Qed.
Lemma D5_trace i j k r : (i < 3)%nat -> (j < 3)%nat -> (k < 3)%nat -> nonzero r ->
  rsum 3 (fun l => cD5 i j k l l r) = cDDDLap e i j k r.
Proof.
  intros Hi Hj Hk Hr. unfold cD5, T5, Fphi5, comb, FL5, FL, t3, cDDDLap, eat, DDDLap_rerfclr, rsum. cbv zeta.
  cbn [fold_right fst snd].
  idx3 Hi; idx3 Hj; idx3 Hk; unfold delta; simpl Nat.eqb; cbv iota; tr r Hr; field [Hc]; lra.
Qed.
Lemma DDD_div j l r : (j < 3)%nat -> (l < 3)%nat -> nonzero r ->
  rsum 3 (fun i => cDDD e i j i r) = cDLap e j r.
Proof.
  intros Hj Hl Hr. unfold cDDD, cDLap, eat, DDD_rerfclr, DLap_rerfclr, rsum. cbv zeta.
  idx3 Hj; unfold delta; simpl Nat.eqb; cbv iota; tr r Hr; field [Hc]; lra.
Qed.
Lemma DDDLap_div j r : (j < 3)%nat -> nonzero r ->
  rsum 3 (fun i => cDDDLap e i j i r) = cDLapLap e j r.
Proof.
  intros Hj Hr. unfold cDDDLap, cDLapLap, eat, DDDLap_rerfclr, DLapLap_rerfclr, rsum. cbv zeta.
  idx3 Hj; unfold delta; simpl Nat.eqb; cbv iota; tr r Hr; field [Hc]; lra.
Qed.
End Chain.
