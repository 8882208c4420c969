(** Properties C49-C51: real-space and wave-space pair functions of the
    periodic mobility. *)
From Coq Require Import Reals Lra Lia Arith.
From Verif Require Import Base Model_Mob Model_Ewald Spec_Calc Spec_Ewald Proof_Calc Proof_Mob Proof_Mob2
  Proof_Ewald1 Proof_Ewald2 Proof_Ewald3 Proof_Ewald4 Proof_Ewald5.
Local Open Scope R_scope.

(** C49: [generate_erfcs] returns erfc(lambda s) and its first six
    derivatives, for every separation and every splitting parameter. *)
Theorem C49_erfc_derivatives :
  forall (lamb s : R),
    generate_erfcs s lamb 0 = erfc (lamb * s) /\
    forall n, (n < 6)%nat ->
      derivable_pt_lim (fun t => generate_erfcs t lamb n) s (generate_erfcs s lamb (S n)).
Proof. intros lamb s. split; [reflexivity|]. intros n Hn. exact (erfcs_chain lamb s n Hn). Qed.
Print Assumptions C49_erfc_derivatives.

(** The function being differentiated: |q| erfc(lambda |q|). *)
Definition r_erfc (lamb : R) (q : vec) : R := len q * erfc (lamb * len q).

(** C49: each helper is the derivative of |r| erfc(lambda |r|) it is named
    after; each line differentiates the function of the line it builds on. *)
Theorem C49_helpers_are_derivatives :
  forall (lamb : R) (i j k l m : nat) (r : vec),
    (i < 3)%nat -> (j < 3)%nat -> (k < 3)%nat -> (l < 3)%nat -> (m < 3)%nat -> nonzero r ->
    let e q n := generate_erfcs (len q) lamb n in
    let DD i j q := DD_rerfclr (q i) (q j) (len q) (e q 0%nat) (e q 1%nat) (e q 2%nat) i j in
    let Lap q := Lap_rerfclr (len q) (e q 0%nat) (e q 1%nat) (e q 2%nat) in
    let DDD i j l q := DDD_rerfclr (q i) (q j) (q l) (len q)
        (e q 0%nat) (e q 1%nat) (e q 2%nat) (e q 3%nat) i j l in
    let DLap l q := DLap_rerfclr (q l) (len q) (e q 0%nat) (e q 1%nat) (e q 2%nat) (e q 3%nat) in
    let DDDD i j l m q := DDDD_rerfclr (q i) (q j) (q l) (q m) (len q)
        (e q 0%nat) (e q 1%nat) (e q 2%nat) (e q 3%nat) (e q 4%nat) i j l m in
    let DDLap l m q := DDLap_rerfclr (q l) (q m) (len q)
        (e q 0%nat) (e q 1%nat) (e q 2%nat) (e q 3%nat) (e q 4%nat) l m in
    let LapLap q := LapLap_rerfclr (len q) (e q 2%nat) (e q 3%nat) (e q 4%nat) in
    let DDDLap i j k q := DDDLap_rerfclr (q i) (q j) (q k) (len q)
        (e q 0%nat) (e q 1%nat) (e q 2%nat) (e q 3%nat) (e q 4%nat) (e q 5%nat) i j k in
    let DLapLap k q := DLapLap_rerfclr (q k) (len q) (e q 2%nat) (e q 3%nat) (e q 4%nat) (e q 5%nat) in
    let DDDDLap i j k l q := DDDDLap_rerfclr (q i) (q j) (q k) (q l) (len q)
        (e q 0%nat) (e q 1%nat) (e q 2%nat) (e q 3%nat) (e q 4%nat) (e q 5%nat) (e q 6%nat) i j k l in
    let DDLapLap k l q := DDLapLap_rerfclr (q k) (q l) (len q)
        (e q 2%nat) (e q 3%nat) (e q 4%nat) (e q 5%nat) (e q 6%nat) k l in
    second i j (r_erfc lamb) r (DD i j r) /\
    laplacian (r_erfc lamb) r (Lap r) /\
    partial l (DD i j) r (DDD i j l r) /\
    partial m (DDD i j l) r (DDDD i j l m r) /\
    partial l Lap r (DLap l r) /\
    partial m (DLap l) r (DDLap l m r) /\
    laplacian Lap r (LapLap r) /\
    partial k (DDLap i j) r (DDDLap i j k r) /\
    partial l (DDDLap i j k) r (DDDDLap i j k l r) /\
    partial k LapLap r (DLapLap k r) /\
    partial l (DLapLap k) r (DDLapLap k l r).
Proof.
  intros lamb i j k l m r Hi Hj Hk Hl Hm Hr. cbv zeta.
  pose (e := fun (n : nat) (s : R) => generate_erfcs s lamb n).
  assert (He : forall k t, (k < 6)%nat -> derivable_pt_lim (e k) t (e (S k) t)).
  { intros k' t Hk'. exact (erfcs_chain lamb t k' Hk'). }
  split; [|split; [|split; [|split; [|split; [|split; [|split; [|split; [|split; [|split]]]]]]]]].
  - exists (T1 (Fphi e) j). split; [intros q Hq; exact (pot_D e He j q Hj Hq)|exact (DD_ok e He i j r Hi Hr)].
  - exact (Lap_ok e He r Hr).
  - exact (DDD_ok e He i j l r Hl Hr).
  - exact (DDDD_ok e He i j l m r Hm Hr).
  - exact (DLap_ok e He l r Hl Hr).
  - exact (DDLap_ok e He l m r Hm Hr).
  - exact (LapLap_ok e He r Hr).
  - exact (DDDLap_ok e He i j k r Hk Hr).
  - exact (DDDDLap_ok e He i j k l r Hl Hr).
  - exact (DLapLap_ok e He k r Hk Hr).
  - exact (DDLapLap_ok e He k l r Hl Hr).
Qed.
Print Assumptions C49_helpers_are_derivatives.

(** The Laplacian at distance 3 with lambda = 0 is 2/3: nothing is trivially zero. *)
Example C49_example : nonzero (v3 1 2 2) /\ erfc 0 = 1 /\
  Lap_rerfclr 3 (generate_erfcs 3 0 0) (generate_erfcs 3 0 1) (generate_erfcs 3 0 2) = 2 / 3.
Proof.
  split; [unfold nonzero, dot3; simpl; lra|split; [exact erfc_0|]].
  rewrite !erfcs_zero. unfold Lap_rerfclr. lra.
Qed.

(** C50: the real-space Green's tensor is (delta lap - grad grad) applied to
    |r| erfc(lambda |r|); it is symmetric and incompressible. *)
Theorem C50_real_space_greens_tensor :
  forall (lamb : R) (i j : nat) (r : vec), (i < 3)%nat -> (j < 3)%nat -> nonzero r ->
    let Jf i j q := Jr q (len q) i j (generate_erfcs (len q) lamb) in
    (exists d w, second i j (r_erfc lamb) r d /\ laplacian (r_erfc lamb) r w /\
                 Jf i j r = delta i j * w - d) /\
    Jf i j r = Jf j i r /\
    divergence (fun i => Jf i j) r 0.
Proof.
  intros lamb i j r Hi Hj Hr Jf.
  pose (e := fun (n : nat) (s : R) => generate_erfcs s lamb n).
  assert (He : forall k t, (k < 6)%nat -> derivable_pt_lim (e k) t (e (S k) t)).
  { intros k' t Hk'. exact (erfcs_chain lamb t k' Hk'). }
  exact (conj (fJ_pot e He i j r Hi Hj Hr) (conj (fJ_sym e i j r) (fJ_div e He j r Hj Hr))).
Qed.
Print Assumptions C50_real_space_greens_tensor.

(** C50: the derivative functions of the real-space tensors. *)
Theorem C50_derivatives :
  forall (lamb : R) (k l m i j : nat) (r : vec),
    (k < 3)%nat -> (l < 3)%nat -> (m < 3)%nat -> (i < 3)%nat -> (j < 3)%nat -> nonzero r ->
    let e q := generate_erfcs (len q) lamb in
    partial l (fun q => Jr q (len q) i j (e q)) r (D_Jr r (len r) l i j (e r)) /\
    partial m (fun q => D_Jr q (len q) l i j (e q)) r (DD_Jr r (len r) m l i j (e r)) /\
    laplacian (fun q => Jr q (len q) i j (e q)) r (Lap_Jr r (len r) i j (e r)) /\
    partial k (fun q => Lap_Jr q (len q) i j (e q)) r (DLap_Jr r (len r) k i j (e r)) /\
    partial l (fun q => DLap_Jr q (len q) k i j (e q)) r (DDLap_Jr r (len r) l k i j (e r)) /\
    Rr r (len r) i j (e r) = - (1 / 2) * rot (fun k l => D_Jr r (len r) k i l (e r)) j /\
    Kr r (len r) i j k (e r) = 1 / 2 * (D_Jr r (len r) k i j (e r) + D_Jr r (len r) j i k (e r)) /\
    partial l (fun q => Rr q (len q) i j (e q)) r (D_Rr r (len r) l i j (e r)) /\
    partial l (fun q => Kr q (len q) i j k (e q)) r (D_Kr r (len r) l i j k (e r)) /\
    laplacian (fun q => Rr q (len q) i j (e q)) r (Lap_Rr r (len r) i j (e r)) /\
    laplacian (fun q => Kr q (len q) i j k (e q)) r (Lap_Kr r (len r) i j k (e r)) /\
    partial l (fun q => Lap_Kr q (len q) i j k (e q)) r (DLap_Kr r (len r) l i j k (e r)).
Proof.
  intros lamb k l m i j r Hk Hl Hm Hi Hj Hr. cbv zeta.
  pose (e := fun (n : nat) (s : R) => generate_erfcs s lamb n).
  assert (He : forall k t, (k < 6)%nat -> derivable_pt_lim (e k) t (e (S k) t)).
  { intros k' t Hk'. exact (erfcs_chain lamb t k' Hk'). }
  exact (conj (fDJ_ok e He l i j r Hl Hr) (conj (fDDJ_ok e He m l i j r Hm Hr)
    (conj (fLJ_ok e He i j r Hi Hj Hr) (conj (fDLJ_ok e He k i j r Hk Hr)
    (conj (fDDLJ_ok e He l k i j r Hl Hr) (conj (Rr_rot e r i j Hj) (conj eq_refl
    (conj (D_Rr_ok e He l i j r Hl Hr) (conj (D_Kr_ok e He l i j k r Hl Hr)
    (conj (Lap_Rr_ok e He i j r Hi Hr) (conj (Lap_Kr_ok e He i j k r Hi Hj Hk Hr)
          (DLap_Kr_ok e He l i j k r Hl Hr)))))))))))).
Qed.
Print Assumptions C50_derivatives.

(** C50: with lambda = 0 (no splitting) the real-space tensors are those of
    the unbounded code. *)
Theorem C50_no_splitting_is_unbounded :
  forall (r : vec) (s : R) (i j k l m : nat), 0 < s ->
    let e := generate_erfcs s 0 in
    Jr r s i j e = J (r i) (r j) i j s /\
    D_Jr r s l i j e = D_J r s l i j /\
    DD_Jr r s m l i j e = DD_J r s m l i j /\
    Lap_Jr r s i j e = Lap_J (r i) (r j) i j s /\
    DLap_Jr r s k i j e = DLap_J r s k i j /\
    DDLap_Jr r s l k i j e = DLap_K r s l i j k.
Proof.
  intros r s i j k l m Hs. cbv zeta.
  exact (conj (zero_J r s i j Hs) (conj (zero_D_J r s l i j Hs) (conj (zero_DD_J r s m l i j Hs)
        (conj (zero_Lap_J r s i j Hs) (conj (zero_DLap_J r s k i j Hs) (zero_DDLap_J r s l k i j Hs)))))).
Qed.
Print Assumptions C50_no_splitting_is_unbounded.

Example C50_example : nonzero (v3 1 2 2) /\ Jr (v3 1 2 2) 3 0 1 (generate_erfcs 3 0) = 2 / 27.
Proof.
  split; [unfold nonzero, dot3; simpl; lra|].
  rewrite zero_J by lra. unfold J, delta. simpl. lra.
Qed.

(** C51: the same operators ([op_a] ... [op_m], with the same weights) give
    the unbounded, the real-space and the wave-space pair functions, each
    applied to its own Green's tensor. *)
Theorem C51_unbounded_pair_functions :
  exists D DD LJ DLJ DDLJ,
    let Jf i j q := J (q i) (q j) i j (norm q) in
    derivatives nonzero Jf D DD LJ DLJ DDLJ /\
    forall (q : vec) (a1 a2 c mu : R) (i j k l : nat),
      (i < 3)%nat -> (j < 3)%nat -> (k < 3)%nat -> (l < 3)%nat ->
      tiny < norm q -> tiny < Rabs (q 0%nat) + Rabs (q 1%nat) + Rabs (q 2%nat) ->
      M11 (q i) (q j) (norm q) a1 a2 i j c mu = op_a Jf LJ c a1 a2 q i j /\
      M12 q (norm q) a1 a2 i j c mu = op_b D DLJ c a1 q i j /\
      M22 q (norm q) a1 a2 i j c mu = op_c DD c q i j /\
      M13 q (norm q) a1 a2 i j k c mu = op_g D DLJ c a1 a2 q i j k /\
      M23 q (norm q) a1 a2 i j k c mu = op_h DD DDLJ c (a2 ^ 2 / 6) q i j k /\
      M23 q (norm q) a1 a2 i j k c mu = op_h DD DDLJ c (a2 ^ 2 / 10) q i j k /\
      M33 q (norm q) a1 a2 i j k l c mu = op_m DD DDLJ c a1 a2 q i j k l.
Proof.
  exists uDJ, uDDJ, uLJ, uDLJ, uDDLJ. split; [exact unbounded_derivatives|].
  intros q a1 a2 c mu i j k l Hi Hj Hk Hl Hs H1.
  exact (conj (unb_a q a1 a2 i j c mu Hs) (conj (unb_b q a1 a2 i j c mu Hj Hs)
    (conj (unb_c q a1 a2 i j c mu Hi Hj H1) (conj (unb_g q a1 a2 i j k c mu Hs)
    (conj (unb_h q a1 a2 i j k c mu _ Hi Hj Hk H1) (conj (unb_h q a1 a2 i j k c mu _ Hi Hj Hk H1)
          (unb_m q a1 a2 i j k l c mu))))))).
Qed.
Print Assumptions C51_unbounded_pair_functions.

Theorem C51_real_space_pair_functions :
  forall (lamb : R), exists D DD LJ DLJ DDLJ,
    let e q := generate_erfcs (len q) lamb in
    let Jf i j q := Jr q (len q) i j (e q) in
    derivatives nonzero Jf D DD LJ DLJ DDLJ /\
    forall (q : vec) (a1 a2 c mu : R) (i j k l : nat),
      (i < 3)%nat -> (j < 3)%nat -> (k < 3)%nat -> (l < 3)%nat ->
      tiny < len q -> tiny < Rabs (q 0%nat) + Rabs (q 1%nat) + Rabs (q 2%nat) ->
      ar q (len q) a1 a2 i j (e q) c mu = op_a Jf LJ c a1 a2 q i j /\
      btr q (len q) a1 a2 i j (e q) c mu = op_b D DLJ c a1 q i j /\
      cr q (len q) a1 a2 i j (e q) c mu = op_c DD c q i j /\
      gtr q (len q) a1 a2 i j k (e q) c mu = op_g D DLJ c a1 a2 q i j k /\
      htr q (len q) a1 a2 i j k (e q) c mu = op_h DD DDLJ c (a2 ^ 2 / 6) q i j k /\
      mr q (len q) a1 a2 i j k l (e q) c mu = op_m DD DDLJ c a1 a2 q i j k l.
Proof.
  intros lamb.
  pose (e := fun (n : nat) (s : R) => generate_erfcs s lamb n).
  assert (He : forall k t, (k < 6)%nat -> derivable_pt_lim (e k) t (e (S k) t)).
  { intros k' t Hk'. exact (erfcs_chain lamb t k' Hk'). }
  exists (fDJ e), (fDDJ e), (fLJ e), (fDLJ e), (fDDLJ e). split; [exact (real_derivatives e He)|].
  intros q a1 a2 c mu i j k l Hi Hj Hk Hl Hs H1.
  exact (conj (ar_op e q a1 a2 i j c mu Hs) (conj (btr_op e q a1 a2 i j c mu Hj Hs)
    (conj (cr_op e q a1 a2 i j c mu Hi Hj H1) (conj (gtr_op e q a1 a2 i j k c mu Hs)
    (conj (htr_op e q a1 a2 i j k c mu Hi H1) (mr_op e q a1 a2 i j k l c mu Hs)))))).
Qed.
Print Assumptions C51_real_space_pair_functions.

Theorem C51_wave_space_pair_functions :
  forall (kk : vec) (RR : R), exists D DD LJ DLJ DDLJ,
    let ks := norm kk in
    let wave q := cos (dot3 kk q) in
    let Jf i j q := Jtilde (kk i) (kk j) ks i j RR * wave q in
    derivatives (fun _ => True) Jf D DD LJ DLJ DDLJ /\
    (forall i j r, (i < 3)%nat -> (j < 3)%nat -> exists d w,
       second i j (fun q => RR * wave q) r d /\ laplacian (fun q => RR * wave q) r w /\
       Jf i j r = delta i j * w - d) /\
    forall (q : vec) (a1 a2 c : R) (i j k l : nat),
      (i < 3)%nat -> (j < 3)%nat -> (k < 3)%nat -> (l < 3)%nat ->
      aktilde kk ks a1 a2 i j RR c * wave q = op_a Jf LJ c a1 a2 q i j /\
      cktilde kk ks a1 a2 i j RR c * wave q = op_c DD c q i j /\
      htktilde kk ks a1 a2 i j k RR c * wave q = op_h DD DDLJ c (a2 ^ 2 / 6) q i j k /\
      mktilde kk ks a1 a2 i j k l RR c * wave q = op_m DD DDLJ c a1 a2 q i j k l.
Proof.
  intros kk RR. exists (wDJ kk RR), (wDDJ kk RR), (wLJ kk RR), (wDLJ kk RR), (wDDLJ kk RR).
  split; [exact (wave_derivatives kk RR)|split].
  - intros i j r Hi Hj. exact (wJ_pot kk RR i j r Hi Hj).
  - intros q a1 a2 c i j k l Hi Hj Hk Hl.
    exact (conj (aktilde_op kk RR q a1 a2 i j c) (conj (cktilde_op kk RR q a1 a2 i j c Hi Hj)
      (conj (htktilde_op kk RR q a1 a2 i j k c Hi) (mktilde_op kk RR q a1 a2 i j k l c)))).
Qed.
Print Assumptions C51_wave_space_pair_functions.

Example C51_example : tiny < len (v3 1 2 2) /\
  tiny < Rabs (v3 1 2 2 0%nat) + Rabs (v3 1 2 2 1%nat) + Rabs (v3 1 2 2 2%nat) /\
  aktilde (v3 1 2 2) 3 1 1 0 1 1 1 = -4.
Proof.
  assert (Ht : tiny < 1).
  { unfold tiny. rewrite <- Rinv_1. apply Rinv_lt_contravar; simpl; lra. }
  assert (Hl : len (v3 1 2 2) = 3).
  { unfold len, dot3; simpl. replace (1 * 1 + 2 * 2 + 2 * 2) with (3 * 3) by ring. apply sqrt_square. lra. }
  split; [rewrite Hl; lra|split].
  - simpl. rewrite !Rabs_pos_eq by lra. lra.
  - unfold aktilde, Lap_Jtilde, Jtilde, delta. simpl. lra.
Qed.
