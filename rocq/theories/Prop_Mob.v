(** Properties C06-C08 and C46: the far-field pair mobility functions. *)
From Coq Require Import Reals Arith Lra Lia.
From Verif Require Import Base Model_Pack Model_Mob Spec_Calc Proof_Calc Proof_Mob Proof_Mob2.
Local Open Scope R_scope.

(** C06.  [Jf i j q] is [J(q[i], q[j], i, j, norm(q))], [LJf] the same for
    [Lap_J]. *)
Theorem C06_first_and_second_derivatives :
  forall (m l i j : nat) (r : vec),
    (m < 3)%nat -> (l < 3)%nat -> (i < 3)%nat -> (j < 3)%nat -> nonzero r ->
    partial l (fun q => J (q i) (q j) i j (norm q)) r (D_J r (norm r) l i j) /\
    partial m (fun q => D_J q (norm q) l i j) r (DD_J r (norm r) m l i j) /\
    laplacian (fun q => J (q i) (q j) i j (norm q)) r (Lap_J (r i) (r j) i j (norm r)) /\
    partial l (fun q => Lap_J (q i) (q j) i j (norm q)) r (DLap_J r (norm r) l i j).
Proof.
  intros m l i j r Hm Hl Hi Hj Hr.
  exact (conj (D_J_partial l i j r Hl Hr) (conj (DD_J_partial m l i j r Hm Hr)
        (conj (Lap_J_laplacian i j r Hi Hj Hr) (LJ_partial l i j r Hl Hr)))).
Qed.
Print Assumptions C06_first_and_second_derivatives.

(** C06: [R] and [K] are the antisymmetric and symmetric combinations of
    whatever the derivatives of [J] are, and the rotlet has its closed form. *)
Theorem C06_rotlet_is_curl :
  forall (i j : nat) (r : vec) (G : nat -> nat -> R),
    (i < 3)%nat -> (j < 3)%nat -> nonzero r ->
    (forall k l, (k < 3)%nat -> (l < 3)%nat ->
       partial k (fun q => J (q i) (q l) i l (norm q)) r (G k l)) ->
    Rt r (norm r) i j = - (1/2) * rsum 3 (fun k => rsum 3 (fun l => eps j k l * G k l)).
Proof. exact Rt_from_derivatives. Qed.
Print Assumptions C06_rotlet_is_curl.

Theorem C06_rotlet_closed_form :
  forall (i j : nat) (r : vec) (s : R), (i < 3)%nat -> (j < 3)%nat -> 0 < s ->
    Rt r s i j = rsum 3 (fun k => eps i j k * r k) / s ^ 3.
Proof. exact Rt_closed. Qed.
Print Assumptions C06_rotlet_closed_form.

Theorem C06_K_is_strain :
  forall (i j k : nat) (r : vec) (G : nat -> nat -> R),
    (j < 3)%nat -> (k < 3)%nat -> nonzero r ->
    (forall l m, (l < 3)%nat -> (m < 3)%nat ->
       partial l (fun q => J (q i) (q m) i m (norm q)) r (G l m)) ->
    K r (norm r) i j k = 1/2 * (G k j + G j k).
Proof. exact K_from_derivatives. Qed.
Print Assumptions C06_K_is_strain.

(** C06: derivatives and Laplacians of [R] and [K]. *)
Theorem C06_derivatives_of_R_and_K :
  forall (l i j k : nat) (r : vec),
    (l < 3)%nat -> (i < 3)%nat -> (j < 3)%nat -> (k < 3)%nat -> nonzero r ->
    partial l (fun q => Rt q (norm q) i j) r (D_R r (norm r) l i j) /\
    partial l (fun q => K q (norm q) i j k) r (D_K r (norm r) l i j k) /\
    laplacian (fun q => Rt q (norm q) i j) r (Lap_R r (norm r) i j) /\
    laplacian (fun q => K q (norm q) i j k) r (Lap_K r (norm r) i j k) /\
    partial l (fun q => Lap_K q (norm q) i j k) r (DLap_K r (norm r) l i j k).
Proof.
  intros l i j k r Hl Hi Hj Hk Hr.
  exact (conj (D_R_partial l i j r Hl Hj Hr) (conj (D_K_partial l i j k r Hl Hr)
        (conj (Lap_R_laplacian i j r Hi Hj Hr) (conj (Lap_K_laplacian i j k r Hi Hj Hk Hr)
              (DLap_K_partial l i j k r Hl Hr))))).
Qed.
Print Assumptions C06_derivatives_of_R_and_K.

Example C06_example : nonzero (v3 1 2 2) /\ norm (v3 1 2 2) = 3.
Proof.
  split; [unfold nonzero, dot3; simpl; lra|].
  unfold norm; simpl. replace (_ + _ + _) with (3 * 3) by ring. apply sqrt_square. lra.
Qed.

(** C07: the Stokeslet is an incompressible solution of the Stokes equations
    (pressure 2 r_j / |r|^3), is biharmonic, and the rotlet is harmonic. *)
Theorem C07_stokes_flow :
  forall (i j : nat) (r : vec), (i < 3)%nat -> (j < 3)%nat -> nonzero r ->
    divergence (fun i q => J (q i) (q j) i j (norm q)) r 0 /\
    divergence (fun i q => Lap_J (q i) (q j) i j (norm q)) r 0 /\
    (exists g, partial i (fun q => 2 * (q j / len q ^ 3)) r g /\
               laplacian (fun q => J (q i) (q j) i j (norm q)) r g) /\
    laplacian (fun q => Lap_J (q i) (q j) i j (norm q)) r 0 /\
    Lap_R r (norm r) i j = 0.
Proof.
  intros i j r Hi Hj Hr.
  exact (conj (J_div_free j r Hj Hr) (conj (LJ_div_free j r Hj Hr)
        (conj (J_stokes i j r Hi Hj Hr) (conj (LJ_harmonic i j r Hi Hj Hr) (Lap_R_zero r (norm r) i j Hi Hj))))).
Qed.
Print Assumptions C07_stokes_flow.

(** C07: strain indices of the pair mobilities are symmetric and traceless
    (M13 and M23 for every [r], including the coincident branch). *)
Theorem C07_strain_blocks_symmetric_traceless :
  forall (r : vec) (a1 a2 c mu : R),
    (forall i, (i < 3)%nat ->
       sym_traceless (fun j k => M13 r (norm r) a1 a2 i j k c mu) /\
       sym_traceless (fun j k => M23 r (norm r) a1 a2 i j k c mu)) /\
    (nonzero r -> forall i j, (i < 3)%nat -> (j < 3)%nat ->
       sym_traceless (fun k l => M33 r (norm r) a1 a2 i j k l c mu) /\
       sym_traceless (fun k l => M33 r (norm r) a1 a2 k l i j c mu)).
Proof.
  intros r a1 a2 c mu. split.
  - intros i Hi. exact (conj (M13_st r a1 a2 i c mu Hi) (M23_st r a1 a2 i c mu Hi)).
  - intros Hr i j Hi Hj.
    exact (conj (M33_st_kl r a1 a2 i j c mu Hi Hj Hr) (M33_st_ij r a1 a2 i j c mu Hi Hj Hr)).
Qed.
Print Assumptions C07_strain_blocks_symmetric_traceless.

Example C07_example : K (v3 1 2 2) 3 0 0 0 <> 0 /\ nonzero (v3 1 2 2).
Proof. split; [unfold K, D_J, delta; simpl; lra|unfold nonzero, dot3; simpl; lra]. Qed.

(** C08: exchange of the two particles. *)
Theorem C08_exchange :
  forall (r : vec) (s a1 a2 c mu : R) (i j k l : nat),
    (i < 3)%nat -> (j < 3)%nat -> (k < 3)%nat -> (l < 3)%nat ->
    (tiny < s -> M11 (- r j) (- r i) s a2 a1 j i c mu = M11 (r i) (r j) s a1 a2 i j c mu) /\
    M12 (vopp r) s a2 a1 i j c mu = - M12 r s a1 a2 i j c mu /\
    M12 (vopp r) s a2 a1 j i c mu = M12 r s a1 a2 i j c mu /\
    M13 (vopp r) s a1 a2 i j k c mu = - M13 r s a1 a2 i j k c mu /\
    (tiny < Rabs (r 0%nat) + Rabs (r 1%nat) + Rabs (r 2%nat) ->
       M22 (vopp r) s a2 a1 j i c mu = M22 r s a1 a2 i j c mu) /\
    M23 (vopp r) s a2 a1 i j k c mu = M23 r s a1 a2 i j k c mu /\
    M33 (vopp r) s a2 a1 k l i j c mu = M33 r s a1 a2 i j k l c mu.
Proof.
  intros r s a1 a2 c mu i j k l Hi Hj Hk Hl.
  exact (conj (M11_exchange (r i) (r j) s a1 a2 i j c mu)
        (conj (M12_odd r s a1 a2 i j c mu Hi Hj)
        (conj (M12_transposed r s a1 a2 i j c mu Hi Hj)
        (conj (M13_odd r s a1 a2 i j k c mu)
        (conj (M22_exchange r s a1 a2 i j c mu Hi Hj)
        (conj (M23_even r s a1 a2 a2 a1 i j k c mu Hi)
              (M33_exchange r s a1 a2 i j k l c mu))))))).
Qed.
Print Assumptions C08_exchange.

(** C08: the radius in the rotlet term has no effect. *)
Theorem C08_M12_radius_independent :
  forall r s a1 a2 b1 b2 i j c mu, (i < 3)%nat -> (j < 3)%nat ->
    M12 r s a1 a2 i j c mu = M12 r s b1 b2 i j c mu.
Proof. exact M12_radii. Qed.
Print Assumptions C08_M12_radius_independent.

Example C08_example : tiny < 3 /\ Rt (v3 1 2 2) 3 0 1 <> 0.
Proof.
  split.
  - unfold tiny. apply Rlt_trans with 1; [|lra]. rewrite <- Rinv_1. apply Rinv_lt_contravar; simpl; lra.
  - rewrite Rt_closed by (try lia; lra). unfold rsum, eps; simpl. lra.
Qed.

(** C46: with the flows of a force, torque and stresslet on sphere 2
    ([flow_F], [flow_T], [flow_S], made of J, R, K as characterised by C06),
    each pair mobility is what Faxén's laws give for sphere 1 in that flow:
    the nine blocks, the lower ones as the assembly code obtains them. *)
Theorem C46_faxen :
  forall (r : vec) (a1 a2 c mu : R) (i j k l : nat),
    (i < 3)%nat -> (j < 3)%nat -> (k < 3)%nat -> (l < 3)%nat -> tiny < norm r ->
    faxen_U a1 (flow_F c a2 j) r i (M11 (r i) (r j) (norm r) a1 a2 i j c mu) /\
    faxen_U a1 (flow_T c j) r i (M12 r (norm r) a1 a2 i j c mu) /\
    faxen_U a1 (flow_S c a2 j k) r i (M13 r (norm r) a1 a2 i j k c mu) /\
    faxen_O (flow_F c a2 j) r i (M12 (vopp r) (norm r) a2 a1 j i c mu) /\
    faxen_O (flow_T c j) r i (M22 r (norm r) a1 a2 i j c mu) /\
    faxen_O (flow_S c a2 j k) r i (M23 r (norm r) a1 a2 i j k c mu) /\
    faxen_E a1 (flow_F c a2 k) r i j (M13 (vopp r) (norm r) a2 a1 k i j c mu) /\
    faxen_E a1 (flow_T c k) r i j (M23 (vopp r) (norm r) a2 a1 k i j c mu) /\
    faxen_E a1 (flow_S c a2 k l) r i j (M33 r (norm r) a1 a2 i j k l c mu).
Proof.
  intros r a1 a2 c mu i j k l Hi Hj Hk Hl H.
  assert (HL : tiny < L1 r) by (apply Rlt_le_trans with (1 := H); apply norm_le_L1).
  exact (conj (M11_faxen r a1 a2 i j c mu Hi Hj H)
        (conj (M12_faxen r a1 a2 i j c mu Hi Hj H)
        (conj (M13_faxen r a1 a2 i j k c mu Hi Hj Hk H)
        (conj (M21_faxen r a1 a2 i j c mu Hi Hj H)
        (conj (M22_faxen r a1 a2 i j c mu Hi Hj HL)
        (conj (M23_faxen r a1 a2 i j k c mu Hi Hj Hk HL)
        (conj (M31_faxen r a1 a2 i j k c mu Hi Hj Hk H)
        (conj (M32_faxen r a1 a2 i j k c mu Hi Hj Hk H)
              (M33_faxen r a1 a2 i j k l c mu Hi Hj Hk Hl (nonzero_norm r H)))))))))).
Qed.
Print Assumptions C46_faxen.

Example C46_example : tiny < norm (v3 1 2 2).
Proof.
  destruct C06_example as [_ ->]. exact (proj1 C08_example).
Qed.
