(** The Oseen tensor functions are the derivatives they are named after. *)
From Coq Require Import Reals Lra Lia Arith Bool.
From Verif Require Import Base Model_Pack Model_Mob Spec_Calc Proof_Calc.
Local Open Scope R_scope.

Lemma norm_len r : norm r = len r.
Proof. unfold norm, len, dot3. f_equal. ring. Qed.

Ltac resp := let q := fresh "q" in let q' := fresh "q'" in let E := fresh "E" in
  intros q q' E; rewrite ?E, ?(len_respects q q' E); reflexivity.
Ltac pdstep :=
  first [ apply partial_const | apply partial_coord | apply partial_ilen; assumption
        | apply partial_plus | apply partial_minus | apply partial_opp | apply partial_scal
        | apply partial_mult; [resp|resp| |] ].
Ltac pd := repeat pdstep.
Ltac lenpos r Hr := let H := fresh "Hlp" in pose proof (len_pos r Hr) as H.

Definition Jf (i j : nat) (q : vec) : R := J (q i) (q j) i j (norm q).
Definition LJf (i j : nat) (q : vec) : R := Lap_J (q i) (q j) i j (norm q).

Ltac fin := cbn [INR Nat.add]; unfold kronkron; field; lra.

Lemma D_J_partial l i j r : (l < 3)%nat -> nonzero r ->
  partial l (Jf i j) r (D_J r (norm r) l i j).
Proof.
  intros Hl Hr. rewrite norm_len.
  apply (partial_ext l (fun q => delta i j * / len q ^ 1 + (q i * q j) * / len q ^ 3)).
  { intros q. unfold Jf, J. rewrite norm_len. unfold Rdiv. rewrite pow_1. reflexivity. }
  eapply partial_eq; [pd|]. lenpos r Hr. unfold D_J. fin.
Qed.

Lemma DD_J_partial m l i j r : (m < 3)%nat -> nonzero r ->
  partial m (fun q => D_J q (norm q) l i j) r (DD_J r (norm r) m l i j).
Proof.
  intros Hl Hr. rewrite norm_len.
  apply (partial_ext m (fun q => (- delta i j * q l + delta i l * q j + delta j l * q i) * / len q ^ 3
     - (3 * ((q i * q j) * q l)) * / len q ^ 5)).
  { intros q. unfold D_J. rewrite norm_len. unfold Rdiv. ring. }
  eapply partial_eq; [pd|]. lenpos r Hr. unfold DD_J. fin.
Qed.

Lemma LJ_partial k i j r : (k < 3)%nat -> nonzero r ->
  partial k (LJf i j) r (DLap_J r (norm r) k i j).
Proof.
  intros Hl Hr. rewrite norm_len.
  apply (partial_ext k (fun q => 2 * delta i j * / len q ^ 3 - (6 * (q i * q j)) * / len q ^ 5)).
  { intros q. unfold LJf, Lap_J. rewrite norm_len. unfold Rdiv. ring. }
  eapply partial_eq; [pd|]. lenpos r Hr. unfold DLap_J. fin.
Qed.

Lemma DLJ_partial l k i j r : (l < 3)%nat -> nonzero r ->
  partial l (fun q => DLap_J q (norm q) k i j) r (DLap_K r (norm r) l k i j).
Proof.
  intros Hl Hr. rewrite norm_len.
  apply (partial_ext l (fun q => (- (6) * (delta i j * q k + delta i k * q j + delta j k * q i)) * / len q ^ 5
     + (30 * ((q i * q j) * q k)) * / len q ^ 7)).
  { intros q. unfold DLap_J. rewrite norm_len. unfold Rdiv. ring. }
  eapply partial_eq; [pd|]. lenpos r Hr. unfold DLap_K.
  unfold kronkron. rewrite (delta_sym k i), (delta_sym k j). fin.
Qed.

(** Relations that need |r|^2 = r.r *)
Lemma len_sq2 r : len r ^ 2 = r 0%nat * r 0%nat + r 1%nat * r 1%nat + r 2%nat * r 2%nat.
Proof. pose proof (len_sq r) as H. unfold dot3 in H. lra. Qed.

(** [r] as three coordinates, [s] its length *)
Lemma norm_facts r : nonzero r -> 0 < norm r /\
  r 0%nat * r 0%nat = norm r * norm r - r 1%nat * r 1%nat - r 2%nat * r 2%nat.
Proof.
  intros Hr. rewrite norm_len. split; [apply len_pos; exact Hr|].
  pose proof (len_sq r) as H. unfold dot3 in H. lra.
Qed.

Ltac coords r Hr :=
  let Hs := fresh "Hs" in let H0 := fresh "H0" in
  destruct (norm_facts r Hr) as [Hs H0];
  set (s := norm r) in *; clearbody s;
  set (x := r 0%nat) in *; set (y := r 1%nat) in *; set (z := r 2%nat) in *; clearbody x y z.

Ltac tens := repeat match goal with H : (_ < 3)%nat |- _ => idx3 H end;
  unfold delta, levi, distinct3, INR; simpl Nat.eqb; cbn iota; cbn [negb andb orb]; cbn iota.

(** Trace of second derivatives of J is Lap_J *)
Lemma trace_DD_J i j r : (i < 3)%nat -> (j < 3)%nat -> nonzero r ->
  rsum 3 (fun l => DD_J r (norm r) l l i j) = Lap_J (r i) (r j) i j (norm r).
Proof.
  intros Hi Hj Hr. unfold rsum, DD_J, Lap_J, kronkron.
  tens; coords r Hr; field [H0]; lra.
Qed.

Lemma partial_unique l f r v w : partial l f r v -> partial l f r w -> v = w.
Proof. intros H1 H2. exact (uniqueness_limite _ _ _ _ H1 H2). Qed.

Lemma Lap_J_laplacian i j r : (i < 3)%nat -> (j < 3)%nat -> nonzero r ->
  laplacian (Jf i j) r (Lap_J (r i) (r j) i j (norm r)).
Proof.
  intros Hi Hj Hr.
  exists (fun l q => D_J q (norm q) l i j), (fun l => DD_J r (norm r) l l i j).
  split; [|split].
  - intros l q Hl Hq. apply D_J_partial; assumption.
  - intros l Hl. apply DD_J_partial; assumption.
  - symmetry. apply trace_DD_J; assumption.
Qed.

Lemma levi_eps i j k : (i < 3)%nat -> (j < 3)%nat -> (k < 3)%nat -> levi i j k = eps i j k.
Proof. intros Hi Hj Hk. unfold eps. tens; simpl; field. Qed.

(** Sums over distinct index pairs weighted with levi are the full sums with eps. *)
Lemma lsum2_levi c j f : (j < 3)%nat ->
  (forall k l, (k < 3)%nat -> (l < 3)%nat -> c k l = false -> eps j k l = 0) ->
  lsum2 c (fun k l => levi j k l * f k l) = rsum 3 (fun k => rsum 3 (fun l => eps j k l * f k l)).
Proof.
  intros Hj Hc. unfold lsum2. apply rsum_ext. intros k Hk. apply rsum_ext. intros l Hl.
  destruct (c k l) eqn:E.
  - rewrite levi_eps by assumption. reflexivity.
  - rewrite (Hc k l Hk Hl E). ring.
Qed.

Lemma eps_sum_ext j f g :
  (forall k l, (k < 3)%nat -> (l < 3)%nat -> f k l = g k l) ->
  rsum 3 (fun k => rsum 3 (fun l => eps j k l * f k l)) =
  rsum 3 (fun k => rsum 3 (fun l => eps j k l * g k l)).
Proof.
  intros H. apply rsum_ext. intros k Hk. apply rsum_ext. intros l Hl. rewrite H by assumption. reflexivity.
Qed.

Ltac epsz := let k := fresh in let l := fresh in let Hk := fresh in let Hl := fresh in
  intros k l Hk Hl; unfold distinct3, eps; repeat match goal with H : (_ < 3)%nat |- _ => idx3 H end;
  simpl; intro; try discriminate; field.

Lemma Rt_eps r s i j : (j < 3)%nat ->
  Rt r s i j = - (1/2) * rsum 3 (fun k => rsum 3 (fun l => eps j k l * D_J r s k i l)).
Proof. intros Hj. unfold Rt. rewrite lsum2_levi; [reflexivity|exact Hj|]. epsz. Qed.
Lemma D_R_eps r s l i j : (j < 3)%nat ->
  D_R r s l i j = - (1/2) * rsum 3 (fun m => rsum 3 (fun n => eps j m n * DD_J r s l m i n)).
Proof.
  intros Hj. unfold D_R.
  rewrite (lsum2_levi _ j (fun m n => DD_J r s l m i n)); [reflexivity|exact Hj|]. epsz.
Qed.
Lemma Lap_R_eps r s i j : (j < 3)%nat ->
  Lap_R r s i j = - (1/2) * rsum 3 (fun k => rsum 3 (fun l => eps j k l * DLap_J r s k i l)).
Proof. intros Hj. unfold Lap_R. rewrite lsum2_levi; [reflexivity|exact Hj|]. epsz. Qed.

(** Rotlet and stresslet kernels from arbitrary derivatives of J *)
Lemma Rt_from_derivatives i j r (G : nat -> nat -> R) : (i < 3)%nat -> (j < 3)%nat -> nonzero r ->
  (forall k l, (k < 3)%nat -> (l < 3)%nat -> partial k (Jf i l) r (G k l)) ->
  Rt r (norm r) i j = - (1/2) * rsum 3 (fun k => rsum 3 (fun l => eps j k l * G k l)).
Proof.
  intros Hi Hj Hr HG. rewrite Rt_eps by exact Hj. f_equal. apply eps_sum_ext.
  intros k l Hk Hl. apply (partial_unique k (Jf i l) r); [apply D_J_partial|apply HG]; assumption.
Qed.

Lemma K_from_derivatives i j k r (G : nat -> nat -> R) : (j < 3)%nat -> (k < 3)%nat -> nonzero r ->
  (forall l m, (l < 3)%nat -> (m < 3)%nat -> partial l (Jf i m) r (G l m)) ->
  K r (norm r) i j k = 1/2 * (G k j + G j k).
Proof.
  intros Hj Hk Hr HG. unfold K. f_equal. f_equal.
  - apply (partial_unique k (Jf i j) r); [apply D_J_partial|apply HG]; assumption.
  - apply (partial_unique j (Jf i k) r); [apply D_J_partial|apply HG]; assumption.
Qed.

(** closed form of the rotlet: R_ij = eps_ijk r_k / r^3 *)
Lemma Rt_closed i j r s : (i < 3)%nat -> (j < 3)%nat -> 0 < s ->
  Rt r s i j = rsum 3 (fun k => eps i j k * r k) / s ^ 3.
Proof.
  intros Hi Hj Hs. rewrite Rt_eps by exact Hj. unfold rsum, D_J, eps. tens; simpl; field; lra.
Qed.

Lemma partial_eps_sum l j (f : nat -> nat -> vec -> R) r (v : nat -> nat -> R) :
  (forall k m, (k < 3)%nat -> (m < 3)%nat -> partial l (f k m) r (v k m)) ->
  partial l (fun q => rsum 3 (fun k => rsum 3 (fun m => eps j k m * f k m q))) r
    (rsum 3 (fun k => rsum 3 (fun m => eps j k m * v k m))).
Proof.
  intros H.
  apply (partial_rsum l 3 (fun k q => rsum 3 (fun m => eps j k m * f k m q))).
  intros k Hk. apply (partial_rsum l 3 (fun m q => eps j k m * f k m q)).
  intros m Hm. apply partial_scal. apply H; assumption.
Qed.

Lemma D_R_partial l i j r : (l < 3)%nat -> (j < 3)%nat -> nonzero r ->
  partial l (fun q => Rt q (norm q) i j) r (D_R r (norm r) l i j).
Proof.
  intros Hl Hj Hr. rewrite D_R_eps by exact Hj.
  apply (partial_ext l (fun q => - (1/2) * rsum 3 (fun k => rsum 3 (fun m => eps j k m * D_J q (norm q) k i m)))).
  { intros q. symmetry. apply Rt_eps. exact Hj. }
  apply partial_scal. apply (partial_eps_sum l j (fun k m q => D_J q (norm q) k i m)).
  intros k m Hk Hm. apply DD_J_partial; assumption.
Qed.

Lemma D_K_partial l i j k r : (l < 3)%nat -> nonzero r ->
  partial l (fun q => K q (norm q) i j k) r (D_K r (norm r) l i j k).
Proof.
  intros Hl Hr. unfold K, D_K. apply partial_scal. apply partial_plus; apply DD_J_partial; assumption.
Qed.

Lemma DLap_K_partial l i j k r : (l < 3)%nat -> nonzero r ->
  partial l (fun q => Lap_K q (norm q) i j k) r (DLap_K r (norm r) l i j k).
Proof. intros Hl Hr. unfold Lap_K. apply DLJ_partial; assumption. Qed.

Lemma DLap_J_sym r s k i j : DLap_J r s k i j = DLap_J r s i k j /\ DLap_J r s k i j = DLap_J r s k j i.
Proof.
  unfold DLap_J. rewrite (delta_sym k i), (delta_sym k j), (delta_sym j i). split; ring.
Qed.

Lemma Lap_R_zero r s i j : (i < 3)%nat -> (j < 3)%nat -> Lap_R r s i j = 0.
Proof.
  intros Hi Hj. rewrite Lap_R_eps by exact Hj. unfold eps, rsum.
  rewrite (proj2 (DLap_J_sym r s 0 i 1)), (proj1 (DLap_J_sym r s 0 1 i)), (proj2 (DLap_J_sym r s 1 0 i)).
  rewrite (proj2 (DLap_J_sym r s 0 i 2)), (proj1 (DLap_J_sym r s 0 2 i)), (proj2 (DLap_J_sym r s 2 0 i)).
  rewrite (proj2 (DLap_J_sym r s 1 i 2)), (proj1 (DLap_J_sym r s 1 2 i)), (proj2 (DLap_J_sym r s 2 1 i)).
  idx3 Hj; simpl; field.
Qed.

(** third derivatives of J *)
Definition DDD_J (r : vec) (ss : R) (n m l i j : nat) : R :=
  - 3 * r n / ss ^ 5 * (- kronkron i j l m + kronkron i l j m + kronkron j l i m)
  - 3 * (- delta i j * (delta l n * r m + r l * delta m n)
         + delta i l * (delta j n * r m + r j * delta m n)
         + delta j l * (delta i n * r m + r i * delta m n)
         + delta i m * (delta j n * r l + r j * delta l n)
         + delta j m * (delta i n * r l + r i * delta l n)
         + delta l m * (delta i n * r j + r i * delta j n)) / ss ^ 5
  + 15 * r n * (- delta i j * r l * r m
         + delta i l * r j * r m
         + delta j l * r i * r m
         + delta i m * r j * r l
         + r i * delta j m * r l
         + r i * r j * delta l m) / ss ^ 7
  + 15 * (delta i n * r j * r l * r m + r i * delta j n * r l * r m
          + r i * r j * delta l n * r m + r i * r j * r l * delta m n) / ss ^ 7
  - 105 * r n * r i * r j * r l * r m / ss ^ 9.

Lemma DDD_J_partial n m l i j r : (n < 3)%nat -> nonzero r ->
  partial n (fun q => DD_J q (norm q) m l i j) r (DDD_J r (norm r) n m l i j).
Proof.
  intros Hl Hr. rewrite norm_len.
  apply (partial_ext n (fun q => (- kronkron i j l m + kronkron i l j m + kronkron j l i m) * / len q ^ 3
   - (3 * (- delta i j * (q l * q m)
         + delta i l * (q j * q m)
         + delta j l * (q i * q m)
         + delta i m * (q j * q l)
         + delta j m * (q i * q l)
         + delta l m * (q i * q j))) * / len q ^ 5
     + (15 * (((q i * q j) * q l) * q m)) * / len q ^ 7)).
  { intros q. unfold DD_J. rewrite norm_len. unfold Rdiv. ring. }
  eapply partial_eq; [pd|]. lenpos r Hr. unfold DDD_J. fin.
Qed.

(** fourth derivative needed only through the Laplacian of DLap_J *)
Definition DDLap_J (r : vec) (ss : R) (l k i j : nat) : R := DLap_K r ss l k i j.

Lemma trace_DDD_J l i j r : (l < 3)%nat -> (i < 3)%nat -> (j < 3)%nat -> nonzero r ->
  rsum 3 (fun n => DDD_J r (norm r) n n l i j) = DLap_J r (norm r) l i j.
Proof.
  intros Hl Hi Hj Hr. unfold rsum, DDD_J, DLap_J, kronkron.
  tens; coords r Hr; field [H0]; lra.
Qed.

Lemma D_J_laplacian l i j r : (l < 3)%nat -> (i < 3)%nat -> (j < 3)%nat -> nonzero r ->
  laplacian (fun q => D_J q (norm q) l i j) r (DLap_J r (norm r) l i j).
Proof.
  intros Hl Hi Hj Hr.
  exists (fun n q => DD_J q (norm q) n l i j), (fun n => DDD_J r (norm r) n n l i j).
  split; [|split].
  - intros n q Hn Hq. apply DD_J_partial; assumption.
  - intros n Hn. apply DDD_J_partial; assumption.
  - symmetry. apply trace_DDD_J; assumption.
Qed.

(** Laplacians of linear combinations *)
Lemma laplacian_eq f r v w : laplacian f r v -> v = w -> laplacian f r w.
Proof. intros H ->; exact H. Qed.
Lemma laplacian_ext f g r v : (forall q, f q = g q) -> laplacian f r v -> laplacian g r v.
Proof.
  intros E [G [H [H1 [H2 H3]]]]. exists G, H. split; [|split; assumption].
  intros l q Hl Hq. apply (partial_ext l f); [exact E|apply H1; assumption].
Qed.
Lemma laplacian_scal c f r v : laplacian f r v -> laplacian (fun q => c * f q) r (c * v).
Proof.
  intros [G [H [H1 [H2 H3]]]]. exists (fun l q => c * G l q), (fun l => c * H l).
  split; [|split].
  - intros l q Hl Hq. apply partial_scal. apply H1; assumption.
  - intros l Hl. apply partial_scal. apply H2; assumption.
  - rewrite rsum_scal_l, H3. reflexivity.
Qed.
Lemma laplacian_plus f g r v w :
  laplacian f r v -> laplacian g r w -> laplacian (fun q => f q + g q) r (v + w).
Proof.
  intros [G [H [H1 [H2 H3]]]] [G' [H' [H1' [H2' H3']]]].
  exists (fun l q => G l q + G' l q), (fun l => H l + H' l).
  split; [|split].
  - intros l q Hl Hq. apply partial_plus; [apply H1|apply H1']; assumption.
  - intros l Hl. apply partial_plus; [apply H2|apply H2']; assumption.
  - rewrite rsum_plus, H3, H3'. reflexivity.
Qed.
Lemma laplacian_const c r : laplacian (fun _ => c) r 0.
Proof.
  exists (fun _ _ => 0), (fun _ => 0). split; [|split].
  - intros; apply partial_const.
  - intros; apply partial_const.
  - rewrite rsum_const0; reflexivity.
Qed.
Lemma laplacian_rsum n (f : nat -> vec -> R) r (v : nat -> R) :
  (forall k, (k < n)%nat -> laplacian (f k) r (v k)) ->
  laplacian (fun q => rsum n (fun k => f k q)) r (rsum n v).
Proof.
  induction n as [|n IH]; intros H.
  - exact (laplacian_const 0 r).
  - simpl. apply (laplacian_plus (fun q => rsum n (fun k => f k q)) (f n)).
    + apply IH. intros k Hk. apply H. lia.
    + apply H. lia.
Qed.

Lemma Lap_R_laplacian i j r : (i < 3)%nat -> (j < 3)%nat -> nonzero r ->
  laplacian (fun q => Rt q (norm q) i j) r (Lap_R r (norm r) i j).
Proof.
  intros Hi Hj Hr. rewrite Lap_R_eps by exact Hj.
  apply (laplacian_ext (fun q => - (1/2) * rsum 3 (fun k => rsum 3 (fun m => eps j k m * D_J q (norm q) k i m)))).
  { intros q. symmetry. apply Rt_eps. exact Hj. }
  apply laplacian_scal.
  apply (laplacian_rsum 3 (fun k q => rsum 3 (fun m => eps j k m * D_J q (norm q) k i m))).
  intros k Hk. apply (laplacian_rsum 3 (fun m q => eps j k m * D_J q (norm q) k i m)).
  intros m Hm. apply laplacian_scal. apply D_J_laplacian; assumption.
Qed.

Lemma Lap_K_laplacian i j k r : (i < 3)%nat -> (j < 3)%nat -> (k < 3)%nat -> nonzero r ->
  laplacian (fun q => K q (norm q) i j k) r (Lap_K r (norm r) i j k).
Proof.
  intros Hi Hj Hk Hr. unfold K, Lap_K.
  eapply laplacian_eq.
  - apply laplacian_scal. apply laplacian_plus; apply D_J_laplacian; assumption.
  - rewrite (proj1 (DLap_J_sym r (norm r) k i j)), (proj2 (DLap_J_sym r (norm r) i k j)).
    rewrite (proj1 (DLap_J_sym r (norm r) j i k)). field.
Qed.

(** ** Incompressibility and the Stokes equations *)

Lemma J_div_free j r : (j < 3)%nat -> nonzero r -> divergence (fun i => Jf i j) r 0.
Proof.
  intros Hj Hr. exists (fun i => D_J r (norm r) i i j). split.
  - intros i Hi. apply D_J_partial; assumption.
  - unfold rsum, D_J. tens; coords r Hr; field [H0]; lra.
Qed.

Lemma LJ_div_free j r : (j < 3)%nat -> nonzero r -> divergence (fun i => LJf i j) r 0.
Proof.
  intros Hj Hr. exists (fun i => DLap_J r (norm r) i i j). split.
  - intros i Hi. apply LJ_partial; assumption.
  - unfold rsum, DLap_J. tens; coords r Hr; field [H0]; lra.
Qed.

Lemma J_stokes i j r : (i < 3)%nat -> (j < 3)%nat -> nonzero r ->
  exists g, partial i (fun q => 2 * (q j / len q ^ 3)) r g /\ laplacian (Jf i j) r g.
Proof.
  intros Hi Hj Hr. exists (Lap_J (r i) (r j) i j (norm r)). split.
  - rewrite norm_len. unfold Rdiv. eapply partial_eq; [pd|]. lenpos r Hr.
    unfold Lap_J. rewrite (delta_sym i j). cbn [INR Nat.add]. field. lra.
  - apply Lap_J_laplacian; assumption.
Qed.

Lemma LJ_harmonic i j r : (i < 3)%nat -> (j < 3)%nat -> nonzero r -> laplacian (LJf i j) r 0.
Proof.
  intros Hi Hj Hr.
  exists (fun l q => DLap_J q (norm q) l i j), (fun l => DLap_K r (norm r) l l i j).
  split; [|split].
  - intros l q Hl Hq. apply LJ_partial; assumption.
  - intros l Hl. apply DLJ_partial; assumption.
  - unfold rsum, DLap_K, kronkron. tens; coords r Hr; field [H0]; lra.
Qed.

(** derivative of DLap_K *)
Definition DDLap_K (r : vec) (ss : R) (n l i j k : nat) : R :=
  30 * r n / ss ^ 7 * (kronkron i j k l + kronkron i k j l + kronkron j k i l)
  - 210 * (delta i n * r j * r k * r l + r i * delta j n * r k * r l
           + r i * r j * delta k n * r l + r i * r j * r k * delta l n) / ss ^ 9
  + 1890 * r n * r i * r j * r k * r l / ss ^ 11
  + 30 * (delta i j * (delta k n * r l + r k * delta l n)
          + delta i k * (delta j n * r l + r j * delta l n)
          + delta j k * (delta i n * r l + r i * delta l n)
          + delta i l * (delta j n * r k + r j * delta k n)
          + delta j l * (delta i n * r k + r i * delta k n)
          + delta k l * (delta i n * r j + r i * delta j n)) / ss ^ 7
  - 210 * r n * (delta i j * (r k * r l) + delta i k * (r j * r l) + delta j k * (r i * r l)
          + delta i l * (r j * r k) + delta j l * (r i * r k) + delta k l * (r i * r j)) / ss ^ 9.

Lemma DDLap_K_partial n l i j k r : (n < 3)%nat -> nonzero r ->
  partial n (fun q => DLap_K q (norm q) l i j k) r (DDLap_K r (norm r) n l i j k).
Proof.
  intros Hl Hr. rewrite norm_len.
  apply (partial_ext n (fun q =>
    (- (6) * (kronkron i j k l + kronkron i k j l + kronkron j k i l)) * / len q ^ 5
    - (210 * (((q i * q j) * q k) * q l)) * / len q ^ 9
    + (30 * (delta i j * (q k * q l) + delta i k * (q j * q l) + delta j k * (q i * q l)
          + delta i l * (q j * q k) + delta j l * (q i * q k) + delta k l * (q i * q j))) * / len q ^ 7)).
  { intros q. unfold DLap_K. rewrite norm_len. unfold Rdiv. ring. }
  eapply partial_eq; [pd|]. lenpos r Hr. unfold DDLap_K. fin.
Qed.

Lemma Lap_K_harmonic i j k r : (i < 3)%nat -> (j < 3)%nat -> (k < 3)%nat -> nonzero r ->
  laplacian (fun q => Lap_K q (norm q) i j k) r 0.
Proof.
  intros Hi Hj Hk Hr.
  exists (fun l q => DLap_K q (norm q) l i j k), (fun l => DDLap_K r (norm r) l l i j k).
  split; [|split].
  - intros l q Hl Hq. apply DLap_K_partial; assumption.
  - intros l Hl. apply DDLap_K_partial; assumption.
  - unfold rsum, DDLap_K, kronkron. tens; coords r Hr; field [H0]; lra.
Qed.
