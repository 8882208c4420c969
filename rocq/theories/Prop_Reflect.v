(** C75: the method of reflections for two spheres. *)
From Coq Require Import Reals List ZArith Arith Bool Lra Lia.
From Verif Require Import Base Model_Mob Model_Close Spec_Scalars Model_Reflect Spec_Reflect Proof_Reflect Proof_Reflect2 Proof_Reflect3 Proof_Reflect4.
Import ListNotations.
Local Open Scope R_scope.

(** After any number of passes, on the surface of either sphere the outgoing flow
    of that sphere and what the program made of the outgoing flow of the other
    sphere (one pass before) add up to the motion printed, rigid but for the given
    rate of strain. *)
Theorem C75_boundary N radius r Ff Tt Ee s0 h J k x i :
  (2 <= N)%nat -> Set_Initial_Conditions N radius xg_sign Ff Tt Ee = Some s0 -> first_harmonics H h ->
  (k = 1 \/ k = 2)%nat -> strain (Ee k) -> 0 < radius k -> dot3 x x = radius k ^ 2 -> (i < 3)%nat ->
  let before := Nat.iter J (pass N radius r) s0 in
  let f := total N (pass N radius r before) k in
  let q := total N before (3 - k)%nat in
  lamb_sum N (fun j n m =>
    outside n (cA f j n m) (cB f j n m) (cC f j n m) (radius k) (hv h j n m x) (hg h j n m x) x i +
    inside n (translate_D N (r (3 - k)%nat k) q j n m) (translate_E N (r (3 - k)%nat k) q j n m) (translate_F N (r (3 - k)%nat k) q j n m) (hv h j n m x) (hg h j n m x) x i)
  = surface (out_U (radius k) f) (out_O (radius k) f) (Ee k) x i.
Proof.
  intros N2 start Hh Hk HE Ha Hx Hi before f q.
  pose proof (balanced_after N radius r xg_sign Ff Tt Ee s0 start (S J)) as Bl.
  pose proof (arrived N radius r xg_sign Ff Tt Ee s0 start J k) as Ar.
  assert (Hf : f = total N (after N radius r s0 (S J)) k) by reflexivity. assert (Hq : q = total N (after N radius r s0 J) (opp k)) by reflexivity.
  assert (T : forall j n m, rng N n m ->
    outside n (cA f j n m) (cB f j n m) (cC f j n m) (radius k) (hv h j n m x) (hg h j n m x) x i +
    inside n (translate_D N (r (3 - k)%nat k) q j n m) (translate_E N (r (3 - k)%nat k) q j n m) (translate_F N (r (3 - k)%nat k) q j n m) (hv h j n m x) (hg h j n m x) x i
    = (if Nat.eqb n 1 then
         (- (5) * cA f j n m / radius k ^ 3 + 15 / 10 * cC f j n m / radius k + cD f j n m) * hg h j n m x i + (cB f j n m / radius k ^ 3 + cE f j n m) * cross (hg h j n m x) x i
       else 0) - d0 xg_sign (Ee k) j n m * hg h j n m x i).
  { intros j n m Hr. destruct (total_get N (after N radius r s0 (S J)) k j n m Hr) as (TA & TB & TC & TD & TE & TF).
    destruct (Bl k j n m Hk Hr) as (A & B & C & _). destruct (Ar j n m Hk Hr) as (D & E & F). cbv zeta in D, E, F.
    rewrite <- Hf in TA, TB, TC, TD, TE, TF. rewrite <- Hq in D, E, F. change (opp k) with (3 - k)%nat in D, E, F.
    rewrite <- TD in D. rewrite <- TE in E. rewrite <- TF in F. rewrite <- TD, <- TE, <- TF in A, B, C. rewrite <- TA in A. rewrite <- TB in B. rewrite <- TC in C.
    rewrite <- E, <- F. replace (translate_D N (r (3 - k)%nat k) q j n m) with (cD f j n m + - d0 xg_sign (Ee k) j n m) by (rewrite D; ring).
    rewrite inside_add. destruct (Nat.eqb_spec n 1) as [->|Hn].
    - assert (A' : cA f j 1%nat m = cC f j 1%nat m * radius k ^ 2 / 6 - radius k ^ 5 * cF f j 1%nat m / 30).
      { rewrite A, C. unfold first_A, first_C, oA, oC, outgoing. rewrite initial_A_eq. destruct Hr as [Hr1 Hr2]. rewrite within_true by lia. cbn [Nat.eqb fst snd]. field. }
      rewrite A'. rewrite <- Rplus_assoc. rewrite (slip_1 (radius k) _ _ _ _ _ _ _ _ _ Ha Hx Hi). ring.
    - assert (Z : first_A radius Ff k j n m = 0 /\ first_B Tt k j n m = 0 /\ first_C Ff k j n m = 0).
      { destruct Hr as [Hr1 Hr2]. unfold first_A, first_B, first_C. rewrite initial_A_eq, within_hi by lia. repeat split; try apply at1_out; exact Hn. }
      destruct Z as (Z1 & Z2 & Z3). rewrite A, B, C, Z1, Z2, Z3. rewrite !Rminus_0_l.
      rewrite <- Rplus_assoc, no_slip by (try exact Hx; try exact Hi; try exact Ha; destruct Hr; lia). ring. }
  unfold lamb_sum. replace N with (S (S (N - 2))) at 1 by lia. cbn [seq]. unfold lsum at 1. cbn [map fold_right]. fold (lsum (seq 3 (N - 2)) (fun n => degree_sum n (fun j m =>
    outside n (cA f j n m) (cB f j n m) (cC f j n m) (radius k) (hv h j n m x) (hg h j n m x) x i +
    inside n (translate_D N (r (3 - k)%nat k) q j n m) (translate_E N (r (3 - k)%nat k) q j n m) (translate_F N (r (3 - k)%nat k) q j n m) (hv h j n m x) (hg h j n m x) x i))).
  rewrite (lsum_ext (seq 3 (N - 2)) _ (fun _ => 0)).
  2:{ intros n Hn. apply in_seq in Hn. rewrite (degree_ext n _ (fun _ _ => 0)); [apply lsum_zero'|].
      intros j m _ Hm. rewrite T by (split; [lia|exact Hm]). rewrite (proj2 (Nat.eqb_neq n 1)), d0_out by lia. ring. }
  rewrite lsum_zero.
  rewrite (degree_ext 1 _ (fun j m => (- (5) * cA f j 1%nat m / radius k ^ 3 + 15 / 10 * cC f j 1%nat m / radius k + cD f j 1%nat m) * hg h j 1%nat m x i + (cB f j 1%nat m / radius k ^ 3 + cE f j 1%nat m) * cross (hg h j 1%nat m x) x i)).
  2:{ intros j m _ Hm. rewrite T by (split; [lia|exact Hm]). cbn [Nat.eqb]. rewrite d0_out by lia. ring. }
  rewrite (degree_ext 2 _ (fun j m => - d0 xg_sign (Ee k) j 2%nat m * hg h j 2%nat m x i)).
  2:{ intros j m _ Hm. rewrite T by (split; [lia|exact Hm]). cbn [Nat.eqb]. ring. }
  rewrite degree_plus, (grad_1 h x Hh _ i Hi), (curl_1 h x Hh _ i Hi), (grad_2 h x Hh _ i Hi).
  unfold surface, out_U, out_O, velocity_V, rotation_V.
  enough (Q : 2 * rsum 3 (fun k0 => traceless (S_re (- (1)) (fun j m => H 2 m * - d0 xg_sign (Ee k) j 2%nat m)) i k0 * x k0) = - rsum 3 (fun k0 => Ee k i k0 * x k0)) by (rewrite Q; ring).
  exact (strain_field (Ee k) x i HE Hi).
Qed.
Print Assumptions C75_boundary.

(** The outgoing flow always carries exactly the given force and torque, and the
    stresslet printed is the symmetric first moment of the forces that make it. *)
Theorem C75_moments N radius r Ff Tt Ee s0 h J k x rr i :
  (2 <= N)%nat -> Set_Initial_Conditions N radius xg_sign Ff Tt Ee = Some s0 -> first_harmonics H h ->
  (k = 1 \/ k = 2)%nat -> 0 < radius k -> 0 < rr -> dot3 x x = rr ^ 2 -> (i < 3)%nat ->
  let f := total N (Nat.iter J (pass N radius r) s0) k in
  let part n A B C := degree_sum n (fun j m => outside n (A j n m) (B j n m) (C j n m) rr (hv h j n m x) (hg h j n m x) x i) in
  part 1%nat zero_coef zero_coef (cC f) = stokeslet (Ff k) x rr i /\
  part 1%nat zero_coef (cB f) zero_coef = rotlet (Tt k) x rr i /\
  part 2%nat zero_coef zero_coef (cC f) = stresslet (traceless (out_S xg_sign (radius k) f)) x rr i.
Proof.
  intros N2 start Hh Hk Ha Hr Hx Hi f part. pose proof PI_RGT_0 as Pp.
  pose proof (balanced_after N radius r xg_sign Ff Tt Ee s0 start J) as Bl. assert (Hf : f = total N (after N radius r s0 J) k) by reflexivity.
  assert (T : forall j n m, rng N n m -> cB f j n m = first_B Tt k j n m - oB (radius k) n (cD f j n m) (cE f j n m) (cF f j n m) /\ cC f j n m = first_C Ff k j n m - oC (radius k) n (cD f j n m) (cE f j n m) (cF f j n m)).
  { intros j n m Hm. destruct (total_get N (after N radius r s0 J) k j n m Hm) as (_ & TB & TC & TD & TE & TF). rewrite Hf, TB, TC, TD, TE, TF.
    destruct (Bl k j n m Hk Hm) as (_ & B & C & _). split; assumption. }
  assert (T1B : forall j m, (Z.abs m <= 1)%Z -> cB f j 1%nat m = initial_B (Tt k) j 1%nat m).
  { intros j m Hm. assert (Rm : rng N 1 m) by (split; [lia|exact Hm]). rewrite (proj1 (T j 1%nat m Rm)). unfold oB, outgoing, first_B. cbn [Nat.eqb fst snd]. ring. }
  assert (T1C : forall j m, (Z.abs m <= 1)%Z -> cC f j 1%nat m = initial_C (Ff k) j 1%nat m).
  { intros j m Hm. assert (Rm : rng N 1 m) by (split; [lia|exact Hm]). rewrite (proj2 (T j 1%nat m Rm)). unfold oC, outgoing, first_C. cbn [Nat.eqb fst snd]. ring. }
  pose proof (H_pos 1 0) as h0. pose proof (H_pos 1 1) as h1.
  unfold part. split; [|split].
  - rewrite (degree_ext 1 _ (fun j m => (cC f j 1%nat m / (2 * rr)) * hg h j 1%nat m x i + (cC f j 1%nat m * x i / (2 * rr ^ 3)) * hv h j 1%nat m x)).
    2:{ intros j m _ _. unfold outside, far_grad, zero_coef. rewrite Hx. cbn [INR Nat.mul Nat.add]. field. lra. }
    rewrite degree_plus, (grad_1 h x Hh _ i Hi), (val_1 h x Hh).
    assert (V : forall u q, (q < 3)%nat -> vec_re (fun j m => H 1 m * (cC f j 1%nat m * u)) q = Ff k q / (4 * PI) * u).
    { intros u q Hq. unfold vec_re, v3. rewrite !T1C by lia.
      unfold initial_C, at1. cbn [Nat.eqb]. change (H 1 (-1)) with (H 1 1).
      destruct q as [|[|[|q]]]; [| | |lia]; field; repeat split; lra. }
    unfold Rdiv at 1. rewrite (V (/ (2 * rr)) i Hi).
    unfold dot3. replace (fun j m => H 1 m * (cC f j 1%nat m * x i / (2 * rr ^ 3))) with (fun j m => H 1 m * (cC f j 1%nat m * (x i / (2 * rr ^ 3)))).
    2:{ apply FunctionalExtensionality.functional_extensionality. intros j. apply FunctionalExtensionality.functional_extensionality. intros m. unfold Rdiv. ring. }
    rewrite !V by lia. unfold stokeslet, dot3. field. lra.
  - rewrite (degree_ext 1 _ (fun j m => (cB f j 1%nat m * / rr ^ 3) * cross (hg h j 1%nat m x) x i)).
    2:{ intros j m _ _. unfold outside, zero_coef. rewrite cross_far by exact Hi. cbn [Nat.mul Nat.add]. unfold Rdiv. ring. }
    rewrite (curl_1 h x Hh _ i Hi).
    assert (V : forall q, (q < 3)%nat -> vec_re (fun j m => H 1 m * (cB f j 1%nat m * / rr ^ 3)) q = Tt k q / (8 * PI * rr ^ 3)).
    { intros q Hq. unfold vec_re, v3. rewrite !T1B by lia.
      unfold initial_B, at1. cbn [Nat.eqb]. change (H 1 (-1)) with (H 1 1).
      destruct q as [|[|[|q]]]; [| | |lia]; field; repeat split; lra. }
    unfold rotlet. destruct i as [|[|[|i]]]; [| | |lia]; unfold cross, v3 at 1 2; rewrite !V by lia; unfold v3; field; repeat split; lra.
  - rewrite (degree_ext 2 _ (fun j m => (cC f j 2%nat m * (x i / (2 * rr ^ 5))) * hv h j 2%nat m x)).
    2:{ intros j m _ _. unfold outside, far_grad, zero_coef. rewrite Hx. cbn [INR Nat.mul Nat.add]. field. lra. }
    rewrite (val_2 h x Hh). unfold stresslet.
    assert (W : forall j m, (Z.abs m <= 2)%Z -> stress_V (radius k) f j m = - (4 * PI / 3) * (H 2 m * cC f j 2%nat m)).
    { intros j m Hm. unfold stress_V. assert (Rm : rng N 2 m) by (split; [lia|exact Hm]). destruct (T j 2%nat m Rm) as [_ C].
      unfold oC, outgoing, first_C, initial_C in C. rewrite at1_out in C by discriminate. cbn [Nat.eqb fst snd] in C. unfold invert_C in C. cbn [INR Nat.mul Nat.add Nat.sub] in C. rewrite C. field. lra. }
    assert (Q : quadratic (traceless (out_S xg_sign (radius k) f)) x = - (4 * PI / 3) * quadratic (traceless (S_re (- (1)) (fun j m => H 2 m * cC f j 2%nat m))) x).
    { unfold quadratic, traceless, out_S, S_re. cbn [rsum nth]. rewrite !W by lia. unfold xg_sign. field. }
    assert (Q' : quadratic (traceless (S_re (- (1)) (fun j m => H 2 m * (cC f j 2%nat m * (x i / (2 * rr ^ 5)))))) x = x i / (2 * rr ^ 5) * quadratic (traceless (S_re (- (1)) (fun j m => H 2 m * cC f j 2%nat m))) x).
    { unfold quadratic, traceless, S_re. cbn [rsum nth]. field. lra. }
    rewrite Q, Q'. field. split; lra.
Qed.
Print Assumptions C75_moments.

(** Before any reflection the program has the exact answer for spheres alone. *)
Theorem C75_alone N radius Ff Tt Ee s0 k :
  (2 <= N)%nat -> Set_Initial_Conditions N radius xg_sign Ff Tt Ee = Some s0 -> (k = 1 \/ k = 2)%nat -> 0 < radius k ->
  let f := total N s0 k in
  (forall i, (i < 3)%nat -> out_U (radius k) f i = Ff k i / (6 * PI * radius k) /\ out_O (radius k) f i = Tt k i / (8 * PI * radius k ^ 3)) /\
  (forall c, (c < 5)%nat -> out_S xg_sign (radius k) f c =
     20 / 3 * PI * radius k ^ 3 * nth c [Ee k 0 0; Ee k 1 1; Ee k 0 1; Ee k 0 2; Ee k 1 2]%nat 0).
Proof.
  intros N2 start Hk Ha f. pose proof PI_RGT_0 as Pp. pose proof (H_pos 1 0) as h0. pose proof (H_pos 1 1) as h1.
  pose proof (H_pos 2 0) as g0. pose proof (H_pos 2 1) as g1. pose proof (H_pos 2 2) as g2.
  assert (T : forall j n m, rng N n m ->
    cA f j n m = first_A radius Ff k j n m - oA (radius k) n (d0 xg_sign (Ee k) j n m) 0 0 /\ cB f j n m = first_B Tt k j n m - oB (radius k) n (d0 xg_sign (Ee k) j n m) 0 0 /\
    cC f j n m = first_C Ff k j n m - oC (radius k) n (d0 xg_sign (Ee k) j n m) 0 0 /\ cD f j n m = d0 xg_sign (Ee k) j n m /\ cE f j n m = 0 /\ cF f j n m = 0).
  { intros j n m Hm. destruct (total_get N s0 k j n m Hm) as (TA & TB & TC & TD & TE & TF). fold f in TA, TB, TC, TD, TE, TF. rewrite TA, TB, TC, TD, TE, TF.
    destruct (init_get N radius xg_sign Ff Tt Ee s0 start k j n m Hk Hm) as (Z & (A & B & C & D & E & F) & _). unfold tot. rewrite Z, A, B, C, D, E, F.
    unfold zero_six. cbn [cA cB cC cD cE cF]. unfold zero_coef. rewrite !Rplus_0_l. repeat split. }
  split.
  - intros i Hi. assert (V : forall j m, (Z.abs m <= 1)%Z -> velocity_V (radius k) f j m = H 1 m * initial_C (Ff k) j 1%nat m * (2 / (3 * radius k)) /\ rotation_V (radius k) f j m = H 1 m * initial_B (Tt k) j 1%nat m / radius k ^ 3).
    { intros j m Hm. destruct (T j 1%nat m (conj (conj (le_n 1) (Nat.le_trans 1 2 N (le_S 1 1 (le_n 1)) N2)) Hm)) as (A & B & C & D & E & F).
      unfold velocity_V, rotation_V. rewrite A, B, C, D, E. unfold first_A, first_B, first_C, oA, oB, oC, outgoing. rewrite initial_A_eq, within_true by (try lia; exact Hm). rewrite d0_out by discriminate. cbn [Nat.eqb fst snd].
      split; field; lra. }
    unfold out_U, out_O, vec_re, v3. rewrite !(fun j => proj1 (V j 0%Z ltac:(lia))), !(fun j => proj1 (V j 1%Z ltac:(lia))), !(fun j => proj1 (V j (-1)%Z ltac:(lia))), !(fun j => proj2 (V j 0%Z ltac:(lia))), !(fun j => proj2 (V j 1%Z ltac:(lia))), !(fun j => proj2 (V j (-1)%Z ltac:(lia))).
    unfold initial_B, initial_C, at1. cbn [Nat.eqb]. change (H 1 (-1)) with (H 1 1).
    destruct i as [|[|[|i]]]; [| | |lia]; split; field; repeat split; lra.
  - assert (W : forall j m, (Z.abs m <= 2)%Z -> stress_V (radius k) f j m = 40 / 3 * PI * radius k ^ 3 * (H 2 m * d0 xg_sign (Ee k) j 2%nat m)).
    { intros j m Hm. destruct (T j 2%nat m (conj (conj (le_S 1 1 (le_n 1)) N2) Hm)) as (_ & _ & C & D & _ & F).
      unfold stress_V. rewrite C, D, F. unfold first_C, initial_C, oC, outgoing. rewrite at1_out by discriminate. cbn [Nat.eqb fst snd]. unfold invert_C. cbn [INR Nat.mul Nat.add Nat.sub]. field. lra. }
    intros c Hc. unfold out_S, S_re. do 5 (destruct c as [|c]; [cbn [nth]; rewrite !W by lia; unfold d0, initial_D, xg_sign; cbn [Nat.eqb]; change (H 2 (-1)) with (H 2 1); change (H 2 (-2)) with (H 2 2); field; lra|]). lia.
Qed.
Print Assumptions C75_alone.

(** The sign xg_sign = -1 is the right one, and the only one: with it the initial
    incoming flow is that of the fluid seen from a surface straining with E. *)
Definition low_harmonics : harmonics := mkHarm
  (fun j n m x => let X := x 0%nat in let Y := x 1%nat in let Z := x 2%nat in
     let re := match n, m with
       | 1%nat, 0%Z => X | 1%nat, 1%Z => - Y | 1%nat, (-1)%Z => Y
       | 2%nat, 0%Z => X ^ 2 - (Y ^ 2 + Z ^ 2) / 2 | 2%nat, 1%Z => - (3 * X * Y) | 2%nat, (-1)%Z => 3 * X * Y
       | 2%nat, 2%Z => 3 * (Y ^ 2 - Z ^ 2) | 2%nat, (-2)%Z => 3 * (Y ^ 2 - Z ^ 2) | _, _ => 0 end in
     let im := match n, m with
       | 1%nat, 1%Z => Z | 1%nat, (-1)%Z => Z | 2%nat, 1%Z => 3 * X * Z | 2%nat, (-1)%Z => 3 * X * Z
       | 2%nat, 2%Z => - (6 * Y * Z) | 2%nat, (-2)%Z => 6 * Y * Z | _, _ => 0 end in
     if Nat.eqb j 1 then H n m * re else - (H n m * im))
  (fun j n m x i => let X := x 0%nat in let Y := x 1%nat in let Z := x 2%nat in
     let re := match n, m with
       | 1%nat, 0%Z => v3 1 0 0 | 1%nat, 1%Z => v3 0 (- (1)) 0 | 1%nat, (-1)%Z => v3 0 1 0
       | 2%nat, 0%Z => v3 (2 * X) (- Y) (- Z) | 2%nat, 1%Z => v3 (- (3 * Y)) (- (3 * X)) 0 | 2%nat, (-1)%Z => v3 (3 * Y) (3 * X) 0
       | 2%nat, 2%Z => v3 0 (6 * Y) (- (6 * Z)) | 2%nat, (-2)%Z => v3 0 (6 * Y) (- (6 * Z)) | _, _ => v3 0 0 0 end in
     let im := match n, m with
       | 1%nat, 1%Z => v3 0 0 1 | 1%nat, (-1)%Z => v3 0 0 1 | 2%nat, 1%Z => v3 (3 * Z) 0 (3 * X) | 2%nat, (-1)%Z => v3 (3 * Z) 0 (3 * X)
       | 2%nat, 2%Z => v3 0 (- (6 * Z)) (- (6 * Y)) | 2%nat, (-2)%Z => v3 0 (6 * Z) (6 * Y) | _, _ => v3 0 0 0 end in
     if Nat.eqb j 1 then H n m * re i else - (H n m * im i)).
Lemma low_ok : first_harmonics H low_harmonics.
Proof. intros x. cbv zeta. repeat split; reflexivity. Qed.
Theorem C75_sign xg : xg = xg_sign <->
  forall E h x i, strain E -> first_harmonics H h -> (i < 3)%nat ->
    degree_sum 2 (fun j m => 5 / 10 * initial_D xg E j 2%nat m * hg h j 2%nat m x i) = - rsum 3 (fun k => E i k * x k).
Proof.
  assert (G : forall E h x i, strain E -> first_harmonics H h -> (i < 3)%nat ->
    degree_sum 2 (fun j m => 5 / 10 * initial_D xg E j 2%nat m * hg h j 2%nat m x i) = rsum 3 (fun k => (if Nat.eqb i k then xg else - (1)) * E i k * x k)).
  { intros E h x i HE Hh Hi. rewrite <- strain_field_xg by assumption. rewrite (grad_2 h x Hh _ i Hi).
    assert (Q : forall u v, (forall j m, u j m = - v j m) -> forall a b, traceless (S_re (- (1)) u) a b = - traceless (S_re (- (1)) v) a b).
    { intros u v Huv a b. unfold traceless, S_re. destruct a as [|[|[|a]]]; destruct b as [|[|[|b]]]; cbn [nth]; rewrite ?Huv; ring. }
    cbn [rsum]. rewrite !(Q (fun j m => H 2 m * (5 / 10 * initial_D xg E j 2%nat m)) (fun j m => H 2 m * - d0 xg E j 2%nat m)) by (intros j m; unfold d0; ring). ring. }
  split.
  - intros -> E h x i HE Hh Hi. rewrite G by assumption. unfold xg_sign. cbn [rsum]. destruct i as [|[|[|i]]]; [| | |lia]; cbn [Nat.eqb]; ring.
  - intros A. set (E := fun i j => match (i, j) with (0, 0)%nat => 1 | (1, 1)%nat => - (1) | _ => 0 end).
    assert (HE : strain E). { split; [intros i j Hi Hj; destruct i as [|[|[|i]]]; destruct j as [|[|[|j]]]; reflexivity || lia|unfold E; ring]. }
    specialize (A E low_harmonics (v3 1 0 0) 0%nat HE low_ok ltac:(lia)). rewrite (G E low_harmonics (v3 1 0 0) 0%nat HE low_ok ltac:(lia)) in A.
    unfold E, v3, xg_sign in *. cbn [rsum Nat.eqb] in A. lra.
Qed.
Print Assumptions C75_sign.

(** The whole program, for spheres apart by up to 10^8 mean radii: it stops
    without result only if the iteration does not end; what it prints are the
    velocities, angular velocities and stresslets after J >= 6 passes, real, and
    the last pass changed them by at most 1e-8 in all. *)
Theorem C75_program radius s Ff Tt Ee :
  0 < radius 1%nat -> 0 < radius 2%nat -> radius 1%nat + radius 2%nat < s -> 2 * s <= 10 ^ 8 * (radius 1%nat + radius 2%nat) ->
  strain (Ee 1%nat) -> strain (Ee 2%nat) ->
  exists N s0 r, (2 <= N <= 120)%nat /\ r 1%nat 2%nat = s /\ r 2%nat 1%nat = - s /\
    Set_Initial_Conditions N radius xg_sign Ff Tt Ee = Some s0 /\
    forall fuel,
      (Two_Sphere fuel radius s xg_sign Ff Tt Ee = None <-> iterate fuel 0 1 N radius r s0 = None) /\
      forall out, Two_Sphere fuel radius s xg_sign Ff Tt Ee = Some out ->
      exists J, (5 <= J)%nat /\
        let f k := total N (Nat.iter (S J) (pass N radius r) s0) k in
        let p k := total N (Nat.iter J (pass N radius r) s0) k in
        let change (o : R -> six -> vec) k := norm (fun i => o (radius k) (f k) i - o (radius k) (p k) i) in
        out = map (out_U (radius 1%nat) (f 1%nat)) [0; 1; 2]%nat ++ map (out_O (radius 1%nat) (f 1%nat)) [0; 1; 2]%nat ++ map (out_S xg_sign (radius 1%nat) (f 1%nat)) [0; 1; 2; 3; 4]%nat ++
              map (out_U (radius 2%nat) (f 2%nat)) [0; 1; 2]%nat ++ map (out_O (radius 2%nat) (f 2%nat)) [0; 1; 2]%nat ++ map (out_S xg_sign (radius 2%nat) (f 2%nat)) [0; 1; 2; 3; 4]%nat /\
        6 * PI * radius 1%nat * (change out_U 1%nat + change out_O 1%nat) + 6 * PI * radius 2%nat * (change out_U 2%nat + change out_O 2%nat) <= / 10 ^ 8.
Proof.
  intros r1 r2 Hs H8 E1 E2. destruct (Set_N_range radius s r1 r2 Hs) as [[NA NB] NC]. specialize (NC H8).
  set (N := Z.to_nat (Set_N radius s)). set (r := fun i j : nat => match i, j with 1%nat, 2%nat => s | _, _ => - s end).
  assert (HN : (2 <= N <= 120)%nat) by (unfold N; lia).
  assert (ok : forall E, strain E -> strain_ok E = true).
  { intros E [Sy Tr]. unfold strain_ok, Rleb. rewrite Tr, (Sy 1%nat 0%nat), (Sy 2%nat 0%nat), (Sy 2%nat 1%nat) by lia.
    replace ((E 0%nat 1%nat - E 0%nat 1%nat) ^ 2 + (E 0%nat 2%nat - E 0%nat 2%nat) ^ 2 + (E 1%nat 2%nat - E 1%nat 2%nat) ^ 2) with 0 by ring.
    rewrite Rabs_R0. destruct (Rle_dec 0 (/ 10 ^ 5)) as [|Q]; [reflexivity|]. exfalso. apply Q. apply Rlt_le, Rinv_0_lt_compat. lra. }
  destruct (Set_Initial_Conditions N radius xg_sign Ff Tt Ee) as [s0|] eqn:start.
  2:{ unfold Set_Initial_Conditions in start. rewrite (ok _ E1), (ok _ E2) in start. discriminate. }
  exists N, s0, r. split; [exact HN|]. split; [reflexivity|]. split; [reflexivity|]. split; [exact start|]. intros fuel.
  assert (Q : forall t, iterate fuel 0 1 N radius r s0 = Some t -> exists J, (5 <= J)%nat /\ t = after N radius r s0 (S J) /\
     Find_force (radius 1%nat) (reflect N radius r (after N radius r s0 J) 1%nat 3%nat) + Find_force (radius 2%nat) (reflect N radius r (after N radius r s0 J) 2%nat 3%nat) <= globalerror).
  { intros t Ht. destruct (iterate_stop N radius r s0 ltac:(lia) fuel 0 1 t Ht) as (J' & _ & B & -> & [[-> _]|(q & -> & Hq)]); [lia|].
    exists q. split; [lia|]. split; [reflexivity|exact Hq]. }
  assert (D : Two_Sphere fuel radius s xg_sign Ff Tt Ee =
    match iterate fuel 0 1 N radius r s0 with None => None | Some t => Some (printed xg_sign (radius 1%nat) (total N t 1%nat) ++ printed xg_sign (radius 2%nat) (total N t 2%nat)) end).
  { unfold Two_Sphere. fold N. rewrite start. fold r. destruct (iterate fuel 0 1 N radius r s0) as [t|] eqn:It; [|reflexivity].
    destruct (Q t eq_refl) as (J & _ & -> & _).
    rewrite (real_after N radius r xg_sign Ff Tt Ee s0 ltac:(lia) start (S J) 1%nat ltac:(left; reflexivity)), (real_after N radius r xg_sign Ff Tt Ee s0 ltac:(lia) start (S J) 2%nat ltac:(right; reflexivity)). reflexivity. }
  rewrite D. destruct (iterate fuel 0 1 N radius r s0) as [t|] eqn:It.
  - split; [split; discriminate|]. intros out [= <-]. destruct (Q t eq_refl) as (J & HJ & -> & HF). exists J. split; [exact HJ|]. cbv zeta. split.
    + reflexivity.
    + pose proof (last_change N radius r xg_sign Ff Tt Ee s0 ltac:(lia) start J 1%nat ltac:(left; reflexivity) r1) as L1.
      pose proof (last_change N radius r xg_sign Ff Tt Ee s0 ltac:(lia) start J 2%nat ltac:(right; reflexivity) r2) as L2. cbv zeta in L1, L2.
      change (/ 10 ^ 8) with globalerror. change (Nat.iter J (pass N radius r) s0) with (after N radius r s0 J). change (Nat.iter (S J) (pass N radius r) s0) with (after N radius r s0 (S J)). lra.
  - split; [tauto|]. intros out Ho. discriminate.
Qed.
Print Assumptions C75_program.

(** Non-trivial data: unequal spheres 5 apart, a force, a torque and a strain. *)
Definition C75_radius (k : nat) : R := if Nat.eqb k 1 then 1 else 2.
Definition C75_F (k : nat) : vec := if Nat.eqb k 1 then v3 1 2 0 else v3 0 0 (- (1)).
Definition C75_T (k : nat) : vec := if Nat.eqb k 1 then v3 0 0 0 else v3 0 3 0.
Definition C75_E (k : nat) : mat := if Nat.eqb k 1 then traceless (fun c => nth c [1; 2; 0; 1; 0] 0) else fun _ _ => 0.
Example C75_example :
  first_harmonics H low_harmonics /\ strain (C75_E 1%nat) /\ strain (C75_E 2%nat) /\
  0 < C75_radius 1%nat /\ 0 < C75_radius 2%nat /\ C75_radius 1%nat + C75_radius 2%nat < 5 /\ 2 * 5 <= 10 ^ 8 * (C75_radius 1%nat + C75_radius 2%nat) /\
  dot3 (v3 (2 / 3) (1 / 3) (2 / 3)) (v3 (2 / 3) (1 / 3) (2 / 3)) = C75_radius 1%nat ^ 2 /\
  exists s0, Set_Initial_Conditions 8 C75_radius xg_sign C75_F C75_T C75_E = Some s0 /\
    out_U 1 (total 8 s0 1%nat) 1%nat = 2 / (6 * PI) /\ out_S xg_sign 1 (total 8 s0 1%nat) 1%nat = 40 / 3 * PI.
Proof.
  assert (S1 : strain (C75_E 1%nat)).
  { split; [|unfold C75_E, traceless; cbn [Nat.eqb nth]; ring]. intros i j Hi Hj. destruct i as [|[|[|i]]]; destruct j as [|[|[|j]]]; try lia; reflexivity. }
  assert (S2 : strain (C75_E 2%nat)) by (split; [reflexivity|unfold C75_E; cbn [Nat.eqb]; ring]).
  split; [exact low_ok|]. split; [exact S1|]. split; [exact S2|]. unfold C75_radius. cbn [Nat.eqb].
  split; [lra|]. split; [lra|]. split; [lra|]. split; [lra|]. split; [unfold dot3, v3; field|].
  fold C75_radius.
  destruct (Set_Initial_Conditions 8 C75_radius xg_sign C75_F C75_T C75_E) as [s0|] eqn:start.
  - exists s0. split; [reflexivity|]. destruct (C75_alone 8 C75_radius C75_F C75_T C75_E s0 1 ltac:(lia) start ltac:(auto) ltac:(unfold C75_radius; cbn [Nat.eqb]; lra)) as [A B].
    change (C75_radius 1%nat) with 1 in A, B. pose proof PI_RGT_0. split.
    + rewrite (proj1 (A 1%nat ltac:(lia))). unfold C75_F, v3. cbn [Nat.eqb]. field. lra.
    + rewrite (B 1%nat ltac:(lia)). unfold C75_E, traceless. cbn [Nat.eqb nth]. field.
  - exfalso. destruct (C75_program C75_radius 5 C75_F C75_T C75_E) as (N & s0 & r & _ & _ & _ & start' & _); try (unfold C75_radius; cbn [Nat.eqb]; lra); try assumption.
    unfold Set_Initial_Conditions in start, start'. destruct (strain_ok (C75_E 1%nat) && strain_ok (C75_E 2%nat))%bool; discriminate.
Qed.
