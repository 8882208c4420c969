(** Property C76: [Translate_field] re-expands the flow about the other centre. *)
From Coq Require Import Reals ZArith Arith Lia Lra Bool List.
From Verif Require Import Base Model_Mob Model_Close Model_Reflect Spec_Reflect Spec_Translate Proof_Reflect3 Proof_Translate Proof_Translate2 Proof_Translate3 Proof_Translate4.
Local Open Scope R_scope.

Lemma lowest_val m : lowest m = ninit m.
Proof. unfold lowest, ninit. destruct (Z.eqb_spec m 0) as [->|Hm]; [reflexivity|]. lia. Qed.
Lemma lowest_zero : lowest 0 = 1%nat.
Proof. reflexivity. Qed.
Lemma from_lowest (F : nat -> R) m L : infinite_sum (fun k => F (Z.abs_nat m + k)%nat) L ->
  infinite_sum (fun k => F (lowest m + k)%nat) (L - if Z.eqb m 0 then F 0%nat else 0).
Proof.
  intros S1. destruct (Z.eqb_spec m 0) as [->|Hm].
  - exact (is_tail (fun k => F k) L S1).
  - replace (lowest m) with (Z.abs_nat m) by (unfold lowest; lia). rewrite Rminus_0_r. exact S1.
Qed.
Lemma degrees_ext N m f f' : (forall n, (lowest m <= n <= N)%nat -> f n = f' n) -> degrees N m f = degrees N m f'.
Proof. intros E. unfold degrees. apply rsum_ext. intros i Hi. apply E. lia. Qed.
Lemma degrees_series N m f L : (forall n, (lowest m <= n <= N)%nat -> infinite_sum (fun k => f n k) (L n)) ->
  infinite_sum (fun k => degrees N m (fun n => f n k)) (degrees N m L).
Proof. intros S1. unfold degrees. apply (is_rsum _ (fun i k => f (lowest m + i)%nat k) (fun i => L (lowest m + i)%nat)). intros i Hi. apply S1. lia. Qed.
Lemma degrees_lin N m a f b f' : degrees N m (fun n => a * f n + b * f' n) = a * degrees N m f + b * degrees N m f'.
Proof. unfold degrees. rewrite rsum_plus, !rsum_scal_l. reflexivity. Qed.
Lemma degrees_minus N m f f' : degrees N m (fun n => f n - f' n) = degrees N m f - degrees N m f'.
Proof. unfold degrees. apply rsum_minus. Qed.
Lemma degrees_zero N m : degrees N m (fun _ => 0) = 0.
Proof. unfold degrees. induction (S N - lowest m)%nat as [|q IH]; [reflexivity|]. cbn [rsum]. rewrite IH. ring. Qed.
Lemma turn_sign j m (c : nat -> R) : part_sign j * (IZR m * c (other j)) = - turn j m c.
Proof. unfold part_sign, other, turn. destruct (Nat.eqb j 1); ring. Qed.
Lemma turn_zero j c : turn j 0 c = 0.
Proof. unfold turn. destruct (Nat.eqb j 1); ring. Qed.
Lemma turn_scal j m c a : turn j m (fun i => c i * a) = turn j m c * a.
Proof. unfold turn. destruct (Nat.eqb j 1); ring. Qed.

Section Translate.
Context (N : nat) (r xi : R) (f : six) (j : nat) (m : Z) (Hr : r <> 0) (Hxi : Rabs xi < Rabs r).
Notation x := (r + xi).

(** The pressure (the constant, which the program leaves out, apart). *)
Theorem C76_pressure :
  infinite_sum (fun k => let nu := (lowest m + k)%nat in in_p (translate_F N r f j nu m) (psi H nu m xi))
    (degrees N m (fun n => out_p (cC f j n m) (phi H n m x)) - if Z.eqb m 0 then degrees N m (fun n => out_p (cC f j n m) (phi H n m r)) else 0).
Proof.
  assert (T : forall nu, in_p (translate_F N r f j nu m) (psi H nu m xi) = degrees N m (fun n => in_p (translate_weight r nu n m * g nu n m * cC f j n m) (psi H nu m xi))).
  { intros nu. unfold in_p, translate_F, tsum, degrees. rewrite lowest_val. rewrite <- rsum_scal_r. reflexivity. }
  pose proof (from_lowest (fun nu => in_p (translate_F N r f j nu m) (psi H nu m xi)) m) as F. cbn beta zeta in F |- *.
  eapply is_ext; [intros; reflexivity| |apply F].
  2:{ eapply is_ext; [intros k; symmetry; apply T|reflexivity|]. apply degrees_series. intros n Hn. apply p_series; try assumption; unfold lowest in Hn; lia. }
  f_equal. destruct (Z.eqb_spec m 0) as [E|_]; [|reflexivity]. rewrite T. apply degrees_ext. intros n Hn. unfold in_p, out_p.
  pose proof (weight_val r n m 0 xi ltac:(unfold lowest in Hn; lia) Hr) as W. rewrite bin_0 in W. cbn [pow] in W. replace (Z.abs_nat m + 0)%nat with 0%nat in W by lia.
  transitivity (cC f j n m * (translate_weight r 0 n m * g 0 n m * psi H 0 m xi)); [ring|]. rewrite W. ring.
Qed.

(** The velocity: x.u measured from the new centre. *)
Theorem C76_velocity :
  infinite_sum (fun k => let nu := (lowest m + k)%nat in in_xu nu (translate_D N r f j nu m) (translate_F N r f j nu m) (psi H nu m xi) (xi ^ 2))
    (degrees N m (fun n => out_xu n (cA f j n m) (cC f j n m) (phi H n m x) (x ^ 2)) -
     r * degrees N m (fun n => out_ux n (cA f j n m) (cC f j n m) (phi H n m x) (dphi H n m x) (turn j m (fun i => cB f i n m * phi H n m x)) (x ^ 2) x)).
Proof.
  set (G := fun nu n => in_xu nu (translate_weight r nu n m * (g nu n m * cA f j n m - g nu n m * r * turn j m (fun i => cB f i n m) / INR nu + translate_C r nu n m (cC f j n m)))
      (translate_weight r nu n m * g nu n m * cC f j n m) (psi H nu m xi) (xi ^ 2)).
  assert (T : forall nu, in_xu nu (translate_D N r f j nu m) (translate_F N r f j nu m) (psi H nu m xi) (xi ^ 2) = degrees N m (G nu)).
  { intros nu. unfold in_xu, translate_D, translate_F, tsum. unfold degrees. rewrite <- lowest_val.
    set (d := fun n => translate_weight r nu n m * (g nu n m * cA f j n m + part_sign j * (IZR m * g nu n m * r * cB f (other j) n m / INR nu) + translate_C r nu n m (cC f j n m))).
    set (e := fun n => translate_weight r nu n m * g nu n m * cC f j n m).
    transitivity (rsum (S N - lowest m) (fun q => (INR nu * psi H nu m xi) * d (lowest m + q)%nat + (INR nu / (2 * (2 * INR nu + 3)) * xi ^ 2 * psi H nu m xi) * e (lowest m + q)%nat)).
    - rewrite rsum_plus, !rsum_scal_l. change (INR nu * rsum (S N - lowest m) (fun q => d (lowest m + q)%nat) * psi H nu m xi + rsum (S N - lowest m) (fun q => e (lowest m + q)%nat) * (INR nu / (2 * (2 * INR nu + 3))) * xi ^ 2 * psi H nu m xi
        = INR nu * psi H nu m xi * rsum (S N - lowest m) (fun q => d (lowest m + q)%nat) + INR nu / (2 * (2 * INR nu + 3)) * xi ^ 2 * psi H nu m xi * rsum (S N - lowest m) (fun q => e (lowest m + q)%nat)). ring.
    - apply rsum_ext. intros i Hi. unfold G, in_xu, d, e. set (n := (lowest m + i)%nat).
      replace (part_sign j * (IZR m * g nu n m * r * cB f (other j) n m / INR nu)) with (g nu n m * r * (part_sign j * (IZR m * cB f (other j) n m)) / INR nu) by (unfold Rdiv; ring).
      rewrite (turn_sign j m (fun i => cB f i n m)). unfold Rdiv. ring. }
  pose proof (from_lowest (fun nu => in_xu nu (translate_D N r f j nu m) (translate_F N r f j nu m) (psi H nu m xi) (xi ^ 2)) m) as F. cbn beta zeta in F |- *.
  eapply is_ext; [intros; reflexivity| |apply F].
  2:{ eapply is_ext; [intros k; symmetry; apply T|reflexivity|]. apply degrees_series. intros n Hn. unfold G. apply xu_series; try assumption; unfold lowest in Hn; try lia. intros ->. apply turn_zero. }
  replace (in_xu 0 (translate_D N r f j 0%nat m) (translate_F N r f j 0%nat m) (psi H 0 m xi) (xi ^ 2)) with 0 by (unfold in_xu; cbn [INR]; unfold Rdiv; ring).
  replace (if Z.eqb m 0 then 0 else 0) with 0 by (destruct (Z.eqb m 0); reflexivity). rewrite Rminus_0_r.
  transitivity (1 * degrees N m (fun n => out_xu n (cA f j n m) (cC f j n m) (phi H n m x) (x ^ 2)) + - r * degrees N m (fun n => out_ux n (cA f j n m) (cC f j n m) (phi H n m x) (dphi H n m x) (turn j m (fun i => cB f i n m * phi H n m x)) (x ^ 2) x)); [|ring].
  rewrite <- degrees_lin. apply degrees_ext. intros n Hn. rewrite turn_scal. ring.
Qed.

(** The rotation: x.vorticity measured from the new centre. *)
Theorem C76_rotation :
  infinite_sum (fun k => let nu := (lowest m + k)%nat in in_xw nu (translate_E N r f j nu m) (psi H nu m xi))
    (degrees N m (fun n => out_xw n (cB f j n m) (phi H n m x)) -
     r * degrees N m (fun n => out_wx n (cB f j n m) (dphi H n m x) (turn j m (fun i => cC f i n m * phi H n m x)))).
Proof.
  set (G := fun nu n => in_xw nu (translate_weight r nu n m * g nu n m * (- (INR n / (1 + INR nu)) * cB f j n m - r * turn j m (fun i => cC f i n m) / ((1 + INR nu) * INR n * INR nu))) (psi H nu m xi)).
  assert (T : forall nu, in_xw nu (translate_E N r f j nu m) (psi H nu m xi) = degrees N m (G nu)).
  { intros nu. unfold in_xw, translate_E, tsum, degrees. rewrite <- lowest_val.
    set (d := fun n => translate_weight r nu n m * g nu n m * (- (INR n / (1 + INR nu)) * cB f j n m + part_sign j * (IZR m * r * cC f (other j) n m / ((1 + INR nu) * INR n * INR nu)))).
    transitivity (rsum (S N - lowest m) (fun q => (INR nu * (INR nu + 1) * psi H nu m xi) * d (lowest m + q)%nat)).
    - rewrite rsum_scal_l. change (INR nu * (INR nu + 1) * rsum (S N - lowest m) (fun q => d (lowest m + q)%nat) * psi H nu m xi = INR nu * (INR nu + 1) * psi H nu m xi * rsum (S N - lowest m) (fun q => d (lowest m + q)%nat)). ring.
    - apply rsum_ext. intros i Hi. unfold G, in_xw, d. set (n := (lowest m + i)%nat).
      replace (part_sign j * (IZR m * r * cC f (other j) n m / ((1 + INR nu) * INR n * INR nu))) with (r * (part_sign j * (IZR m * cC f (other j) n m)) / ((1 + INR nu) * INR n * INR nu)) by (unfold Rdiv; ring).
      rewrite (turn_sign j m (fun i => cC f i n m)). unfold Rdiv. ring. }
  pose proof (from_lowest (fun nu => in_xw nu (translate_E N r f j nu m) (psi H nu m xi)) m) as F. cbn beta zeta in F |- *.
  eapply is_ext; [intros; reflexivity| |apply F].
  2:{ eapply is_ext; [intros k; symmetry; apply T|reflexivity|]. apply degrees_series. intros n Hn. unfold G. apply xw_series; try assumption; unfold lowest in Hn; try lia. intros ->. apply turn_zero. }
  replace (in_xw 0 (translate_E N r f j 0%nat m) (psi H 0 m xi)) with 0 by (unfold in_xw; cbn [INR]; ring).
  replace (if Z.eqb m 0 then 0 else 0) with 0 by (destruct (Z.eqb m 0); reflexivity). rewrite Rminus_0_r.
  transitivity (1 * degrees N m (fun n => out_xw n (cB f j n m) (phi H n m x)) + - r * degrees N m (fun n => out_wx n (cB f j n m) (dphi H n m x) (turn j m (fun i => cC f i n m * phi H n m x)))); [|ring].
  rewrite <- degrees_lin. apply degrees_ext. intros n Hn. rewrite turn_scal. ring.
Qed.
End Translate.
Print Assumptions C76_pressure.
Print Assumptions C76_velocity.
Print Assumptions C76_rotation.

(** The functions in these statements are those of Lamb's solution: for any
    harmonic of degree l the field [lamb] has these derivatives, no divergence,
    and this x.u and x.vorticity; vorticity b (l+1) g - c/(l+1) g x x. *)
Theorem C76_lamb l a b c h g K x :
  l + 1 <> 0 -> 2 * l + 3 <> 0 -> harmonic_at l h g K x ->
  exists J, (forall i k, (i < 3)%nat -> (k < 3)%nat -> partial (fun y => lamb l a b c (h y) (g y) y i) k x (J i k)) /\
    rsum 3 (fun i => J i i) = 0 /\
    dot3 x (lamb l a b c (h x) (g x) x) = a * l * h x + c * (l / (2 * (2 * l + 3))) * dot3 x x * h x /\
    dot3 x (curl J) = b * l * (l + 1) * h x /\
    curl J 0%nat = b * (l + 1) * g x 0%nat - c / (l + 1) * cross (g x) x 0%nat.
Proof.
  intros L1 L2 (Ph & Pg & Sym & Tr & Eh & Eg). exists (lamb_jac l a b c (h x) (g x) x (K x)). repeat split.
  - intros i k Hi Hk. apply lamb_partial; auto.
  - apply lamb_div; assumption.
  - apply lamb_radial; assumption.
  - apply lamb_radial_curl; assumption.
  - apply (lamb_curl l a b c (h x) (g x) x (K x)); assumption || lia.
Qed.
Print Assumptions C76_lamb.

(** The fields of C75 are [lamb] of degree n and -(n+1), and their x.u, x
    component and so on are the functions above. *)
Theorem C76_fields n a b c r h g x i :
  (1 <= n)%nat -> 0 < r -> dot3 x x = r ^ 2 -> dot3 g x = INR n * h -> (i < 3)%nat ->
  let h' := h / r ^ (2 * n + 1) in
  let g' := far_grad n r h g x in
  inside n a b c h g x i = lamb (INR n) a b c h g x i /\ outside n a b c r h g x i = lamb (- (INR n + 1)) a b c h' g' x i /\
  dot3 g' x = - (INR n + 1) * h' /\
  dot3 x (inside n a b c h g x) = in_xu n a c h (r ^ 2) /\
  dot3 x (outside n a b c r h g x) = out_xu n a c h' (r ^ 2) /\
  outside n a b c r h g x 0%nat = out_ux n a c h' (g' 0%nat) (b * (cross g x 0%nat / r ^ (2 * n + 1))) (r ^ 2) (x 0%nat) /\
  INR n * (INR n + 1) * b * h = in_xw n b h /\ b * - (INR n + 1) * (- (INR n + 1) + 1) * h' = out_xw n b h' /\
  b * (- (INR n + 1) + 1) * g' 0%nat - c / (- (INR n + 1) + 1) * cross g' x 0%nat = out_wx n b (g' 0%nat) (c * (cross g x 0%nat / r ^ (2 * n + 1))).
Proof.
  intros Hn Hr Hx Hg Hi h' g'. assert (N1 : 1 <= INR n) by (change 1 with (INR 1); apply le_INR; exact Hn).
  assert (P1 : r ^ (2 * n + 1) <> 0) by (apply pow_nonzero; lra).
  assert (Cr : cross g' x 0%nat = cross g x 0%nat / r ^ (2 * n + 1)).
  { unfold g', far_grad, cross, v3. unfold Rdiv. ring. }
  assert (Eg' : dot3 g' x = - (INR n + 1) * h').
  { unfold g', far_grad, h'. transitivity (dot3 g x / r ^ (2 * n + 1) - (2 * INR n + 1) * h * dot3 x x / r ^ (2 * n + 3)); [unfold dot3, Rdiv; ring|].
    rewrite Hg, Hx. replace (2 * n + 3)%nat with (2 * n + 1 + 2)%nat by lia. rewrite (pow_add r (2 * n + 1) 2). set (P := r ^ (2 * n + 1)) in *. clearbody P. field. split; lra || exact P1. }
  assert (O : forall k, outside n a b c r h g x k = lamb (- (INR n + 1)) a b c h' g' x k).
  { intros k. unfold outside, lamb. fold g' h'. field. lra. }
  assert (I : forall k, inside n a b c h g x k = lamb (INR n) a b c h g x k) by reflexivity.
  split; [apply I|]. split; [apply O|]. split; [exact Eg'|]. split; [|split; [|split; [|split; [|split]]]].
  - transitivity (dot3 x (lamb (INR n) a b c h g x)); [reflexivity|]. rewrite (lamb_radial (INR n) a b c h g x) by (lra || assumption). rewrite Hx. unfold in_xu. ring.
  - transitivity (dot3 x (lamb (- (INR n + 1)) a b c h' g' x)); [unfold dot3; rewrite !O; reflexivity|]. rewrite (lamb_radial (- (INR n + 1)) a b c h' g' x) by (lra || assumption). rewrite Hx. unfold out_xu. field. lra.
  - unfold outside, out_ux. fold g' h'. rewrite Cr, Hx. ring.
  - unfold in_xw. ring.
  - unfold out_xw. ring.
  - rewrite Cr. unfold out_wx. field. split; [exact P1|lra].
Qed.
Print Assumptions C76_fields.

(** A force F along the axis: at the other centre the program has the velocity
    F/(4 pi r) of a point force. *)
Example C76_example F :
  let f := mkSix zero_coef zero_coef (initial_C (v3 F 0 0)) zero_coef zero_coef zero_coef in
  translate_D 1 2 f 1%nat 1%nat 0%Z * H 1 0 = F / (4 * PI * 2) /\ (2 <> 0 /\ Rabs (1 / 2) < Rabs 2).
Proof.
  pose proof PI_RGT_0 as Pp. pose proof (H_pos 1 0) as Hp. split; [|split; [lra|rewrite !Rabs_pos_eq; lra]].
  unfold translate_D, tsum, ninit. cbn [Z.eqb rsum Nat.sub Nat.add]. unfold translate_weight, translate_C, power_m, sign_of, Rltb, FracH, part_sign, other. cbn [cA cB cC Nat.eqb Nat.leb Z.abs_nat Nat.sub FracH_down g].
  destruct (Rlt_dec 2 0); [lra|]. rewrite (Rabs_pos_eq 2) by lra. unfold zero_coef, initial_C, at1. cbn [Nat.eqb]. unfold g_zero, v3. cbn [INR Z.abs IZR]. change (Z.of_nat 1 + 0)%Z with 1%Z. change (Z.abs_nat 1) with 1%nat. cbn [pow Nat.add]. field. split; lra.
Qed.
Example C76_example_lamb : harmonic_at 2 (fun y => y 0%nat * y 1%nat) (fun y => v3 (y 1%nat) (y 0%nat) 0) (fun _ i j => if Nat.eqb (i + j) 1 then 1 else 0) (v3 1 2 3).
Proof.
  unfold harmonic_at. split; [|split; [|split; [|split; [|split]]]].
  - intros j Hj. unfold partial.
    apply d_eq with (delta 0 j * moved (v3 1 2 3) j 0 1%nat + moved (v3 1 2 3) j 0 0%nat * delta 1 j).
    + rewrite !moved_0. destruct j as [|[|[|j]]]; [| | |lia]; unfold v3, delta; cbn [Nat.eqb]; ring.
    + apply (d_mult (fun s => moved (v3 1 2 3) j s 0%nat) (fun s => moved (v3 1 2 3) j s 1%nat)); apply d_moved.
  - intros i j Hi Hj. unfold partial. destruct i as [|[|[|i]]]; [| | |lia].
    + apply d_eq with (2 := d_moved (v3 1 2 3) j 1). destruct j as [|[|[|j]]]; [| | |lia]; reflexivity.
    + apply d_eq with (2 := d_moved (v3 1 2 3) j 0). destruct j as [|[|[|j]]]; [| | |lia]; reflexivity.
    + apply d_eq with (2 := d_const 0). destruct j as [|[|[|j]]]; [| | |lia]; reflexivity.
  - intros i j Hi Hj. rewrite Nat.add_comm. reflexivity.
  - cbn [rsum Nat.add Nat.eqb]. ring.
  - unfold dot3, v3. ring.
  - intros i Hi. cbn [rsum]. destruct i as [|[|[|i]]]; [| | |lia]; unfold v3; cbn [Nat.add Nat.eqb]; ring.
Qed.
(** The axis functions of the harmonics of degrees 1 and 2 used in C75:
    X, Y - iZ, X^2, 3 X (Y - iZ), 3 (Y - iZ)^2. *)
Example C76_example_axis : lead H 1 0 = H 1 0 /\ lead H 1 1 = H 1 1 /\ lead H 2 0 = H 2 0 /\ lead H 2 1 = 3 * H 2 1 /\ lead H 2 2 = 3 * H 2 2.
Proof.
  unfold lead. change (Z.abs_nat 0) with 0%nat. change (Z.abs_nat 1) with 1%nat. change (Z.abs_nat 2) with 2%nat. cbn [Nat.add Nat.sub pow].
  change (fact 0) with 1%nat. change (fact 1) with 1%nat. change (fact 2) with 2%nat. change (fact 3) with 6%nat. change (fact 4) with 24%nat.
  rewrite !INR_IZR_INZ. cbn [Z.of_nat Pos.of_succ_nat Pos.succ]. repeat split; field.
Qed.
