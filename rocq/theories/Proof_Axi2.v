(** Blocks that commute with the symmetries about the x axis. *)
From Coq Require Import Reals Arith Bool List Lia Lra FunctionalExtensionality.
From Verif Require Import Base Model_Pack Model_Mob Model_Layout Model_Minf Model_Subtract
  Spec_Layout Spec_Minf Spec_R2B Spec_Rotate Proof_Layout
  Proof_Rotate1 Proof_Rotate2 Proof_Rotate3 Proof_Rotate4 Proof_Rotate5 Proof_Rotate8 Proof_Rotate9 Proof_Axi1.
Import ListNotations.
Local Open Scope R_scope.

Definition ex : vec := v3 1 0 0.

Definition cUU (x y : R) (i j : nat) : R := match i, j with 0%nat, 0%nat => x | 1%nat, 1%nat => y | 2%nat, 2%nat => y | _, _ => 0 end.
Definition cOU (y : R) (i j : nat) : R := match i, j with 1%nat, 2%nat => y | 2%nat, 1%nat => - y | _, _ => 0 end.
Definition cSU (g h : R) (i j : nat) : R :=
  match i, j with 0%nat, 0%nat => g | 2%nat, 0%nat => (sqrt 3 - 2) * g | 1%nat, 1%nat => h | 3%nat, 2%nat => h | _, _ => 0 end.
Definition cSO (h : R) (i j : nat) : R := match i, j with 3%nat, 1%nat => h | 1%nat, 2%nat => - h | _, _ => 0 end.
Definition cSS (z y b : R) (i j : nat) : R :=
  match i, j with
  | 0%nat, 0%nat => z - (2 + sqrt 3) * b | 0%nat, 2%nat => b | 2%nat, 0%nat => b | 2%nat, 2%nat => z - (2 - sqrt 3) * b
  | 1%nat, 1%nat => y | 3%nat, 3%nat => y | 4%nat, 4%nat => z | _, _ => 0
  end.

Section Block.
Variable B : nat -> nat -> R.
Ltac use H i j := let E := fresh "E" in pose proof (H i j ltac:(cbn; lia) ltac:(cbn; lia)) as E;
  cbn [ksize] in E; unfold rsum in E; cbn [tmat] in E; unfold mscal in E; rewrite ?mirror_y_det, ?mirror_det, ?swap_det in E;
  cbn [mirror_y mirror_z swap_yz] in E.
Ltac use5 L H i j := let E := fresh "E" in pose proof (H i j ltac:(cbn; lia) ltac:(cbn; lia)) as E;
  cbn [ksize] in E; unfold rsum in E; rewrite ?L in E by (cbn; lia); cbn [tmat] in E; unfold mscal in E; rewrite ?mirror_y_det, ?mirror_det, ?swap_det in E;
  cbn [mirror_y mirror_z swap_yz mirror_y5 mirror_z5 sgn5 swap5 Nat.eqb Nat.ltb Nat.leb] in E.

Lemma form_UU k1 k2 : mrank k1 = 0%nat -> mrank k2 = 0%nat -> intertwines mirror_y k1 k2 B -> intertwines mirror_z k1 k2 B -> intertwines swap_yz k1 k2 B ->
  forall i j, (i < 3)%nat -> (j < 3)%nat -> B i j = cUU (B 0%nat 0%nat) (B 1%nat 1%nat) i j.
Proof.
  intros R1 R2 Hy Hz Hs i j Hi Hj.
  assert (G : forall Q, intertwines Q k1 k2 B -> intertwines Q KU KU B) by (intros Q; destruct k1, k2; cbn in R1, R2; try discriminate; intros X; exact X).
  apply G in Hy, Hz, Hs. clear G R1 R2.
  idx3 Hi; idx3 Hj; cbn [cUU]; try reflexivity.
  - use Hy 0%nat 1%nat. lra.
  - use Hz 0%nat 2%nat. lra.
  - use Hy 1%nat 0%nat. lra.
  - use Hz 1%nat 2%nat. lra.
  - use Hz 2%nat 0%nat. lra.
  - use Hz 2%nat 1%nat. lra.
  - use Hs 1%nat 2%nat. lra.
Qed.
Lemma form_OO : intertwines mirror_y KO KO B -> intertwines mirror_z KO KO B -> intertwines swap_yz KO KO B ->
  forall i j, (i < 3)%nat -> (j < 3)%nat -> B i j = cUU (B 0%nat 0%nat) (B 1%nat 1%nat) i j.
Proof.
  intros Hy Hz Hs i j Hi Hj. idx3 Hi; idx3 Hj; cbn [cUU]; try reflexivity.
  - use Hy 0%nat 1%nat. lra.
  - use Hz 0%nat 2%nat. lra.
  - use Hy 1%nat 0%nat. lra.
  - use Hz 1%nat 2%nat. lra.
  - use Hz 2%nat 0%nat. lra.
  - use Hz 2%nat 1%nat. lra.
  - use Hs 1%nat 2%nat. lra.
Qed.
Lemma form_OU k2 : mrank k2 = 0%nat -> intertwines mirror_y KO k2 B -> intertwines mirror_z KO k2 B -> intertwines swap_yz KO k2 B ->
  forall i j, (i < 3)%nat -> (j < 3)%nat -> B i j = cOU (B 1%nat 2%nat) i j.
Proof.
  intros R2 Hy Hz Hs i j Hi Hj.
  assert (G : forall Q, intertwines Q KO k2 B -> intertwines Q KO KU B) by (intros Q; destruct k2; cbn in R2; try discriminate; intros X; exact X).
  apply G in Hy, Hz, Hs. clear G R2.
  idx3 Hi; idx3 Hj; cbn [cOU]; try reflexivity.
  - use Hy 0%nat 0%nat. lra.
  - use Hz 0%nat 1%nat. lra.
  - use Hy 0%nat 2%nat. lra.
  - use Hz 1%nat 0%nat. lra.
  - use Hy 1%nat 1%nat. lra.
  - use Hy 2%nat 0%nat. lra.
  - use Hs 1%nat 1%nat. lra.
  - use Hz 2%nat 2%nat. lra.
Qed.
Lemma form_SU k2 : mrank k2 = 0%nat -> intertwines mirror_y KS k2 B -> intertwines mirror_z KS k2 B -> intertwines swap_yz KS k2 B ->
  forall i j, (i < 5)%nat -> (j < 3)%nat -> B i j = cSU (B 0%nat 0%nat) (B 1%nat 1%nat) i j.
Proof.
  intros R2 Hy Hz Hs i j Hi Hj.
  assert (G : forall Q, intertwines Q KS k2 B -> intertwines Q KS KU B) by (intros Q; destruct k2; cbn in R2; try discriminate; intros X; exact X).
  apply G in Hy, Hz, Hs. clear G R2.
  idx5 Hi i; idx3 Hj; cbn [cSU]; try reflexivity.
  - use5 mirror_y5_ok Hy 0%nat 1%nat. lra.
  - use5 mirror_z5_ok Hz 0%nat 2%nat. lra.
  - use5 mirror_y5_ok Hy 1%nat 0%nat. lra.
  - use5 mirror_y5_ok Hy 1%nat 2%nat. lra.
  - use5 swap5_ok Hs 0%nat 0%nat. lra.
  - use5 mirror_y5_ok Hy 2%nat 1%nat. lra.
  - use5 mirror_z5_ok Hz 2%nat 2%nat. lra.
  - use5 mirror_z5_ok Hz 3%nat 0%nat. lra.
  - use5 mirror_z5_ok Hz 3%nat 1%nat. lra.
  - use5 swap5_ok Hs 1%nat 2%nat. lra.
  - use5 mirror_y5_ok Hy 4%nat 0%nat. lra.
  - use5 mirror_z5_ok Hz 4%nat 1%nat. lra.
  - use5 mirror_y5_ok Hy 4%nat 2%nat. lra.
Qed.
Lemma form_SO : intertwines mirror_y KS KO B -> intertwines mirror_z KS KO B -> intertwines swap_yz KS KO B ->
  forall i j, (i < 5)%nat -> (j < 3)%nat -> B i j = cSO (B 3%nat 1%nat) i j.
Proof.
  intros Hy Hz Hs i j Hi Hj. idx5 Hi i; idx3 Hj; cbn [cSO]; try reflexivity.
  - use5 mirror_y5_ok Hy 0%nat 0%nat. lra.
  - use5 mirror_z5_ok Hz 0%nat 1%nat. lra.
  - use5 mirror_y5_ok Hy 0%nat 2%nat. lra.
  - use5 mirror_z5_ok Hz 1%nat 0%nat. lra.
  - use5 mirror_z5_ok Hz 1%nat 1%nat. lra.
  - use5 swap5_ok Hs 1%nat 1%nat. lra.
  - use5 mirror_y5_ok Hy 2%nat 0%nat. lra.
  - use5 mirror_z5_ok Hz 2%nat 1%nat. lra.
  - use5 mirror_y5_ok Hy 2%nat 2%nat. lra.
  - use5 mirror_y5_ok Hy 3%nat 0%nat. lra.
  - use5 mirror_y5_ok Hy 3%nat 2%nat. lra.
  - use5 swap5_ok Hs 4%nat 0%nat. lra.
  - use5 mirror_y5_ok Hy 4%nat 1%nat. lra.
  - use5 mirror_z5_ok Hz 4%nat 2%nat. lra.
Qed.
Lemma form_SS : intertwines mirror_y KS KS B -> intertwines mirror_z KS KS B -> intertwines swap_yz KS KS B -> intertwines turn_x KS KS B ->
  forall i j, (i < 5)%nat -> (j < 5)%nat -> B i j = cSS (B 4%nat 4%nat) (B 1%nat 1%nat) (B 2%nat 0%nat) i j.
Proof.
  intros Hy Hz Hs Ht.
  assert (Z : forall i j, (i < 5)%nat -> (j < 5)%nat -> (match i, j with
    0%nat, 0%nat | 0%nat, 2%nat | 2%nat, 0%nat | 2%nat, 2%nat | 1%nat, 1%nat | 3%nat, 3%nat | 4%nat, 4%nat => True | _, _ => B i j = 0 end)).
  { intros i j Hi Hj. idx5 Hi i; idx5 Hj j; try exact I.
    - use5 mirror_y5_ok Hy 0%nat 1%nat. lra.
    - use5 mirror_z5_ok Hz 0%nat 3%nat. lra.
    - use5 mirror_z5_ok Hz 0%nat 4%nat. lra.
    - use5 mirror_y5_ok Hy 1%nat 0%nat. lra.
    - use5 mirror_y5_ok Hy 1%nat 2%nat. lra.
    - use5 mirror_y5_ok Hy 1%nat 3%nat. lra.
    - use5 mirror_z5_ok Hz 1%nat 4%nat. lra.
    - use5 mirror_y5_ok Hy 2%nat 1%nat. lra.
    - use5 mirror_z5_ok Hz 2%nat 3%nat. lra.
    - use5 mirror_z5_ok Hz 2%nat 4%nat. lra.
    - use5 mirror_z5_ok Hz 3%nat 0%nat. lra.
    - use5 mirror_z5_ok Hz 3%nat 1%nat. lra.
    - use5 mirror_z5_ok Hz 3%nat 2%nat. lra.
    - use5 mirror_y5_ok Hy 3%nat 4%nat. lra.
    - use5 mirror_z5_ok Hz 4%nat 0%nat. lra.
    - use5 mirror_z5_ok Hz 4%nat 1%nat. lra.
    - use5 mirror_z5_ok Hz 4%nat 2%nat. lra.
    - use5 mirror_y5_ok Hy 4%nat 3%nat. lra. }
  assert (S02 : B 0%nat 2%nat = B 2%nat 0%nat). { use5 swap5_ok Hs 0%nat 0%nat. lra. }
  assert (S22 : B 2%nat 2%nat = B 0%nat 0%nat + 2 * sqrt 3 * B 2%nat 0%nat).
  { use5 swap5_ok Hs 0%nat 2%nat. rewrite S02 in E. lra. }
  assert (S33 : B 3%nat 3%nat = B 1%nat 1%nat). { use5 swap5_ok Hs 1%nat 3%nat. lra. }
  assert (S00 : B 0%nat 0%nat = B 4%nat 4%nat - (2 + sqrt 3) * B 2%nat 0%nat).
  { pose proof (Ht 4%nat 0%nat ltac:(cbn; lia) ltac:(cbn; lia)) as E. cbn [ksize] in E. unfold rsum in E.
    pose proof (Z 4%nat 0%nat ltac:(lia) ltac:(lia)) as Z0. pose proof (Z 4%nat 1%nat ltac:(lia) ltac:(lia)) as Z1.
    pose proof (Z 4%nat 2%nat ltac:(lia) ltac:(lia)) as Z2. pose proof (Z 4%nat 3%nat ltac:(lia) ltac:(lia)) as Z3.
    pose proof (Z 1%nat 0%nat ltac:(lia) ltac:(lia)) as Z4. pose proof (Z 3%nat 0%nat ltac:(lia) ltac:(lia)) as Z5.
    cbv beta iota in Z0, Z1, Z2, Z3, Z4, Z5.
    rewrite Z0, Z1, Z2, Z3, Z4, Z5, turn5_40, turn5_42 in E.
    pose proof s3_sq as H3. assert (H2 : 0 < s2) by (unfold s2; apply sqrt_lt_R0; lra).
    assert (E' : s2 * ((sqrt 3 - 1) * (B 4%nat 4%nat - B 0%nat 0%nat) - (sqrt 3 + 1) * B 2%nat 0%nat) = 0) by lra.
    apply Rmult_integral in E'. destruct E' as [E'|E']; [lra|].
    assert (E2 : (sqrt 3 + 1) * ((sqrt 3 - 1) * (B 4%nat 4%nat - B 0%nat 0%nat) - (sqrt 3 + 1) * B 2%nat 0%nat) = 0) by (rewrite E'; ring).
    assert (E3 : (sqrt 3 + 1) * (sqrt 3 - 1) * (B 4%nat 4%nat - B 0%nat 0%nat) - (sqrt 3 + 1) * (sqrt 3 + 1) * B 2%nat 0%nat = 0) by lra.
    replace ((sqrt 3 + 1) * (sqrt 3 - 1)) with 2 in E3 by (ring_simplify; rewrite <- Rsqr_pow2; unfold Rsqr; lra).
    replace ((sqrt 3 + 1) * (sqrt 3 + 1)) with (4 + 2 * sqrt 3) in E3 by (ring_simplify; rewrite <- Rsqr_pow2; unfold Rsqr; lra).
    lra. }
  intros i j Hi Hj. pose proof (Z i j Hi Hj) as Zij. idx5 Hi i; idx5 Hj j; cbn [cSS]; try exact Zij; try reflexivity; lra.
Qed.
End Block.

(** The two-body functions along the x axis. *)
Section Two.
Variable sc : nat -> R.
Ltac tb := cbn [two_body]; unfold trans, dev, delta, levi, ex, v3, rsum; cbn [Nat.eqb orb andb].
Lemma two_UU k1 k2 i j : mrank k1 = 0%nat -> mrank k2 = 0%nat -> (i < 3)%nat -> (j < 3)%nat ->
  two_body sc k1 k2 ex 1 i j = cUU (6 * PI * sc 0%nat) (6 * PI * sc 1%nat) i j.
Proof.
  intros R1 R2 Hi Hj. replace (two_body sc k1 k2 ex 1 i j) with (two_body sc KU KU ex 1 i j) by (destruct k1, k2; cbn in R1, R2; try discriminate; reflexivity).
  idx3 Hi; idx3 Hj; tb; cbn [cUU]; ring.
Qed.
Lemma two_OO i j : (i < 3)%nat -> (j < 3)%nat -> two_body sc KO KO ex 1 i j = cUU (8 * PI * sc 3%nat) (8 * PI * sc 4%nat) i j.
Proof. intros Hi Hj. idx3 Hi; idx3 Hj; tb; cbn [cUU]; ring. Qed.
Lemma two_OU k2 i j : mrank k2 = 0%nat -> (i < 3)%nat -> (j < 3)%nat -> two_body sc KO k2 ex 1 i j = cOU (4 * PI * sc 2%nat) i j.
Proof.
  intros R2 Hi Hj. replace (two_body sc KO k2 ex 1 i j) with (two_body sc KO KU ex 1 i j) by (destruct k2; cbn in R2; try discriminate; reflexivity).
  idx3 Hi; idx3 Hj; tb; cbn [cOU]; ring.
Qed.
Lemma two_SU k2 i j : mrank k2 = 0%nat -> (i < 5)%nat -> (j < 3)%nat ->
  two_body sc KS k2 ex 1 i j = cSU (4 * PI * ((sqrt 3 + 3) / 6) * sc 5%nat) (4 * PI * sqrt 2 * sc 6%nat) i j.
Proof.
  intros R2 Hi Hj. replace (two_body sc KS k2 ex 1 i j) with (two_body sc KS KU ex 1 i j) by (destruct k2; cbn in R2; try discriminate; reflexivity).
  pose proof s3_sq as H3.
  assert (W : (sqrt 3 - 2) * ((sqrt 3 + 3) / 6) = (sqrt 3 - 3) / 6) by lra.
  idx5 Hi i; idx3 Hj; cbn [two_body]; conds; tb; unfold hs3p1, hs3m1, s2, s3; cbn [cSU]; try field.
  transitivity (4 * PI * sc 5%nat * ((sqrt 3 - 3) / 6)); [field|]. rewrite <- W. field.
Qed.
Lemma two_SO i j : (i < 5)%nat -> (j < 3)%nat -> two_body sc KS KO ex 1 i j = cSO (- (8 * PI * sqrt 2 * sc 7%nat)) i j.
Proof.
  intros Hi Hj. idx5 Hi i; idx3 Hj; cbn [two_body]; conds; tb; unfold hs3p1, hs3m1, s2, s3; cbn [cSO]; field.
Qed.
Lemma two_SS i j : (i < 5)%nat -> (j < 5)%nat ->
  two_body sc KS KS ex 1 i j = cSS (20 / 3 * PI * sc 10%nat) (20 / 3 * PI * sc 9%nat) (20 / 3 * PI * ((sc 10%nat - sc 8%nat) / 4)) i j.
Proof.
  intros Hi Hj. pose proof s3_sq as H3. pose proof s2_sq as H2.
  idx5 Hi i; idx5 Hj j; cbn [two_body]; conds; conds; tb; unfold hs3p1, hs3m1, s2, s3; cbn [cSS]; try field; set (w := sqrt 3) in *; set (v := sqrt 2) in *; clearbody v w.
  all: first
  [ transitivity (20 / 3 * PI * (sc 8%nat * (w * w + 6 * w + 9) / 24 + sc 10%nat * (w * w - 2 * w + 1) / 8)); [field|]; rewrite H3; field
  | transitivity (20 / 3 * PI * (sc 8%nat * (w * w - 9) / 24 + sc 10%nat * (w * w - 1) / 8)); [field|]; rewrite H3; field
  | transitivity (20 / 3 * PI * (sc 8%nat * (w * w - 6 * w + 9) / 24 + sc 10%nat * (w * w + 2 * w + 1) / 8)); [field|]; rewrite H3; field
  | transitivity (20 / 3 * PI * (v * v / 2) * sc 9%nat); [field|]; rewrite H2; field
  | transitivity (20 / 3 * PI * (v * v / 2) * sc 10%nat); [field|]; rewrite H2; field
  | match goal with |- ?g => fail 1 g end ].
Qed.
End Two.
