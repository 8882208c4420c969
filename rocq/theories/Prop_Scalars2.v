(** C43, continued: the two problems are equivalent, and a pair too far apart
    to interact has the scalars 1 and 0. *)
From Coq Require Import Reals List Arith Bool Lia Lra.
From Verif Require Import Base Model_Mob Model_Scalars Spec_Scalars Proof_Scalars Prop_Scalars.
Import ListNotations.
Local Open Scope R_scope.

Lemma C43_inv_swap n A B : is_inv n A B -> is_inv n B A.
Proof. intros H i j Hi Hj. destruct (H i j Hi Hj). split; assumption. Qed.

Section Equivalent.
Variables (inv : mat -> mat) (x : nat -> R).
Hypothesis Ha : x 2%nat = x 1%nat.
Hypothesis Hy : x 6%nat = x 5%nat.
Hypothesis Hc : x 18%nat = x 17%nat.
Hypothesis Ia : is_inv 2 (m_xa x) (inv (m_xa x)).
Hypothesis Ic : is_inv 2 (m_xc x) (inv (m_xc x)).
Hypothesis Iy : is_inv 4 (m_yabc x) (inv (m_yabc x)).
Notation X := (convert_dim_kim_mobility_to_dim_resistance inv x).
Notation r := (scalar X).

Definition still : nat -> vec := fun _ _ => 0.
Definition unstrained : nat -> mat := fun _ _ _ => 0.

Lemma apply_zero n A B w i : is_inv n A B -> (forall k, (k < n)%nat -> mvec n A w k = 0) -> (i < n)%nat -> w i = 0.
Proof.
  intros H Hw Hi. rewrite <- (inv_apply n A B w i H Hi). unfold mvec at 1. apply rsum_zero.
  intros k Hk. rewrite Hw by exact Hk. ring.
Qed.

(** No force and no torque without strain: no motion. *)
Lemma still_only d (u o : nat -> vec) :
  d 0%nat * d 0%nat + d 1%nat * d 1%nat + d 2%nat * d 2%nat = 1 ->
  (forall p i, (p < 2)%nat -> (i < 3)%nat ->
     rsum 2 (fun q => rsum 3 (fun j => tA X d p q i j * u q j) + rsum 3 (fun j => tB X d q p j i * o q j)) = 0) ->
  (forall p i, (p < 2)%nat -> (i < 3)%nat ->
     rsum 2 (fun q => rsum 3 (fun j => tB X d p q i j * u q j) + rsum 3 (fun j => tC X d p q i j * o q j)) = 0) ->
  forall p i, (p < 2)%nat -> (i < 3)%nat -> u p i = 0 /\ o p i = 0.
Proof.
  intros Hd HF HT p i Hp Hi.
  assert (HE : forall q, (q < 2)%nat -> strain (unstrained q)).
  { intros q Hq. split; [reflexivity|]. unfold unstrained. ring. }
  assert (HM : mobility_law X d still still u o unstrained
    (fun p i j => rsum 2 (fun q => rsum 3 (fun k => tG X d p q i j k * u q k) + rsum 3 (fun k => tH X d p q i j k * o q k)
                                + rsum 3 (fun k => rsum 3 (fun l => tM X d p q i j k l * unstrained q k l))))).
  { split; [|split]; [| |reflexivity].
    - intros p' i' Hp' Hi'. unfold still. rewrite <- (HF p' i' Hp' Hi'). apply rsum_ext. intros q Hq.
      unfold unstrained. cbn [rsum]. ring.
    - intros p' i' Hp' Hi'. unfold still. rewrite <- (HT p' i' Hp' Hi'). apply rsum_ext. intros q Hq.
      unfold unstrained. cbn [rsum]. ring. }
  match type of HM with mobility_law _ _ _ _ _ _ _ ?S => set (S0 := S) in HM end.
  assert (K1 : forall q, stretch d (unstrained q) = 0) by (intros q; unfold stretch, along, pull, unstrained; ring).
  assert (K2 : forall q k, skew d (unstrained q) k = 0) by (intros q k; unfold skew, across, along, pull, unstrained; ring).
  assert (Z : along d (still 0%nat) = 0) by (unfold along, still; ring).
  assert (Zc : across d (still 0%nat) i = 0) by (unfold across, along, still; ring).
  assert (Zt : turned d (still 0%nat) i = 0) by (unfold turned, cross, still; idx3 Hi; cbn [v3]; ring).
  assert (A1 : along d (u p) = 0).
  { refine (apply_zero 2 _ _ (fun q => along d (u q)) p (C43_inv_swap _ _ _ Ia) _ Hp).
    intros k Hk. pose proof (U_along X d still still u o unstrained S0 Hd HE HM k Hk) as Q.
    change (still k) with (still 0%nat) in Q. rewrite Z in Q. rewrite Q. unfold mvec. apply rsum_ext.
    intros q Hq. rewrite K1, (r_XA inv x k q Hk Hq). ring. }
  assert (A2 : along d (o p) = 0).
  { refine (apply_zero 2 _ _ (fun q => along d (o q)) p (C43_inv_swap _ _ _ Ic) _ Hp).
    intros k Hk. pose proof (O_along X d still still u o unstrained S0 Hd HE HM k Hk) as Q.
    change (still k) with (still 0%nat) in Q. rewrite Z in Q. rewrite Q. unfold mvec. apply rsum_ext.
    intros q Hq. rewrite (r_XC inv x k q Hk Hq). ring. }
  assert (C : forall j, (j < 3)%nat -> forall k, (k < 4)%nat -> four (fun q => across d (u q) j) (fun q => - turned d (o q) j) k = 0).
  { intros j Hj k Hk. refine (apply_zero 4 _ _ _ k (C43_inv_swap _ _ _ Iy) _ Hk). clear k Hk.
    assert (Zc' : across d (still 0%nat) j = 0) by (unfold across, along, still; ring).
    assert (Zt' : turned d (still 0%nat) j = 0) by (unfold turned, cross, still; idx3 Hj; cbn [v3]; ring).
    assert (Q1 : forall k, (k < 2)%nat -> mvec 4 (inv (m_yabc x)) (four (fun q => across d (u q) j) (fun q => - turned d (o q) j)) k = 0).
    { intros k Hk. pose proof (U_across X d still still u o unstrained S0 Hd HE HM k j Hk Hj) as Q.
      change (still k) with (still 0%nat) in Q. rewrite Zc' in Q. cbn [rsum] in Q. rewrite !K2 in Q.
      rewrite !(r_YA inv x) in Q by lia. rewrite !(r_YB inv x) in Q by lia.
      unfold mvec, four. cbn [rsum Nat.add] in *. lra. }
    assert (Q2 : forall k, (k < 2)%nat -> mvec 4 (inv (m_yabc x)) (four (fun q => across d (u q) j) (fun q => - turned d (o q) j)) (2 + k)%nat = 0).
    { intros k Hk. pose proof (O_turned X d still still u o unstrained S0 Hd HE HM k j Hk Hj) as Q.
      change (still k) with (still 0%nat) in Q. rewrite Zt' in Q. cbn [rsum] in Q. rewrite !K2 in Q.
      rewrite !(r_YB inv x) in Q by lia. rewrite !(r_YC inv x) in Q by lia.
      rewrite (Y_sym inv x Iy 0 (2 + k)), (Y_sym inv x Iy 1 (2 + k)) in Q by lia.
      unfold mvec, four. cbn [rsum Nat.add] in *. lra. }
    intros k Hk. destruct k as [|[|[|[|k]]]]; [apply Q1|apply Q1|exact (Q2 0%nat ltac:(lia))|exact (Q2 1%nat ltac:(lia))|]; lia. }
  split.
  - rewrite (split_vec d (u p) i), A1.
    assert (Q : across d (u p) i = four (fun q => across d (u q) i) (fun q => - turned d (o q) i) p)
      by (destruct p as [|[|p]]; [reflexivity|reflexivity|lia]).
    rewrite Q, C by lia. ring.
  - rewrite (split_vec d (o p) i), A2.
    assert (T0 : same3 (turned d (o p)) (fun _ => 0)).
    { intros j Hj. assert (Q : - turned d (o p) j = four (fun q => across d (u q) j) (fun q => - turned d (o q) j) (2 + p)%nat)
        by (destruct p as [|[|p]]; [reflexivity|reflexivity|lia]).
      rewrite C in Q by lia. lra. }
    pose proof (turned_turned d Hd (o p) i Hi) as Q. rewrite (turned_same d _ _ i T0) in Q.
    assert (Q0 : turned d (fun _ => 0) i = 0) by (unfold turned, cross; idx3 Hi; cbn [v3]; ring).
    rewrite Q0 in Q. replace (across d (o p) i) with 0 by lra. ring.
Qed.

Lemma converted_back d U O F T E S :
  d 0%nat * d 0%nat + d 1%nat * d 1%nat + d 2%nat * d 2%nat = 1 ->
  (forall q, (q < 2)%nat -> strain (E q)) ->
  resistance_law X d U O F T E S -> mobility_law x d U O F T E S.
Proof.
  intros Hd HE [RF [RT RS]].
  set (U' := fun p i => rsum 2 (fun q => rsum 3 (fun j => tA x d p q i j * F q j) + rsum 3 (fun j => tB x d q p j i * T q j)
                              - rsum 3 (fun j => rsum 3 (fun k => tG x d q p j k i * E q j k)))).
  set (O' := fun p i => rsum 2 (fun q => rsum 3 (fun j => tB x d p q i j * F q j) + rsum 3 (fun j => tC x d p q i j * T q j)
                              - rsum 3 (fun j => rsum 3 (fun k => tH x d q p j k i * E q j k)))).
  set (S' := fun p i j => rsum 2 (fun q => rsum 3 (fun k => tG x d p q i j k * F q k) + rsum 3 (fun k => tH x d p q i j k * T q k)
                                + rsum 3 (fun k => rsum 3 (fun l => tM x d p q i j k l * E q k l)))).
  assert (M' : mobility_law x d U' O' F T E S') by (split; [|split]; reflexivity).
  pose proof (converted_law inv x Ha Hy Hc Ia Ic Iy d U' O' F T E S' Hd HE M') as [RF' [RT' RS']].
  assert (D : forall p i, (p < 2)%nat -> (i < 3)%nat -> U p i - U' p i = 0 /\ O p i - O' p i = 0).
  { apply (still_only d (fun p i => U p i - U' p i) (fun p i => O p i - O' p i) Hd).
    - intros p i Hp Hi. pose proof (RF p i Hp Hi) as Q. rewrite (RF' p i Hp Hi) in Q. clear - Q. clearbody U' O'.
      cbn [rsum] in *. lra.
    - intros p i Hp Hi. pose proof (RT p i Hp Hi) as Q. rewrite (RT' p i Hp Hi) in Q. clear - Q. clearbody U' O'.
      cbn [rsum] in *. lra. }
  assert (DU : forall p i, (p < 2)%nat -> (i < 3)%nat -> U p i = U' p i) by (intros p i Hp Hi; destruct (D p i Hp Hi); lra).
  assert (DO : forall p i, (p < 2)%nat -> (i < 3)%nat -> O p i = O' p i) by (intros p i Hp Hi; destruct (D p i Hp Hi); lra).
  split; [exact DU|]. split; [exact DO|].
  intros p i j Hp Hi Hj. change (S p i j = S' p i j). rewrite (RS p i j Hp Hi Hj), (RS' p i j Hp Hi Hj).
  apply rsum_ext. intros q Hq. f_equal. f_equal; apply rsum_ext; intros k Hk; f_equal; [apply DU|apply DO]; assumption.
Qed.
End Equivalent.

(** The scalars returned describe the same pair, in both directions: motions and
    moments obey the resistance problem if and only if they obey the mobility
    problem. *)
Theorem C43_equivalent inv x d U O F T E S :
  x 2%nat = x 1%nat -> x 6%nat = x 5%nat -> x 18%nat = x 17%nat ->
  is_inv 2 (m_xa x) (inv (m_xa x)) -> is_inv 2 (m_xc x) (inv (m_xc x)) -> is_inv 4 (m_yabc x) (inv (m_yabc x)) ->
  d 0%nat * d 0%nat + d 1%nat * d 1%nat + d 2%nat * d 2%nat = 1 ->
  (forall q, (q < 2)%nat -> strain (E q)) ->
  (mobility_law x d U O F T E S <->
   resistance_law (convert_dim_kim_mobility_to_dim_resistance inv x) d U O F T E S).
Proof.
  intros Ha Hy Hc Ia Ic Iy Hd HE. split.
  - exact (converted_law inv x Ha Hy Hc Ia Ic Iy d U O F T E S Hd HE).
  - exact (converted_back inv x Ha Hy Hc Ia Ic Iy d U O F T E S Hd HE).
Qed.
Print Assumptions C43_equivalent.

(** Two equal spheres that do not interact: the mobility problem is that of
    each sphere by itself (velocity force / 6 pi, rotation torque / 8 pi,
    stresslet 20/3 pi times the strain). *)
Definition each_alone (x : nat -> R) : Prop :=
  forall d U O F T E S, d 0%nat * d 0%nat + d 1%nat * d 1%nat + d 2%nat * d 2%nat = 1 ->
  (forall q, (q < 2)%nat -> strain (E q)) ->
  (mobility_law x d U O F T E S <->
   forall p i, (p < 2)%nat -> (i < 3)%nat ->
     U p i = F p i / (6 * PI) /\ O p i = T p i / (8 * PI) /\
     forall j, (j < 3)%nat -> S p i j = 20 / 3 * PI * E p i j).

(** The scalars of such a pair. *)
Definition lone_mobility : nat -> R := fun n => nth n
  [1 / (6 * PI); 0; 0; 1 / (6 * PI);  1 / (6 * PI); 0; 0; 1 / (6 * PI);  0; 0; 0; 0;
   1 / (8 * PI); 0; 0; 1 / (8 * PI);  1 / (8 * PI); 0; 0; 1 / (8 * PI);  0; 0; 0; 0;  0; 0; 0; 0;  0; 0; 0; 0;
   20 / 3 * PI; 0; 0; 20 / 3 * PI;  20 / 3 * PI; 0; 0; 20 / 3 * PI;  20 / 3 * PI; 0; 0; 20 / 3 * PI] 0.
Definition lone_unit (n : nat) : R :=
  nth n [1; 0; 0; 1;  1; 0; 0; 1;  0; 0; 0; 0;  1; 0; 0; 1;  1; 0; 0; 1;  0; 0; 0; 0;  0; 0; 0; 0;  0; 0; 0; 0;
         1; 0; 0; 1;  1; 0; 0; 1;  1; 0; 0; 1] 0.

Lemma lone_alone : each_alone lone_mobility.
Proof.
  intros d U O F T E S Hd HE. pose proof PI_RGT_0 as Hpi.
  assert (S0 : forall n q q', (q < 2)%nat -> (q' < 2)%nat -> (n < 11)%nat -> scalar lone_mobility n q q' =
     (if Nat.eqb q q' then match n with 0%nat | 1%nat => 1 / (6 * PI) | 3%nat | 4%nat => 1 / (8 * PI) | 8%nat | 9%nat | 10%nat => 20 / 3 * PI | _ => 0 end else 0)).
  { intros n q q' Hq Hq' Hn. destruct q as [|[|q]]; try lia; destruct q' as [|[|q']]; try lia;
    do 11 (destruct n as [|n]; [reflexivity|]); lia. }
  assert (HU : forall p i, (p < 2)%nat -> (i < 3)%nat ->
     rsum 2 (fun q => rsum 3 (fun j => tA lone_mobility d p q i j * F q j) + rsum 3 (fun j => tB lone_mobility d q p j i * T q j)
                              - rsum 3 (fun j => rsum 3 (fun k => tG lone_mobility d q p j k i * E q j k))) = F p i / (6 * PI)).
  { intros p i Hp Hi.
    erewrite rsum_ext; [|intros q Hq; rewrite actA, actBt, actGt by (try apply HE; assumption); rewrite !S0 by lia; reflexivity].
    destruct p as [|[|p]]; try lia; cbn [rsum Nat.eqb]; unfold across; field; lra. }
  assert (HO : forall p i, (p < 2)%nat -> (i < 3)%nat ->
     rsum 2 (fun q => rsum 3 (fun j => tB lone_mobility d p q i j * F q j) + rsum 3 (fun j => tC lone_mobility d p q i j * T q j)
                              - rsum 3 (fun j => rsum 3 (fun k => tH lone_mobility d q p j k i * E q j k))) = T p i / (8 * PI)).
  { intros p i Hp Hi.
    erewrite rsum_ext; [|intros q Hq; rewrite actB, actC, actHt by (try apply HE; assumption); rewrite !S0 by lia; reflexivity].
    destruct p as [|[|p]]; try lia; cbn [rsum Nat.eqb]; unfold across; field; lra. }
  assert (HZ : forall e i j, strain e -> (i < 3)%nat -> (j < 3)%nat ->
    (d i * d j - delta i j / 3) * (3 / 2 * stretch d e) + (d i * skew d e j + d j * skew d e i) + zpart d e i j = e i j).
  { intros e i j He Hi Hj. destruct (strain_eqs e He) as [E1 [E2 [E3 E4]]].
    unfold zpart, skew, stretch, across, along, pull.
    idx3 Hi; idx3 Hj; unfold delta; cbn [rsum Nat.eqb]; rewrite E1, E2, E3, E4; field. }
  assert (HS : forall p i j, (p < 2)%nat -> (i < 3)%nat -> (j < 3)%nat ->
     rsum 2 (fun q => rsum 3 (fun k => tG lone_mobility d p q i j k * F q k) + rsum 3 (fun k => tH lone_mobility d p q i j k * T q k)
                                + rsum 3 (fun k => rsum 3 (fun l => tM lone_mobility d p q i j k l * E q k l))) = 20 / 3 * PI * E p i j).
  { intros p i j Hp Hi Hj.
    erewrite rsum_ext; [|intros q Hq; rewrite actG, actH, actM by (try apply HE; assumption); rewrite !S0 by lia; reflexivity].
    rewrite <- (HZ (E p) i j (HE p Hp) Hi Hj).
    destruct p as [|[|p]]; try lia; cbn [rsum Nat.eqb]; field. }
  split.
  - intros [MU [MO MS]] p i Hp Hi. split; [rewrite MU, HU by assumption; reflexivity|].
    split; [rewrite MO, HO by assumption; reflexivity|].
    intros j Hj. rewrite MS, HS by assumption. reflexivity.
  - intros H. split; [|split].
    + intros p i Hp Hi. rewrite HU by assumption. apply H; assumption.
    + intros p i Hp Hi. rewrite HO by assumption. apply H; assumption.
    + intros p i j Hp Hi Hj. rewrite HS by assumption. apply H; assumption.
Qed.

Lemma inv2_diag (B A : mat) a : a <> 0 -> is_inv 2 (of_rows [[a; 0]; [0; a]]) B ->
  B 0%nat 0%nat = / a /\ B 0%nat 1%nat = 0 /\ B 1%nat 0%nat = 0 /\ B 1%nat 1%nat = / a.
Proof.
  intros Ha H.
  pose proof (proj1 (H 0%nat 0%nat ltac:(lia) ltac:(lia))) as E00. pose proof (proj1 (H 0%nat 1%nat ltac:(lia) ltac:(lia))) as E01.
  pose proof (proj1 (H 1%nat 0%nat ltac:(lia) ltac:(lia))) as E10. pose proof (proj1 (H 1%nat 1%nat ltac:(lia) ltac:(lia))) as E11.
  unfold mmul, of_rows, delta in E00, E01, E10, E11. cbn [rsum nth Nat.eqb] in E00, E01, E10, E11.
  repeat split; apply (Rmult_eq_reg_l a); try exact Ha; try (rewrite Rinv_r by exact Ha); lra.
Qed.
Lemma inv4_diag (B : mat) a b : a <> 0 -> b <> 0 -> is_inv 4 (of_rows [[a; 0; 0; 0]; [0; a; 0; 0]; [0; 0; b; 0]; [0; 0; 0; b]]) B ->
  forall i j, (i < 4)%nat -> (j < 4)%nat -> B i j = if Nat.eqb i j then (if Nat.ltb i 2 then / a else / b) else 0.
Proof.
  intros Ha Hb H i j Hi Hj. pose proof (proj1 (H i j Hi Hj)) as Q. unfold mmul, of_rows, delta in Q.
  do 4 (destruct i as [|i]; [do 4 (destruct j as [|j]; [cbn [rsum nth Nat.eqb Nat.ltb Nat.leb] in Q |- *;
    first [apply (Rmult_eq_reg_l a); [|exact Ha]; try (rewrite Rinv_r by exact Ha); lra
          |apply (Rmult_eq_reg_l b); [|exact Hb]; try (rewrite Rinv_r by exact Hb); lra]|]); lia|]); lia.
Qed.

(** The conversion and both lists of scales on a pair that does not interact:
    the mobility scalars become 1 (each sphere itself) and 0 (the couplings),
    and so do the resistance scalars computed from them, whatever routine
    inverts the matrices. *)
Theorem C43_alone inv :
  is_inv 2 (m_xa lone_mobility) (inv (m_xa lone_mobility)) -> is_inv 2 (m_xc lone_mobility) (inv (m_xc lone_mobility)) ->
  is_inv 4 (m_yabc lone_mobility) (inv (m_yabc lone_mobility)) ->
  each_alone lone_mobility /\
  forall n, (n < 44)%nat ->
    nondimensionalise_scalars lone_mobility mobility_scales n = lone_unit n /\
    nondimensionalise_scalars (convert_dim_kim_mobility_to_dim_resistance inv lone_mobility) resistance_scales n = lone_unit n.
Proof.
  intros Ia Ic Iy. split; [exact lone_alone|]. pose proof PI_RGT_0 as Hpi.
  assert (P6 : 1 / (6 * PI) <> 0) by (apply Rgt_not_eq; apply Rdiv_lt_0_compat; lra).
  assert (P8 : 1 / (8 * PI) <> 0) by (apply Rgt_not_eq; apply Rdiv_lt_0_compat; lra).
  destruct (inv2_diag _ (fun _ _ => 0) _ P6 Ia) as [A00 [A01 [A10 A11]]].
  destruct (inv2_diag _ (fun _ _ => 0) _ P8 Ic) as [C00 [C01 [C10 C11]]].
  pose proof (inv4_diag _ _ _ P6 P8 Iy) as Y.
  intros n Hn. split.
  - do 44 (destruct n as [|n]; [unfold nondimensionalise_scalars, mobility_scales, lone_mobility, lone_unit; cbn [Nat.ltb Nat.leb nth]; field; lra|]). lia.
  - set (X := convert_dim_kim_mobility_to_dim_resistance inv lone_mobility).
    assert (HX : X n = lone_unit n * nth (if Nat.ltb n 8 then 0 else if Nat.ltb n 12 then 1 else if Nat.ltb n 20 then 2
                            else if Nat.ltb n 28 then 3 else if Nat.ltb n 32 then 4 else 5)%nat resistance_scales 0).
    { assert (Hn' : exists m p q, n = (4 * m + 2 * p + q)%nat /\ (m < 11)%nat /\ (p < 2)%nat /\ (q < 2)%nat).
      { exists (n / 4)%nat, ((n mod 4) / 2)%nat, ((n mod 4) mod 2)%nat.
        pose proof (Nat.div_mod n 4 ltac:(lia)). pose proof (Nat.div_mod (n mod 4) 2 ltac:(lia)).
        pose proof (Nat.mod_upper_bound n 4 ltac:(lia)). pose proof (Nat.mod_upper_bound (n mod 4) 2 ltac:(lia)).
        split; [lia|]. split; [lia|]. split; lia. }
      destruct Hn' as [m [p [q [-> [Hm [Hp Hq]]]]]]. change (X (4 * m + 2 * p + q)%nat) with (scalar X m p q). unfold X.
      assert (Hcase : (m = 0 \/ m = 1 \/ m = 2 \/ m = 3 \/ m = 4 \/ m = 5 \/ m = 6 \/ m = 7 \/ m = 8 \/ m = 9 \/ m = 10)%nat) by lia.
      repeat (destruct Hcase as [-> | Hcase]); try subst m.
      all: rewrite ?r_XM, ?r_YM, ?r_ZM by assumption; cbn [rsum]; rewrite ?r_XG, ?r_YG, ?r_YH by lia; cbn [rsum];
        rewrite ?r_XA, ?r_XC, ?r_YA, ?r_YB, ?r_YC by lia; rewrite ?Y by lia.
      all: destruct p as [|[|p]]; [| |lia]; (destruct q as [|[|q]]; [| |lia]).
      all: rewrite ?A00, ?A01, ?A10, ?A11, ?C00, ?C01, ?C10, ?C11;
        unfold scalar, ygh, scalar, lone_mobility, lone_unit, resistance_scales; cbn [Nat.mul Nat.add Nat.eqb Nat.ltb Nat.leb nth].
      all: try (field; lra). }
    unfold nondimensionalise_scalars. rewrite HX.
    do 44 (destruct n as [|n]; [unfold resistance_scales, lone_unit; cbn [Nat.ltb Nat.leb nth]; field; lra|]). lia.
Qed.
Print Assumptions C43_alone.

(** Such matrices have inverses. *)
Definition C43_lone_inv (A : mat) : mat :=
  of_rows [[/ A 0%nat 0%nat; 0; 0; 0]; [0; / A 1%nat 1%nat; 0; 0]; [0; 0; / A 2%nat 2%nat; 0]; [0; 0; 0; / A 3%nat 3%nat]].
Example C43_alone_example :
  is_inv 2 (m_xa lone_mobility) (C43_lone_inv (m_xa lone_mobility)) /\ is_inv 2 (m_xc lone_mobility) (C43_lone_inv (m_xc lone_mobility)) /\
  is_inv 4 (m_yabc lone_mobility) (C43_lone_inv (m_yabc lone_mobility)).
Proof.
  pose proof PI_RGT_0 as Hpi. split; [|split].
  - intros i j Hi Hj. destruct i as [|[|i]]; try lia; destruct j as [|[|j]]; try lia;
      split; unfold mmul, C43_lone_inv, m_xa, of_rows, delta, lone_mobility; cbn [rsum nth Nat.eqb]; field; lra.
  - intros i j Hi Hj. destruct i as [|[|i]]; try lia; destruct j as [|[|j]]; try lia;
      split; unfold mmul, C43_lone_inv, m_xc, of_rows, delta, lone_mobility; cbn [rsum nth Nat.eqb]; field; lra.
  - intros i j Hi Hj. do 4 (destruct i as [|i]; [do 4 (destruct j as [|j]; [
      split; unfold mmul, C43_lone_inv, m_yabc, of_rows, delta, lone_mobility; cbn [rsum nth Nat.eqb]; field; lra|]); lia|]); lia.
Qed.

(** The two tables written, of mobility and of resistance scalars each divided
    by its scales, fit together: only pure numbers occur in the relations
    between them. *)
Section Tables.
Variables (inv : mat -> mat) (x : nat -> R).
Notation X := (convert_dim_kim_mobility_to_dim_resistance inv x).

Definition scale_of (l : list R) (n : nat) : R :=
  nth (match n with 0 | 1 => 0 | 2 => 1 | 3 | 4 => 2 | 5 | 6 => 3 | 7 => 4 | _ => 5 end)%nat l 0.
Lemma nd_scalar (y : nat -> R) l n p q : (n < 11)%nat -> (p < 2)%nat -> (q < 2)%nat ->
  scalar (nondimensionalise_scalars y l) n p q = scalar y n p q / scale_of l n.
Proof.
  intros Hn Hp Hq. destruct p as [|[|p]]; [| |lia]; (destruct q as [|[|q]]; [| |lia]);
    do 11 (destruct n as [|n]; [reflexivity|]); lia.
Qed.
End Tables.

Theorem C43_tables inv x :
  x 2%nat = x 1%nat -> x 6%nat = x 5%nat -> x 18%nat = x 17%nat ->
  is_inv 2 (m_xa x) (inv (m_xa x)) -> is_inv 2 (m_xc x) (inv (m_xc x)) -> is_inv 4 (m_yabc x) (inv (m_yabc x)) ->
  let m := scalar (nondimensionalise_scalars x mobility_scales) in
  let r := scalar (nondimensionalise_scalars (convert_dim_kim_mobility_to_dim_resistance inv x) resistance_scales) in
  forall p q, (p < 2)%nat -> (q < 2)%nat ->
  rsum 2 (fun k => r 0%nat p k * m 0%nat k q) = delta p q /\
  rsum 2 (fun k => r 3%nat p k * m 3%nat k q) = delta p q /\
  rsum 2 (fun k => r 1%nat p k * m 1%nat k q + r 2%nat k p * m 2%nat k q) = delta p q /\
  rsum 2 (fun k => 3 * r 1%nat p k * m 2%nat q k + r 2%nat k p * m 4%nat k q) = 0 /\
  rsum 2 (fun k => r 2%nat p k * m 2%nat q k + r 4%nat p k * m 4%nat k q) = delta p q /\
  r 5%nat p q = 3 * rsum 2 (fun k => m 5%nat p k * r 0%nat k q) /\
  r 6%nat p q = rsum 2 (fun k => 3 * r 1%nat q k * m 6%nat p k - r 2%nat k q * m 7%nat p k) /\
  r 7%nat p q = rsum 2 (fun k => r 4%nat q k * m 7%nat p k - r 2%nat q k * m 6%nat p k) /\
  r 8%nat p q = m 8%nat p q + 4 / 5 * rsum 2 (fun k => r 5%nat p k * m 5%nat q k) /\
  r 9%nat p q = m 9%nat p q + 12 / 5 * rsum 2 (fun k => r 6%nat p k * m 6%nat q k + r 7%nat p k * m 7%nat q k) /\
  r 10%nat p q = m 10%nat p q.
Proof.
  intros Ha Hy Hc Ia Ic Iy m r p q Hp Hq. pose proof PI_RGT_0 as Hpi.
  assert (EY : forall i j, (i < 4)%nat -> (j < 4)%nat -> rsum 4 (fun k => inv (m_yabc x) i k * m_yabc x k j) = delta i j)
    by (intros i j Hi Hj; exact (proj2 (Iy i j Hi Hj))).
  assert (EA : rsum 2 (fun k => inv (m_xa x) p k * m_xa x k q) = delta p q) by exact (proj2 (Ia p q Hp Hq)).
  assert (EC : rsum 2 (fun k => inv (m_xc x) p k * m_xc x k q) = delta p q) by exact (proj2 (Ic p q Hp Hq)).
  assert (MA : forall k, (k < 2)%nat -> m_xa x k q = scalar x 0 k q)
    by (intros k Hk; destruct k as [|[|k]]; [| |lia]; (destruct q as [|[|q]]; [reflexivity|reflexivity|lia])).
  assert (MC : forall k, (k < 2)%nat -> m_xc x k q = scalar x 3 k q)
    by (intros k Hk; destruct k as [|[|k]]; [| |lia]; (destruct q as [|[|q]]; [reflexivity|reflexivity|lia])).
  assert (MY : forall k, (k < 2)%nat -> m_yabc x k q = scalar x 1 k q /\ m_yabc x (2 + k)%nat q = scalar x 2 k q /\
     m_yabc x k (2 + q)%nat = scalar x 2 q k /\ m_yabc x (2 + k)%nat (2 + q)%nat = scalar x 4 k q).
  { intros k Hk. destruct k as [|[|k]]; [| |lia]; (destruct q as [|[|q]]; [| |lia]); repeat split;
      unfold m_yabc, of_rows, scalar; cbn [nth Nat.add Nat.mul]; congruence. }
  pose proof (EY p q ltac:(lia) ltac:(lia)) as E1. pose proof (EY p (2 + q)%nat ltac:(lia) ltac:(lia)) as E2.
  pose proof (EY (2 + p)%nat (2 + q)%nat ltac:(lia) ltac:(lia)) as E3.
  destruct (MY 0%nat ltac:(lia)) as [Y00 [Y01 [Y02 Y03]]]. destruct (MY 1%nat ltac:(lia)) as [Y10 [Y11 [Y12 Y13]]].
  cbn [rsum Nat.add] in E1, E2, E3, EA, EC, Y00, Y01, Y02, Y03, Y10, Y11, Y12, Y13.
  rewrite Y00, Y01, Y10, Y11 in E1. rewrite Y02, Y03, Y12, Y13 in E2, E3.
  rewrite !MA in EA by lia. rewrite !MC in EC by lia.
  assert (D2 : delta p (S (S q)) = 0) by (unfold delta; destruct (Nat.eqb_spec p (S (S q))); [lia|reflexivity]).
  assert (D3 : delta (S (S p)) (S (S q)) = delta p q) by reflexivity.
  rewrite D2 in E2. rewrite D3 in E3. clear D2 D3.
  assert (SY : forall i j, (i < 4)%nat -> (j < 4)%nat -> inv (m_yabc x) i j = inv (m_yabc x) j i) by exact (Y_sym inv x Iy).
  rewrite (SY (S (S p)) 0%nat), (SY (S (S p)) 1%nat) in E3 by lia.
  unfold m, r. cbn [rsum]. rewrite !nd_scalar by lia. unfold scale_of, mobility_scales, resistance_scales. cbn [nth].
  rewrite !r_XM, !r_YM, !r_ZM by lia. cbn [rsum]. rewrite !r_XG, !r_YG, !r_YH by lia. cbn [rsum].
  rewrite !r_XA, !r_XC, !r_YA, !r_YB, !r_YC by lia. unfold ygh. cbn [Nat.add].
  rewrite (SY (S (S q)) 0%nat), (SY (S (S q)) 1%nat) by lia.
  repeat match goal with |- _ /\ _ => split end.
  - rewrite <- EA. field. lra.
  - rewrite <- EC. field. lra.
  - rewrite <- E1. field. lra.
  - transitivity (2 * (0 + inv (m_yabc x) p 0%nat * scalar x 2 q 0 + inv (m_yabc x) p 1%nat * scalar x 2 q 1
       + inv (m_yabc x) p 2%nat * scalar x 4 0 q + inv (m_yabc x) p 3%nat * scalar x 4 1 q)); [field; lra|].
    rewrite E2. ring.
  - rewrite <- E3. field. lra.
  - field. lra.
  - field. lra.
  - field. lra.
  - field. lra.
  - field. lra.
  - field. lra.
Qed.
Print Assumptions C43_tables.
