(** Conversion of mobility to resistance scalars. *)
From Coq Require Import Reals List Arith Bool Lia Lra.
From Verif Require Import Base Model_Mob Model_Scalars Spec_Scalars.
Import ListNotations.
Local Open Scope R_scope.

(** ** Parts of vectors and tensors along and across the axis *)
Definition along (d v : vec) : R := d 0%nat * v 0%nat + d 1%nat * v 1%nat + d 2%nat * v 2%nat.
Definition across (d v : vec) : vec := fun i => v i - d i * along d v.
Definition turned (d v : vec) : vec := cross v d.
Definition pull (d : vec) (E : mat) : vec := fun i => E i 0%nat * d 0%nat + E i 1%nat * d 1%nat + E i 2%nat * d 2%nat.
Definition stretch (d : vec) (E : mat) : R := along d (pull d E).
Definition skew (d : vec) (E : mat) : vec := across d (pull d E).
Definition zpart (d : vec) (E : mat) (i j : nat) : R :=
  rsum 3 (fun k => rsum 3 (fun l => 1 / 2 * ((delta i k - d i * d k) * (delta j l - d j * d l) + (delta j k - d j * d k) * (delta i l - d i * d l)
     - (delta i j - d i * d j) * (delta k l - d k * d l)) * E k l)).

Lemma strain_eqs E : strain E -> E 1%nat 0%nat = E 0%nat 1%nat /\ E 2%nat 0%nat = E 0%nat 2%nat /\ E 2%nat 1%nat = E 1%nat 2%nat
  /\ E 2%nat 2%nat = - E 0%nat 0%nat - E 1%nat 1%nat.
Proof. intros [H T]. repeat split; try (apply H; lia). lra. Qed.

Ltac levis := cbn [rsum levi delta Nat.eqb orb andb].

Section Layer1.
Variables (x : nat -> R) (d : vec).
Notation s := (scalar x).

Lemma actA p q v i : (i < 3)%nat ->
  rsum 3 (fun j => tA x d p q i j * v j) = d i * (s 0 p q * along d v) + s 1 p q * across d v i.
Proof. intros Hi. unfold tA, across, along. idx3 Hi; unfold delta; levis; ring. Qed.
Lemma actC p q v i : (i < 3)%nat ->
  rsum 3 (fun j => tC x d p q i j * v j) = d i * (s 3 p q * along d v) + s 4 p q * across d v i.
Proof. intros Hi. unfold tC, across, along. idx3 Hi; unfold delta; levis; ring. Qed.
Lemma actB p q v i : (i < 3)%nat -> rsum 3 (fun j => tB x d p q i j * v j) = s 2 p q * turned d v i.
Proof. intros Hi. unfold tB, turned, cross. idx3 Hi; unfold levi; levis; cbn [v3]; ring. Qed.
Lemma actBt p q v i : (i < 3)%nat -> rsum 3 (fun j => tB x d q p j i * v j) = - (s 2 q p * turned d v i).
Proof. intros Hi. unfold tB, turned, cross. idx3 Hi; unfold levi; levis; cbn [v3]; ring. Qed.
Lemma actG p q v i j : (i < 3)%nat -> (j < 3)%nat ->
  rsum 3 (fun k => tG x d p q i j k * v k)
  = (d i * d j - delta i j / 3) * (s 5 p q * along d v) + s 6 p q * (d i * across d v j + d j * across d v i).
Proof. intros Hi Hj. unfold tG, across, along. idx3 Hi; idx3 Hj; unfold delta; levis; ring. Qed.
Lemma actH p q v i j : (i < 3)%nat -> (j < 3)%nat ->
  rsum 3 (fun k => tH x d p q i j k * v k) = s 7 p q * (d i * turned d v j + d j * turned d v i).
Proof. intros Hi Hj. unfold tH, turned, cross. idx3 Hi; idx3 Hj; unfold levi; levis; cbn [v3]; ring. Qed.
Lemma actGt p q E i : strain E -> (i < 3)%nat ->
  rsum 3 (fun j => rsum 3 (fun k => tG x d q p j k i * E j k)) = d i * (s 5 q p * stretch d E) + 2 * s 6 q p * skew d E i.
Proof.
  intros HE Hi. destruct (strain_eqs E HE) as [E1 [E2 [E3 E4]]]. unfold tG, skew, stretch, across, along, pull.
  idx3 Hi; unfold delta; levis; rewrite E1, E2, E3, E4; field.
Qed.
Lemma actHt p q E i : strain E -> (i < 3)%nat ->
  rsum 3 (fun j => rsum 3 (fun k => tH x d q p j k i * E j k)) = - (2 * s 7 q p * turned d (pull d E) i).
Proof.
  intros HE Hi. destruct (strain_eqs E HE) as [E1 [E2 [E3 E4]]]. unfold tH, turned, cross, pull.
  idx3 Hi; unfold levi; levis; cbn [v3]; rewrite E1, E2, E3, E4; ring.
Qed.
Lemma actM p q E i j : strain E -> (i < 3)%nat -> (j < 3)%nat ->
  rsum 3 (fun k => rsum 3 (fun l => tM x d p q i j k l * E k l))
  = (d i * d j - delta i j / 3) * (3 / 2 * (s 8 p q * stretch d E)) + s 9 p q * (d i * skew d E j + d j * skew d E i)
    + s 10 p q * zpart d E i j.
Proof.
  intros HE Hi Hj. destruct (strain_eqs E HE) as [E1 [E2 [E3 E4]]]. unfold tM, zpart, skew, stretch, across, along, pull.
  idx3 Hi; idx3 Hj; unfold delta; levis; rewrite E1, E2, E3, E4; field.
Qed.
End Layer1.

(** ** Algebra of the parts *)
Section Layer2.
Variable d : vec.
Hypothesis Hd : d 0%nat * d 0%nat + d 1%nat * d 1%nat + d 2%nat * d 2%nat = 1.

Lemma Hd2 : d 2%nat * d 2%nat = 1 - d 0%nat * d 0%nat - d 1%nat * d 1%nat.
Proof. lra. Qed.

Definition same3 (v w : vec) : Prop := forall i, (i < 3)%nat -> v i = w i.

Lemma along_same v w : same3 v w -> along d v = along d w.
Proof. intros H. unfold along. rewrite !H by lia. reflexivity. Qed.
Lemma turned_same v w i : same3 v w -> turned d v i = turned d w i.
Proof. intros H. unfold turned, cross. rewrite !H by lia. reflexivity. Qed.
Lemma along_turned v : along d (turned d v) = 0.
Proof. unfold along, turned, cross. cbn [v3]. ring. Qed.
Lemma along_across v : along d (across d v) = 0.
Proof.
  unfold across. set (a := along d v). unfold along at 1.
  transitivity (along d v - a * (d 0%nat * d 0%nat + d 1%nat * d 1%nat + d 2%nat * d 2%nat)); [unfold along; ring|].
  rewrite Hd. unfold a. ring.
Qed.
Lemma turned_turned v i : (i < 3)%nat -> turned d (turned d v) i = - across d v i.
Proof.
  intros Hi. transitivity (d i * along d v - (d 0%nat * d 0%nat + d 1%nat * d 1%nat + d 2%nat * d 2%nat) * v i).
  - unfold turned, cross, along. idx3 Hi; cbn [v3]; ring.
  - rewrite Hd. unfold across. ring.
Qed.
Lemma turned_across v i : (i < 3)%nat -> turned d (across d v) i = turned d v i.
Proof. intros Hi. unfold turned, across, cross. idx3 Hi; cbn [v3]; ring. Qed.

(** a vector given by its part along [d] and a part across *)
Lemma parts_along a y v : along d y = 0 -> same3 v (fun i => d i * a + y i) -> along d v = a.
Proof.
  intros Hy H. rewrite (along_same _ _ H). unfold along in *.
  transitivity (a * (d 0%nat * d 0%nat + d 1%nat * d 1%nat + d 2%nat * d 2%nat) + (d 0%nat * y 0%nat + d 1%nat * y 1%nat + d 2%nat * y 2%nat)); [ring|].
  rewrite Hd, Hy. ring.
Qed.
Lemma parts_across a y v i : along d y = 0 -> same3 v (fun i => d i * a + y i) -> (i < 3)%nat -> across d v i = y i.
Proof. intros Hy H Hi. unfold across. rewrite (parts_along a y v Hy H), (H i Hi). ring. Qed.
Lemma parts_turned a y v i : same3 v (fun i => d i * a + y i) -> (i < 3)%nat -> turned d v i = turned d y i.
Proof. intros H Hi. rewrite (turned_same _ _ i H). unfold turned, cross. idx3 Hi; cbn [v3]; ring. Qed.

Lemma along_comb6 (c : nat -> R) (v : nat -> vec) n :
  along d (fun i => rsum n (fun k => c k * v k i)) = rsum n (fun k => c k * along d (v k)).
Proof. induction n; cbn [rsum]; [unfold along; ring|]. rewrite <- IHn. unfold along. ring. Qed.
Lemma turned_comb (c : nat -> R) (v : nat -> vec) n i : (i < 3)%nat ->
  turned d (fun i => rsum n (fun k => c k * v k i)) i = rsum n (fun k => c k * turned d (v k) i).
Proof.
  intros Hi. induction n; cbn [rsum].
  - unfold turned, cross. idx3 Hi; cbn [v3]; ring.
  - rewrite <- IHn. unfold turned, cross. idx3 Hi; cbn [v3]; ring.
Qed.
End Layer2.

(** ** Inverses *)
Lemma inv_apply n A B w i : is_inv n A B -> (i < n)%nat -> mvec n B (mvec n A w) i = w i.
Proof.
  intros H Hi. unfold mvec.
  transitivity (rsum n (fun k => rsum n (fun l => B i l * A l k) * w k)).
  - erewrite rsum_ext; [|intros l Hl; rewrite <- rsum_scal_l; reflexivity].
    rewrite rsum_swap. apply rsum_ext. intros k Hk. rewrite <- rsum_scal_r. apply rsum_ext. intros l Hl. ring.
  - erewrite rsum_ext; [|intros k Hk; destruct (H i k Hi Hk) as [_ H2]; unfold mmul in H2; rewrite H2; reflexivity].
    apply rsum_delta_l; exact Hi.
Qed.

(** ** The converted scalars describe the same pair *)
Lemma along_lin3 d (a b c : nat -> R) (u v w : nat -> vec) :
  along d (fun i => rsum 2 (fun q => a q * u q i + b q * v q i + c q * w q i))
  = rsum 2 (fun q => a q * along d (u q) + b q * along d (v q) + c q * along d (w q)).
Proof. unfold along. cbn [rsum]. ring. Qed.
Lemma turned_lin3 d (a b c : nat -> R) (u v w : nat -> vec) i : (i < 3)%nat ->
  turned d (fun i => rsum 2 (fun q => a q * u q i + b q * v q i + c q * w q i)) i
  = rsum 2 (fun q => a q * turned d (u q) i + b q * turned d (v q) i + c q * turned d (w q) i).
Proof. intros Hi. unfold turned, cross. cbn [rsum]. idx3 Hi; cbn [v3]; ring. Qed.
Lemma lc1 A B C D : C = D -> A - B = C - D -> A = B.
Proof. intros. lra. Qed.
Lemma split_vec d v i : v i = d i * along d v + across d v i.
Proof. unfold across. ring. Qed.

Section Laws.
Variables (x : nat -> R) (d : vec) (U O F T : nat -> vec) (E S : nat -> mat).
Hypothesis Hd : d 0%nat * d 0%nat + d 1%nat * d 1%nat + d 2%nat * d 2%nat = 1.
Hypothesis HE : forall q, (q < 2)%nat -> strain (E q).
Hypothesis HM : mobility_law x d U O F T E S.
Notation s := (scalar x).

Lemma U_parts p : (p < 2)%nat -> same3 (U p) (fun i => d i * rsum 2 (fun q => s 0 p q * along d (F q) - s 5 q p * stretch d (E q))
   + rsum 2 (fun q => s 1 p q * across d (F q) i + (- s 2 q p) * turned d (T q) i + (- 2 * s 6 q p) * skew d (E q) i)).
Proof.
  intros Hp i Hi. destruct HM as [H _]. rewrite (H p i Hp Hi).
  erewrite rsum_ext; [|intros q Hq; rewrite actA, actBt, actGt by (try apply HE; assumption); reflexivity].
  cbn [rsum]. ring.
Qed.
Lemma O_parts p : (p < 2)%nat -> same3 (O p) (fun i => d i * rsum 2 (fun q => s 3 p q * along d (T q))
   + rsum 2 (fun q => s 2 p q * turned d (F q) i + s 4 p q * across d (T q) i + (2 * s 7 q p) * turned d (pull d (E q)) i)).
Proof.
  intros Hp i Hi. destruct HM as [_ [H _]]. rewrite (H p i Hp Hi).
  erewrite rsum_ext; [|intros q Hq; rewrite actB, actC, actHt by (try apply HE; assumption); reflexivity].
  cbn [rsum]. ring.
Qed.
Lemma U_zero p : along d (fun i => rsum 2 (fun q => s 1 p q * across d (F q) i + (- s 2 q p) * turned d (T q) i + (- 2 * s 6 q p) * skew d (E q) i)) = 0.
Proof.
  rewrite along_lin3. unfold skew. apply rsum_zero. intros q Hq.
  rewrite (along_across d Hd), along_turned, (along_across d Hd). ring.
Qed.
Lemma O_zero p : along d (fun i => rsum 2 (fun q => s 2 p q * turned d (F q) i + s 4 p q * across d (T q) i + (2 * s 7 q p) * turned d (pull d (E q)) i)) = 0.
Proof.
  rewrite along_lin3. apply rsum_zero. intros q Hq.
  rewrite (along_across d Hd), !along_turned. ring.
Qed.

Lemma U_along p : (p < 2)%nat -> along d (U p) = rsum 2 (fun q => s 0 p q * along d (F q) - s 5 q p * stretch d (E q)).
Proof. intros Hp. exact (parts_along d Hd _ _ _ (U_zero p) (U_parts p Hp)). Qed.
Lemma U_across p i : (p < 2)%nat -> (i < 3)%nat -> across d (U p) i
  = rsum 2 (fun q => s 1 p q * across d (F q) i + (- s 2 q p) * turned d (T q) i + (- 2 * s 6 q p) * skew d (E q) i).
Proof. intros Hp Hi. exact (parts_across d Hd _ _ _ i (U_zero p) (U_parts p Hp) Hi). Qed.
Lemma U_turned p i : (p < 2)%nat -> (i < 3)%nat -> turned d (U p) i
  = rsum 2 (fun q => s 1 p q * turned d (F q) i + s 2 q p * across d (T q) i + (- 2 * s 6 q p) * turned d (pull d (E q)) i).
Proof.
  intros Hp Hi. rewrite (parts_turned d _ _ _ i (U_parts p Hp) Hi), turned_lin3 by exact Hi.
  apply rsum_ext. intros q Hq. unfold skew. rewrite (turned_turned d Hd), !turned_across by exact Hi. ring.
Qed.
Lemma O_along p : (p < 2)%nat -> along d (O p) = rsum 2 (fun q => s 3 p q * along d (T q)).
Proof. intros Hp. exact (parts_along d Hd _ _ _ (O_zero p) (O_parts p Hp)). Qed.
Lemma O_across p i : (p < 2)%nat -> (i < 3)%nat -> across d (O p) i
  = rsum 2 (fun q => s 2 p q * turned d (F q) i + s 4 p q * across d (T q) i + (2 * s 7 q p) * turned d (pull d (E q)) i).
Proof. intros Hp Hi. exact (parts_across d Hd _ _ _ i (O_zero p) (O_parts p Hp) Hi). Qed.
Lemma O_turned p i : (p < 2)%nat -> (i < 3)%nat -> turned d (O p) i
  = rsum 2 (fun q => (- s 2 p q) * across d (F q) i + s 4 p q * turned d (T q) i + (- 2 * s 7 q p) * skew d (E q) i).
Proof.
  intros Hp Hi. rewrite (parts_turned d _ _ _ i (O_parts p Hp) Hi), turned_lin3 by exact Hi.
  apply rsum_ext. intros q Hq. unfold skew. rewrite !(turned_turned d Hd), turned_across by exact Hi. ring.
Qed.
End Laws.

Definition m_xa (x : nat -> R) : mat := of_rows [[x 0%nat; x 1%nat]; [x 2%nat; x 3%nat]].
Definition m_xc (x : nat -> R) : mat := of_rows [[x 12%nat; x 13%nat]; [x 14%nat; x 15%nat]].
Definition m_yabc (x : nat -> R) : mat :=
  of_rows [[x 4%nat; x 5%nat; x 8%nat; x 10%nat]; [x 5%nat; x 7%nat; x 9%nat; x 11%nat];
           [x 8%nat; x 9%nat; x 16%nat; x 17%nat]; [x 10%nat; x 11%nat; x 17%nat; x 19%nat]].

Lemma m_xa_sym x : x 2%nat = x 1%nat -> msym 2 (m_xa x).
Proof. intros H i j Hi Hj. destruct i as [|[|]]; destruct j as [|[|]]; try lia; cbn; congruence. Qed.
Lemma m_yabc_sym x : msym 4 (m_yabc x).
Proof. intros i j Hi Hj. do 4 (destruct i as [|i]; [do 4 (destruct j as [|j]; [reflexivity|]); lia|]). lia. Qed.

Section Convert.
Variables (inv : mat -> mat) (x : nat -> R).
Hypothesis Ha : x 2%nat = x 1%nat.
Hypothesis Hy : x 6%nat = x 5%nat.
Hypothesis Hc : x 18%nat = x 17%nat.
Hypothesis Ia : is_inv 2 (m_xa x) (inv (m_xa x)).
Hypothesis Ic : is_inv 2 (m_xc x) (inv (m_xc x)).
Hypothesis Iy : is_inv 4 (m_yabc x) (inv (m_yabc x)).
Notation X := (convert_dim_kim_mobility_to_dim_resistance inv x).

Lemma solve_xa w p : (p < 2)%nat ->
  inv (m_xa x) p 0%nat * (x 0%nat * w 0%nat + x 1%nat * w 1%nat) + inv (m_xa x) p 1%nat * (x 2%nat * w 0%nat + x 3%nat * w 1%nat) = w p.
Proof. intros Hp. rewrite <- (inv_apply 2 _ _ w p Ia Hp). generalize (inv (m_xa x)); intros B. unfold mvec, m_xa, of_rows. cbn [rsum nth]. ring. Qed.
Lemma solve_xc w p : (p < 2)%nat ->
  inv (m_xc x) p 0%nat * (x 12%nat * w 0%nat + x 13%nat * w 1%nat) + inv (m_xc x) p 1%nat * (x 14%nat * w 0%nat + x 15%nat * w 1%nat) = w p.
Proof. intros Hp. rewrite <- (inv_apply 2 _ _ w p Ic Hp). generalize (inv (m_xc x)); intros B. unfold mvec, m_xc, of_rows. cbn [rsum nth]. ring. Qed.
Lemma solve_y w p : (p < 4)%nat ->
  inv (m_yabc x) p 0%nat * (x 4%nat * w 0%nat + x 5%nat * w 1%nat + x 8%nat * w 2%nat + x 10%nat * w 3%nat)
  + inv (m_yabc x) p 1%nat * (x 5%nat * w 0%nat + x 7%nat * w 1%nat + x 9%nat * w 2%nat + x 11%nat * w 3%nat)
  + inv (m_yabc x) p 2%nat * (x 8%nat * w 0%nat + x 9%nat * w 1%nat + x 16%nat * w 2%nat + x 17%nat * w 3%nat)
  + inv (m_yabc x) p 3%nat * (x 10%nat * w 0%nat + x 11%nat * w 1%nat + x 17%nat * w 2%nat + x 19%nat * w 3%nat) = w p.
Proof. intros Hp. rewrite <- (inv_apply 4 _ _ w p Iy Hp). generalize (inv (m_yabc x)); intros B. unfold mvec, m_yabc, of_rows. cbn [rsum nth]. ring. Qed.

Notation XA := (inv (m_xa x)).
Notation XC := (inv (m_xc x)).
Notation Y := (inv (m_yabc x)).
Notation r := (scalar X).
Notation s := (scalar x).
Definition ygh (i k : nat) : R :=
  match i with 0%nat => s 6 k 0 | 1%nat => s 6 k 1 | 2%nat => - s 7 k 0 | _ => - s 7 k 1 end.

Ltac two H := let n := fresh in match type of H with (?p < 2)%nat => destruct p as [|[|n]]; [| |exfalso; lia] end.

Lemma XA_sym : XA 1%nat 0%nat = XA 0%nat 1%nat.
Proof. apply (is_inv_sym 2 _ _ (m_xa_sym x Ha) Ia); lia. Qed.
Lemma Y_sym i j : (i < 4)%nat -> (j < 4)%nat -> Y i j = Y j i.
Proof. intros. apply (is_inv_sym 4 _ _ (m_yabc_sym x) Iy); assumption. Qed.

Lemma r_XA p q : (p < 2)%nat -> (q < 2)%nat -> r 0 p q = XA p q.
Proof. intros Hp Hq. two Hp; two Hq; reflexivity. Qed.
Lemma r_XC p q : (p < 2)%nat -> (q < 2)%nat -> r 3 p q = XC p q.
Proof. intros Hp Hq. two Hp; two Hq; reflexivity. Qed.
Lemma r_YA p q : (p < 2)%nat -> (q < 2)%nat -> r 1 p q = Y p q.
Proof. intros Hp Hq. two Hp; two Hq; reflexivity. Qed.
Lemma r_YB p q : (p < 2)%nat -> (q < 2)%nat -> r 2 p q = Y q (2 + p)%nat.
Proof. intros Hp Hq. two Hp; two Hq; reflexivity. Qed.
Lemma r_YC p q : (p < 2)%nat -> (q < 2)%nat -> r 4 p q = Y (2 + p)%nat (2 + q)%nat.
Proof. intros Hp Hq. two Hp; two Hq; reflexivity. Qed.
Lemma r_XG p q : (p < 2)%nat -> (q < 2)%nat -> r 5 p q = rsum 2 (fun k => s 5 p k * XA k q).
Proof. intros Hp Hq. two Hp; two Hq; reflexivity. Qed.
Lemma r_YG p q : (p < 2)%nat -> (q < 2)%nat -> r 6 p q = rsum 4 (fun k => Y q k * ygh k p).
Proof. intros Hp Hq. two Hp; two Hq; reflexivity. Qed.
Lemma r_YH p q : (p < 2)%nat -> (q < 2)%nat -> r 7 p q = - rsum 4 (fun k => Y (2 + q)%nat k * ygh k p).
Proof. intros Hp Hq. two Hp; two Hq; reflexivity. Qed.
Lemma r_XM p q : (p < 2)%nat -> (q < 2)%nat -> r 8 p q = s 8 p q + 2 / 3 * rsum 2 (fun k => r 5 p k * s 5 q k).
Proof. intros Hp Hq. two Hp; two Hq; reflexivity. Qed.
Lemma r_YM p q : (p < 2)%nat -> (q < 2)%nat ->
  r 9 p q = s 9 p q + 2 * (rsum 2 (fun k => r 6 p k * s 6 q k) + rsum 2 (fun k => r 7 p k * s 7 q k)).
Proof. intros Hp Hq. two Hp; two Hq; reflexivity. Qed.
Lemma r_ZM p q : (p < 2)%nat -> (q < 2)%nat -> r 10 p q = s 10 p q.
Proof. intros Hp Hq. two Hp; two Hq; reflexivity. Qed.

Definition G4 (p q : nat) : R := rsum 4 (fun k => Y p k * ygh k q).

Lemma solve4 (w u : nat -> R) (e : nat -> R) p : (p < 4)%nat ->
  (forall k, (k < 4)%nat -> u k = mvec 4 (m_yabc x) w k - 2 * rsum 2 (fun q => ygh k q * e q)) ->
  w p = rsum 4 (fun k => Y p k * u k) + 2 * rsum 2 (fun q => G4 p q * e q).
Proof.
  intros Hp Hu. rewrite <- (inv_apply 4 _ _ w p Iy Hp). unfold mvec at 1, G4.
  erewrite (rsum_ext 4 (fun k => Y p k * u k)); [|intros k Hk; rewrite (Hu k Hk); reflexivity].
  generalize (mvec 4 (m_yabc x) w); intros v. cbn [rsum]. ring.
Qed.
Lemma solve4_t (w u : nat -> R) (e : nat -> R) p : (p < 2)%nat ->
  (forall k, (k < 4)%nat -> u k = mvec 4 (m_yabc x) w k - 2 * rsum 2 (fun q => ygh k q * e q)) ->
  rsum 4 (fun k => ygh k p * w k)
  = rsum 4 (fun k => G4 k p * u k) + 2 * rsum 2 (fun q => rsum 4 (fun k => G4 k p * ygh k q) * e q).
Proof.
  intros Hp Hu. erewrite rsum_ext; [|intros k Hk; rewrite (solve4 w u e k Hk Hu); reflexivity].
  unfold G4. cbn [rsum].
  rewrite (Y_sym 1 0), (Y_sym 2 0), (Y_sym 3 0), (Y_sym 2 1), (Y_sym 3 1), (Y_sym 3 2) by lia. ring.
Qed.
Lemma solve2 (w u e : nat -> R) p : (p < 2)%nat ->
  (forall k, (k < 2)%nat -> u k = rsum 2 (fun q => s 0 k q * w q - s 5 q k * e q)) ->
  w p = rsum 2 (fun q => r 0 p q * u q + r 5 q p * e q).
Proof.
  intros Hp Hu. rewrite <- (solve_xa w p Hp).
  erewrite rsum_ext; [|intros q Hq; rewrite (Hu q Hq), r_XA, r_XG by assumption; reflexivity].
  cbn [rsum]. unfold scalar. cbn [Nat.mul Nat.add].
  two Hp; rewrite XA_sym; ring.
Qed.
Lemma solve2c (w u : nat -> R) p : (p < 2)%nat ->
  (forall k, (k < 2)%nat -> u k = rsum 2 (fun q => s 3 k q * w q)) ->
  w p = rsum 2 (fun q => r 3 p q * u q).
Proof.
  intros Hp Hu. rewrite <- (solve_xc w p Hp).
  erewrite rsum_ext; [|intros q Hq; rewrite (Hu q Hq), r_XC by assumption; reflexivity].
  cbn [rsum]. unfold scalar. cbn [Nat.mul Nat.add]. ring.
Qed.
Lemma solve2_t (w u e : nat -> R) p : (p < 2)%nat ->
  (forall k, (k < 2)%nat -> u k = rsum 2 (fun q => s 0 k q * w q - s 5 q k * e q)) ->
  rsum 2 (fun q => s 5 p q * w q) = rsum 2 (fun q => r 5 p q * u q + (3 / 2 * (r 8 p q - s 8 p q)) * e q).
Proof.
  intros Hp Hu.
  assert (E0 := solve2 w u e 0 ltac:(lia) Hu). assert (E1 := solve2 w u e 1 ltac:(lia) Hu).
  cbn [rsum] in E0, E1 |- *. rewrite E0, E1.
  rewrite !r_XM by lia. cbn [rsum]. rewrite !r_XG, !r_XA by lia. cbn [rsum]. rewrite XA_sym.
  two Hp; field.
Qed.

Definition four (a b : nat -> R) (k : nat) : R :=
  match k with 0%nat => a 0%nat | 1%nat => a 1%nat | 2%nat => b 0%nat | _ => b 1%nat end.

Theorem converted_law d U O F T E S :
  d 0%nat * d 0%nat + d 1%nat * d 1%nat + d 2%nat * d 2%nat = 1 ->
  (forall q, (q < 2)%nat -> strain (E q)) ->
  mobility_law x d U O F T E S -> resistance_law X d U O F T E S.
Proof.
  intros Hd HE HM.
  assert (HUa : forall k, (k < 2)%nat -> along d (U k) = rsum 2 (fun q => s 0 k q * along d (F q) - s 5 q k * stretch d (E q)))
    by (intros k Hk; exact (U_along x d U O F T E S Hd HE HM k Hk)).
  assert (HOa : forall k, (k < 2)%nat -> along d (O k) = rsum 2 (fun q => s 3 k q * along d (T q)))
    by (intros k Hk; exact (O_along x d U O F T E S Hd HE HM k Hk)).
  assert (HY1 : forall i, (i < 3)%nat -> forall k, (k < 4)%nat ->
     four (fun q => across d (U q) i) (fun q => - turned d (O q) i) k
     = mvec 4 (m_yabc x) (four (fun q => across d (F q) i) (fun q => - turned d (T q) i)) k - 2 * rsum 2 (fun q => ygh k q * skew d (E q) i)).
  { intros i Hi k Hk.
    do 4 (destruct k as [|k]; [unfold four; cbn [Nat.add];
      try rewrite (U_across x d U O F T E S Hd HE HM) by lia; try rewrite (O_turned x d U O F T E S Hd HE HM) by lia;
      unfold mvec, m_yabc, of_rows, ygh; cbn [rsum nth]; unfold scalar; cbn [Nat.mul Nat.add]; rewrite ?Hy, ?Hc; ring|]).
    lia. }
  assert (HY2 : forall i, (i < 3)%nat -> forall k, (k < 4)%nat ->
     four (fun q => turned d (U q) i) (fun q => across d (O q) i) k
     = mvec 4 (m_yabc x) (four (fun q => turned d (F q) i) (fun q => across d (T q) i)) k - 2 * rsum 2 (fun q => ygh k q * turned d (pull d (E q)) i)).
  { intros i Hi k Hk.
    do 4 (destruct k as [|k]; [unfold four; cbn [Nat.add];
      try rewrite (U_turned x d U O F T E S Hd HE HM) by lia; try rewrite (O_across x d U O F T E S Hd HE HM) by lia;
      unfold mvec, m_yabc, of_rows, ygh; cbn [rsum nth]; unfold scalar; cbn [Nat.mul Nat.add]; rewrite ?Hy, ?Hc; ring|]).
    lia. }
  split; [|split].
  - intros p i Hp Hi.
    erewrite rsum_ext; [|intros q Hq; rewrite actA, actBt, actGt by (try apply HE; assumption); reflexivity].
    rewrite (split_vec d (F p) i).
    pose proof (solve2 (fun q => along d (F q)) (fun q => along d (U q)) (fun q => stretch d (E q)) p Hp HUa) as E1.
    cbv beta in E1. rewrite E1.
    assert (E2 : across d (F p) i = four (fun q => across d (F q) i) (fun q => - turned d (T q) i) p) by (two Hp; reflexivity).
    rewrite E2, (solve4 _ _ _ p ltac:(lia) (HY1 i Hi)).
    cbn [rsum]. unfold four. cbv iota beta.
    rewrite !r_YA, !r_YB, !r_YG by lia. unfold G4. cbn [rsum Nat.add]. ring.
  - intros p i Hp Hi.
    erewrite rsum_ext; [|intros q Hq; rewrite actB, actC, actHt by (try apply HE; assumption); reflexivity].
    rewrite (split_vec d (T p) i).
    pose proof (solve2c (fun q => along d (T q)) (fun q => along d (O q)) p Hp HOa) as E1.
    cbv beta in E1. rewrite E1.
    assert (E2 : across d (T p) i = four (fun q => turned d (F q) i) (fun q => across d (T q) i) (2 + p)%nat) by (two Hp; reflexivity).
    rewrite E2, (solve4 _ _ _ (2 + p)%nat ltac:(lia) (HY2 i Hi)).
    cbn [rsum]. unfold four. cbv iota beta.
    rewrite !r_YB, !r_YC, !r_YH by lia. unfold G4. cbn [rsum Nat.add].
    rewrite (Y_sym 0 (Datatypes.S (Datatypes.S p))), (Y_sym 1 (Datatypes.S (Datatypes.S p))) by lia. ring.
  - intros p i j Hp Hi Hj. destruct HM as [_ [_ H]]. rewrite (H p i j Hp Hi Hj). clear H.
    erewrite rsum_ext; [|intros q Hq; rewrite actG, actH, actM by (try apply HE; assumption); reflexivity].
    symmetry.
    erewrite rsum_ext; [|intros q Hq; rewrite actG, actH, actM by (try apply HE; assumption); reflexivity].
    symmetry.
    pose proof (solve2_t (fun q => along d (F q)) (fun q => along d (U q)) (fun q => stretch d (E q)) p Hp HUa) as E1.
    pose proof (solve4_t _ _ _ p Hp (HY1 i Hi)) as E2. pose proof (solve4_t _ _ _ p Hp (HY1 j Hj)) as E3.
    cbv beta in E1.
    assert (R6 : forall q, (q < 2)%nat -> r 6 p q = G4 q p) by (intros q Hq; apply r_YG; assumption).
    assert (R7 : forall q, (q < 2)%nat -> r 7 p q = - G4 (2 + q) p) by (intros q Hq; apply r_YH; assumption).
    cbn [rsum] in E1, E2, E3 |- *. unfold four, ygh in E2, E3. cbv iota beta in E2, E3.
    rewrite !r_YM, !r_ZM by lia. cbn [rsum]. rewrite !R6, !R7 by lia. cbn [Nat.add].
    set (sg := d i * d j - delta i j / 3).
    apply (lc1 _ _ (sg * (s 5 p 0 * along d (F 0%nat) + s 5 p 1 * along d (F 1%nat)))
                   (sg * (0 + (r 5 p 0 * along d (U 0%nat) + 3 / 2 * (r 8 p 0 - s 8 p 0) * stretch d (E 0%nat))
                            + (r 5 p 1 * along d (U 1%nat) + 3 / 2 * (r 8 p 1 - s 8 p 1) * stretch d (E 1%nat))))).
    { f_equal. rewrite <- E1. ring. }
    apply (lc1 _ _ _ _ (f_equal (Rmult (d j)) E2)).
    apply (lc1 _ _ _ _ (f_equal (Rmult (d i)) E3)).
    field.
Qed.
End Convert.
