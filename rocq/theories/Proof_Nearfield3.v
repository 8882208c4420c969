(** The moments of two spheres in a linear flow. *)
From Coq Require Import Reals List Arith Lra Lia.
From Verif Require Import Base Model_Mob Model_Nearfield Spec_Scalars Spec_Nearfield.
Import ListNotations.
Local Open Scope R_scope.

(** ** Expansions *)
Definition form (f : R -> R) (g1 g2 g3 : R) : Prop :=
  exists c0 c1 c2, forall xi, 0 < xi ->
    f xi = g1 * / xi + g2 * ln (/ xi) + c0 + g3 * xi * ln (/ xi) + c1 * xi + c2 * (xi ^ 2 * ln (/ xi)).
(** as [form] with c1 = c2 = 0 *)
Definition sing (f : R -> R) (g1 g2 g3 : R) : Prop :=
  exists c0, forall xi, 0 < xi -> f xi = g1 * / xi + g2 * ln (/ xi) + c0 + g3 * xi * ln (/ xi).

(** as [regular], of lower order *)
Definition reg (f : R -> R) : Prop :=
  exists c0 c1 c2, forall xi, 0 < xi -> f xi = c0 + c1 * xi + c2 * (xi ^ 2 * ln (/ xi)).
Definition linear (g : R -> R) : Prop := exists c0 c1, forall xi, g xi = c0 + c1 * xi.
Lemma regular_prod f g : reg f -> linear g -> regular (fun xi => f xi * g xi).
Proof.
  intros (c0 & c1 & c2 & H) (d0 & d1 & K). exists (c0 * d0), (c0 * d1 + c1 * d0), (c1 * d1), (c2 * d0), (c2 * d1).
  intros xi Hx. rewrite H, K by exact Hx. ring.
Qed.
Lemma regular_plus f g : regular f -> regular g -> regular (fun xi => f xi + g xi).
Proof.
  intros (c0 & c1 & c2 & c3 & c4 & H) (d0 & d1 & d2 & d3 & d4 & K). exists (c0 + d0), (c1 + d1), (c2 + d2), (c3 + d3), (c4 + d4).
  intros xi Hx. rewrite H, K by exact Hx. ring.
Qed.
Lemma regular_ext f g : (forall xi, 0 < xi -> f xi = g xi) -> regular g -> regular f.
Proof. intros E (c0 & c1 & c2 & c3 & c4 & H). exists c0, c1, c2, c3, c4. intros xi Hx. rewrite E by exact Hx. apply H. exact Hx. Qed.
Lemma linear_const c : linear (fun _ => c).
Proof. exists c, 0. intros. ring. Qed.
Lemma linear_plus f g : linear f -> linear g -> linear (fun xi => f xi + g xi).
Proof. intros (c0 & c1 & H) (d0 & d1 & K). exists (c0 + d0), (c1 + d1). intros xi. rewrite H, K. ring. Qed.
Lemma linear_minus f g : linear f -> linear g -> linear (fun xi => f xi - g xi).
Proof. intros (c0 & c1 & H) (d0 & d1 & K). exists (c0 - d0), (c1 - d1). intros xi. rewrite H, K. ring. Qed.
Lemma linear_mul_r f c : linear f -> linear (fun xi => f xi * c).
Proof. intros (c0 & c1 & H). exists (c0 * c), (c1 * c). intros xi. rewrite H. ring. Qed.
Lemma linear_mul_l f c : linear f -> linear (fun xi => c * f xi).
Proof. intros (c0 & c1 & H). exists (c * c0), (c * c1). intros xi. rewrite H. ring. Qed.
Lemma linear_dist a b : linear (centre_distance a b).
Proof. exists (a + b), ((a + b) / 2). intros xi. unfold centre_distance. field. Qed.
Lemma form_reg f : form f 0 0 0 -> reg f.
Proof. intros (c0 & c1 & c2 & H). exists c0, c1, c2. intros xi Hx. rewrite H by exact Hx. ring. Qed.
Lemma form_ext f g g1 g2 g3 : (forall xi, 0 < xi -> f xi = g xi) -> form f g1 g2 g3 -> form g g1 g2 g3.
Proof. intros E (c0 & c1 & c2 & H). exists c0, c1, c2. intros xi Hx. rewrite <- E by exact Hx. apply H. exact Hx. Qed.
Lemma form_eq f g1 g2 g3 h1 h2 h3 : form f g1 g2 g3 -> g1 = h1 -> g2 = h2 -> g3 = h3 -> form f h1 h2 h3.
Proof. intros H -> -> ->. exact H. Qed.
Lemma sing_form f g1 g2 g3 : sing f g1 g2 g3 -> form f g1 g2 g3.
Proof. intros (c0 & H). exists c0, 0, 0. intros xi Hx. rewrite H by exact Hx. ring. Qed.
Lemma form_plus f g f1 f2 f3 g1 g2 g3 : form f f1 f2 f3 -> form g g1 g2 g3 ->
  form (fun xi => f xi + g xi) (f1 + g1) (f2 + g2) (f3 + g3).
Proof.
  intros (c0 & c1 & c2 & H) (d0 & d1 & d2 & K). exists (c0 + d0), (c1 + d1), (c2 + d2).
  intros xi Hx. rewrite H, K by exact Hx. ring.
Qed.
Lemma form_scal f f1 f2 f3 c : form f f1 f2 f3 -> form (fun xi => c * f xi) (c * f1) (c * f2) (c * f3).
Proof.
  intros (c0 & c1 & c2 & H). exists (c * c0), (c * c1), (c * c2). intros xi Hx. rewrite H by exact Hx. ring.
Qed.
Lemma form_dist f f1 f2 f3 a b : sing f f1 f2 f3 ->
  form (fun xi => centre_distance a b xi * f xi) ((a + b) * f1) ((a + b) * f2) ((a + b) * (f3 + f2 / 2)).
Proof.
  intros (c0 & H). exists ((a + b) * (c0 + f1 / 2)), ((a + b) * c0 / 2), ((a + b) * f3 / 2).
  intros xi Hx. rewrite H by exact Hx. unfold centre_distance. field. lra.
Qed.
Lemma reg_ext f g : (forall xi, 0 < xi -> f xi = g xi) -> reg g -> reg f.
Proof. intros E (c0 & c1 & c2 & H). exists c0, c1, c2. intros xi Hx. rewrite E by exact Hx. apply H. exact Hx. Qed.

(** The coefficients of the 22 functions. *)
Definition nd1 (n gamma : nat) (l : R) : R :=
  match n, gamma with
  | 0, 0 => G1xa l | 0, _ => (- G1xa l)%R | 5, 0 => G1xg l | 5, _ => (- G1xg l
 )%R | 8, 0 => G1xm l | 8, _ => G4xm l | _, _ => 0%R end%nat.
Definition nd2 (n gamma : nat) (l : R) : R :=
  match n, gamma with
  | 0, 0 => G2xa l | 0, _ => (- G2xa l)%R | 1, 0 => G2ya l | 1, _ => (- G2ya l)%R | 2, 0 => G2yb l | 2, _ => (- G2yb l
 )%R | 4, 0 => G2yc l | 4, _ => G4yc l | 5, 0 => G2xg l | 5, _ => (- G2xg l)%R | 6, 0 => G2yg l | 6, _ => (- G2yg l
 )%R | 7, 0 => G2yh l | 7, _ => G5yh l | 8, 0 => G2xm l | 8, _ => G5xm l | 9, 0 => G2ym l | 9, _ => G5ym l
  | _, _ => 0%R end%nat.
Definition nd3 (n gamma : nat) (l : R) : R :=
  match n, gamma with
  | 0, 0 => G3xa l | 0, _ => (- G3xa l)%R | 1, 0 => G3ya l | 1, _ => (- G3ya l)%R | 2, 0 => G3yb l | 2, _ => (- G3yb l
 )%R | 3, 0 => (- (l ^ 2 / (4 * (1 + l))))%R | 3, _ => (l ^ 2 / (4 * (1 + l)))%R
  | 4, 0 => G3yc l | 4, _ => G5yc l | 5, 0 => G3xg l | 5, _ => (- G3xg l)%R | 6, 0 => G3yg l | 6, _ => (- G3yg l
 )%R | 7, 0 => G3yh l | 7, _ => G6yh l | 8, 0 => G3xm l | 8, _ => G6xm l | 9, 0 => G3ym l | 9, _ => G6ym l
  | _, 0 => G3zm l | _, _ => (- G3zm l)%R end%nat.

Ltac ex := cbv zeta; intros; ring.
Lemma near_sing zeta n gamma l : sing (fun xi => near zeta n gamma xi l) (nd1 n gamma l) (nd2 n gamma l) (nd3 n gamma l).
Proof.
  destruct n as [|[|[|[|[|[|[|[|[|[|n]]]]]]]]]], gamma as [|g]; cbn [near nd1 nd2 nd3].
  - exists (AX11 l). unfold X11A. ex.
  - exists (1 / 2 * (1 + l) * AX12 l). unfold X12A. ex.
  - exists (AY11 l). unfold Y11A. ex.
  - exists (1 / 2 * (1 + l) * AY12 l). unfold Y12A. ex.
  - exists (BY11 l). unfold Y11B. ex.
  - exists (1 / 4 * (1 + l) ^ 2 * BY12 l). unfold Y12B. ex.
  - exists (l ^ 3 / (1 + l) ^ 3 * zeta 3 (l / (1 + l))). unfold X11C. ex.
  - exists (- l ^ 3 / (1 + l) ^ 3 * zeta 3 1). unfold X12C. ex.
  - exists (CY11 l). unfold Y11C. ex.
  - exists ((1 + l) ^ 3 / 8 * CY12 l). unfold Y12C. ex.
  - exists (GX11 l). unfold X11G. ex.
  - exists (1 / 4 * (1 + l) ^ 2 * GX12 l). unfold X12G. ex.
  - exists (GY11 l). unfold Y11G. ex.
  - exists (1 / 4 * (1 + l) ^ 2 * GY12 l). unfold Y12G. ex.
  - exists (HY11 l). unfold Y11H. ex.
  - exists ((1 + l) ^ 3 / 8 * HY12 l). unfold Y12H. ex.
  - exists (MX11 l). unfold X11M. ex.
  - exists (1 / 8 * (1 + l) ^ 3 * MX12 l). unfold X12M. ex.
  - exists (MY11 l). unfold Y11M. ex.
  - exists (1 / 8 * (1 + l) ^ 3 * MY12 l). unfold Y12M. ex.
  - exists (MZ11 l). unfold Z11M. ex.
  - exists (1 / 8 * (1 + l) ^ 3 * MZ12 l). unfold Z12M. ex.
Qed.

(** ** Relations between the scalars seen from a sphere of radius [a] *)
Section Rel.
Variables (zeta : R -> R -> R) (a b : R).
Hypotheses (Ha : 0 < a) (Hb : 0 < b).
Notation u n g xi := (scalar_unit n a * near zeta n g xi (b / a)).
Notation w n g xi := (scalar_unit n b * near zeta n g xi (a / b)).
Notation r xi := (centre_distance a b xi).

Lemma near_form n g c l : form (fun xi => c * near zeta n g xi l) (c * nd1 n g l) (c * nd2 n g l) (c * nd3 n g l).
Proof. apply form_scal, sing_form, near_sing. Qed.
Lemma near_dist n g c l : form (fun xi => c * (r xi * near zeta n g xi l))
  (c * ((a + b) * nd1 n g l)) (c * ((a + b) * nd2 n g l)) (c * ((a + b) * (nd3 n g l + nd2 n g l / 2))).
Proof. apply form_scal, form_dist, near_sing. Qed.

Ltac coeffs := cbn [nd1 nd2 nd3 scalar_unit]; try ring;
  unfold G1xa, G2xa, G3xa, G2ya, G3ya, G2yb, G3yb, G2yc, G3yc, G4yc, G5yc, G1xg, G2xg, G3xg, G2yg, G3yg, G2yh, G3yh, G5yh, G6yh,
    G1xm, G2xm, G3xm, G4xm, G5xm, G6xm, G2ym, G3ym, G5ym, G6ym, G3zm; field; repeat split; lra.
Ltac two := apply form_reg;
  (eapply form_ext; [|eapply form_eq; [apply form_plus; apply near_form|..]]; [intros; cbv beta; reflexivity|coeffs..]).

Lemma rel_same n : In n [0; 1; 2; 3; 5; 6; 10]%nat -> reg (fun xi => u n 0%nat xi + u n 1%nat xi).
Proof.
  intros H. repeat destruct H as [<-|H]; [..|destruct H]; two.
Qed.
Ltac by_form H := apply form_reg; eapply form_ext; [|eapply form_eq; [exact H|..]]; [intros; cbv beta; ring|coeffs..].
(** rotation: force, torque, stresslet *)
Lemma rel_F_rot : reg (fun xi => u 2%nat 0%nat xi - w 2%nat 1%nat xi - r xi * u 1%nat 1%nat xi).
Proof.
  by_form (form_plus _ _ _ _ _ _ _ _ (form_plus _ _ _ _ _ _ _ _ (near_form 2 0 (scalar_unit 2 a) (b / a)) (near_form 2 1 (- scalar_unit 2 b) (a / b)))
             (near_dist 1 1 (- scalar_unit 1 a) (b / a))).
Qed.
Lemma rel_T_rot : reg (fun xi => u 4%nat 0%nat xi + u 4%nat 1%nat xi - r xi * u 2%nat 1%nat xi).
Proof.
  by_form (form_plus _ _ _ _ _ _ _ _ (form_plus _ _ _ _ _ _ _ _ (near_form 4 0 (scalar_unit 4 a) (b / a)) (near_form 4 1 (scalar_unit 4 a) (b / a)))
             (near_dist 2 1 (- scalar_unit 2 a) (b / a))).
Qed.
Lemma rel_S_rot : reg (fun xi => u 7%nat 0%nat xi + u 7%nat 1%nat xi + r xi * u 6%nat 1%nat xi).
Proof.
  by_form (form_plus _ _ _ _ _ _ _ _ (form_plus _ _ _ _ _ _ _ _ (near_form 7 0 (scalar_unit 7 a) (b / a)) (near_form 7 1 (scalar_unit 7 a) (b / a)))
             (near_dist 6 1 (scalar_unit 6 a) (b / a))).
Qed.
(** strain: force along and across, torque, stresslet *)
Lemma rel_F_strain_x : reg (fun xi => u 5%nat 0%nat xi - w 5%nat 1%nat xi + r xi * u 0%nat 1%nat xi).
Proof.
  by_form (form_plus _ _ _ _ _ _ _ _ (form_plus _ _ _ _ _ _ _ _ (near_form 5 0 (scalar_unit 5 a) (b / a)) (near_form 5 1 (- scalar_unit 5 b) (a / b)))
             (near_dist 0 1 (scalar_unit 0 a) (b / a))).
Qed.
Lemma rel_F_strain_y : reg (fun xi => 2 * u 6%nat 0%nat xi - 2 * w 6%nat 1%nat xi + r xi * u 1%nat 1%nat xi).
Proof.
  by_form (form_plus _ _ _ _ _ _ _ _ (form_plus _ _ _ _ _ _ _ _ (near_form 6 0 (2 * scalar_unit 6 a) (b / a)) (near_form 6 1 (- (2 * scalar_unit 6 b)) (a / b)))
             (near_dist 1 1 (scalar_unit 1 a) (b / a))).
Qed.
Lemma rel_T_strain : reg (fun xi => 2 * u 7%nat 0%nat xi + 2 * w 7%nat 1%nat xi - r xi * u 2%nat 1%nat xi).
Proof.
  by_form (form_plus _ _ _ _ _ _ _ _ (form_plus _ _ _ _ _ _ _ _ (near_form 7 0 (2 * scalar_unit 7 a) (b / a)) (near_form 7 1 (2 * scalar_unit 7 b) (a / b)))
             (near_dist 2 1 (- scalar_unit 2 a) (b / a))).
Qed.
Lemma rel_S_strain_x : reg (fun xi => 3 / 2 * u 8%nat 0%nat xi + 3 / 2 * u 8%nat 1%nat xi + r xi * u 5%nat 1%nat xi).
Proof.
  by_form (form_plus _ _ _ _ _ _ _ _ (form_plus _ _ _ _ _ _ _ _ (near_form 8 0 (3 / 2 * scalar_unit 8 a) (b / a)) (near_form 8 1 (3 / 2 * scalar_unit 8 a) (b / a)))
             (near_dist 5 1 (scalar_unit 5 a) (b / a))).
Qed.
Lemma sing_xl : sing (fun xi => xi * ln (/ xi)) 0 0 1.
Proof. exists 0. intros. ring. Qed.
(** what is left of the last relation *)
Definition residue : R := 4 / 25 * PI * a ^ 2 * b ^ 2 * (a ^ 2 + b ^ 2) / (a + b) ^ 3.
Lemma rel_S_strain_y : reg (fun xi => u 9%nat 0%nat xi + u 9%nat 1%nat xi + r xi * u 6%nat 1%nat xi - residue * (xi * ln (/ xi))).
Proof.
  apply form_reg. eapply form_ext; [|eapply form_eq;
    [exact (form_plus _ _ _ _ _ _ _ _ (form_plus _ _ _ _ _ _ _ _ (form_plus _ _ _ _ _ _ _ _ (near_form 9 0 (scalar_unit 9 a) (b / a)) (near_form 9 1 (scalar_unit 9 a) (b / a)))
             (near_dist 6 1 (scalar_unit 6 a) (b / a)))
       (form_scal _ _ _ _ (- residue) (sing_form _ _ _ _ sing_xl))) |..]];
   [intros; cbv beta; ring|unfold residue; coeffs..].
Qed.
End Rel.

(** ** Vectors *)
Section Vec.
Variables (X : nat -> R) (d V w x0 : vec) (E : mat) (r : R).
Hypotheses (HE : strain E) (Hd : rsum 3 (fun i => d i * d i) = 1).
Notation s := (scalar X).
Definition flow_at (p : nat) : vec := linear_flow V w E (centre d r x0 p).
Variables (F T : nat -> vec) (S : nat -> mat).
Hypothesis L : resistance_law X d flow_at (fun _ => w) F T (fun _ => E) S.
Definition other (p : nat) : nat := match p with O => 1%nat | _ => O end.
Definition toward (p : nat) : R := match p with O => 1 | _ => - (1) end.
Definition Ed (i : nat) : R := rsum 3 (fun j => E i j * d j).
Definition dEd : R := rsum 3 (fun i => d i * Ed i).
Definition dU (p : nat) : R := rsum 3 (fun i => d i * flow_at p i).
Definition dw : R := rsum 3 (fun i => d i * w i).
Definition cr (i : nat) : R := cross w d i.
Definition shear (i : nat) : R := Ed i - dEd * d i.

Ltac three H := destruct H as [|[|[|H]]]; [| | |lia].
Ltac setE := destruct HE as [Es Et]; pose proof (Es 1%nat 0%nat ltac:(lia) ltac:(lia)) as E10;
  pose proof (Es 2%nat 0%nat ltac:(lia) ltac:(lia)) as E20; pose proof (Es 2%nat 1%nat ltac:(lia) ltac:(lia)) as E21;
  assert (E22 : E 2%nat 2%nat = - E 0%nat 0%nat - E 1%nat 1%nat) by lra.
Ltac unf := unfold shear, cr, dw, dU, dEd, Ed, flow_at, linear_flow, centre, cross, tA, tB, tC, tG, tH, tM, levi, delta, other, toward;
  cbn [rsum Nat.eqb Nat.add Nat.mul orb andb v3].
Lemma F_flow p i : (p < 2)%nat -> (i < 3)%nat ->
  F p i = (s 0 p p + s 0 p (other p)) * (dU p * d i) + (s 1 p p + s 1 p (other p)) * (flow_at p i - dU p * d i)
    + (s 2 p p + s 2 (other p) p - toward p * (r * s 1 p (other p))) * - cr i
    + (s 5 p p + s 5 (other p) p + toward p * (r * s 0 p (other p))) * (dEd * d i)
    + (2 * s 6 p p + 2 * s 6 (other p) p + toward p * (r * s 1 p (other p))) * shear i.
Proof.
  intros Hp Hi. rewrite (proj1 L p i Hp Hi). setE.
  destruct p as [|[|p]]; [| |lia]; (destruct i as [|[|[|i]]]; [| | |lia]); unf; rewrite E10, E20, E21, E22; field.
Qed.
Lemma T_flow p i : (p < 2)%nat -> (i < 3)%nat ->
  T p i = (s 2 p p + s 2 p (other p)) * cross (flow_at p) d i
    + (s 3 p p + s 3 p (other p)) * (dw * d i)
    + (s 4 p p + s 4 p (other p) - toward p * (r * s 2 p (other p))) * (w i - dw * d i)
    + (2 * s 7 p p + 2 * s 7 (other p) p - toward p * (r * s 2 p (other p))) * cross d Ed i.
Proof.
  intros Hp Hi. rewrite (proj1 (proj2 L) p i Hp Hi). setE.
  transitivity ((s 2 p p + s 2 p (other p)) * cross (flow_at p) d i
    + (s 3 p p + s 3 p (other p)) * (dw * d i)
    + (s 4 p p + s 4 p (other p)) * (w i - dw * d i)
    - toward p * (r * s 2 p (other p)) * (rsum 3 (fun j => d j * d j) * w i - dw * d i)
    + (2 * s 7 p p + 2 * s 7 (other p) p - toward p * (r * s 2 p (other p))) * cross d Ed i); [|rewrite Hd; ring].
  destruct p as [|[|p]]; [| |lia]; (destruct i as [|[|[|i]]]; [| | |lia]); unf; rewrite E10, E20, E21, E22; field.
Qed.
Definition zpart (i j : nat) : R :=
  1 / 2 * rsum 3 (fun k => rsum 3 (fun l => ((delta i k - d i * d k) * (delta j l - d j * d l) + (delta j k - d j * d k) * (delta i l - d i * d l)
     - (delta i j - d i * d j) * (delta k l - d k * d l)) * E k l)).
Lemma S_flow p i j : (p < 2)%nat -> (i < 3)%nat -> (j < 3)%nat ->
  S p i j = (s 5 p p + s 5 p (other p)) * ((d i * d j - delta i j / 3) * dU p)
    + (s 6 p p + s 6 p (other p)) * (d i * (flow_at p j - dU p * d j) + d j * (flow_at p i - dU p * d i))
    + (s 7 p p + s 7 p (other p) + toward p * (r * s 6 p (other p))) * (d i * cr j + d j * cr i)
    + (3 / 2 * s 8 p p + 3 / 2 * s 8 p (other p) + toward p * (r * s 5 p (other p))) * ((d i * d j - delta i j / 3) * dEd)
    + (s 9 p p + s 9 p (other p) + toward p * (r * s 6 p (other p))) * (d i * shear j + d j * shear i)
    + (s 10 p p + s 10 p (other p)) * zpart i j.
Proof.
  intros Hp Hi Hj. rewrite (proj2 (proj2 L) p i j Hp Hi Hj). setE.
  destruct p as [|[|p]]; [| |lia]; (destruct i as [|[|[|i]]]; [| | |lia]); (destruct j as [|[|[|j]]]; [| | |lia]);
    unfold zpart; unf; rewrite ?E10, ?E20, ?E21, ?E22; field.
Qed.
End Vec.
