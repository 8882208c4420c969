(** Property C34: repulsion forces. *)
From Coq Require Import Reals List Arith Bool Lia Lra.
From Verif Require Import Base Py Model_Mob Model_Close Spec_Close Model_Repulsion Spec_Repulsion Proof_Close Proof_Repulsion.
Import ListNotations.
Local Open Scope R_scope.

(** C34: each bead receives the sum of the pairwise repulsions from all beads;
    dumbbells receive the sum and difference of those of their two beads; the
    [2*lid] spheres of the lids receive none. *)
Theorem C34_forces :
  forall strength tau Ns Nd spos dpos ddx ssizes dsizes lid Fa Fb DFb Fa' Fb' DFb',
    repulsion_forces strength tau Ns Nd spos dpos ddx ssizes dsizes lid Fa Fb DFb = Ok (Fa', Fb', DFb') ->
    let x := all_beads Ns Nd spos (fun i l => dpos i l - ddx i l / 2) (fun i l => dpos i l + ddx i l / 2) in
    let a := all_beads Ns Nd ssizes dsizes dsizes in
    let total := total_repulsion strength tau x a (Ns + 2 * Nd) in
    (forall i l, (i < Ns)%nat -> Fa' i l = Fa i l + if Nat.leb (2 * lid) i then total i l else 0) /\
    (forall i l, (i < Nd)%nat ->
       Fb' i l = Fb i l + (total (Ns + i)%nat l + total (Ns + Nd + i)%nat l) /\
       DFb' i l = DFb i l + (total (Ns + Nd + i)%nat l - total (Ns + i)%nat l)).
Proof. exact repulsion_correct. Qed.
Print Assumptions C34_forces.

(** It succeeds exactly unless there are spheres and all are in lids. *)
Theorem C34_total :
  forall strength tau Ns Nd spos dpos ddx ssizes dsizes lid Fa Fb DFb,
    (exists r, repulsion_forces strength tau Ns Nd spos dpos ddx ssizes dsizes lid Fa Fb DFb = Ok r)
    <-> (Ns = 0 \/ 2 * lid < Ns)%nat.
Proof.
  intros. unfold repulsion_forces. destruct (Nat.ltb_spec 0 Ns), (Nat.leb_spec Ns (2 * lid)); cbn [andb]; split;
    try (intros; eexists; reflexivity); try (intros [r E]; discriminate); intros; lia.
Qed.
Print Assumptions C34_total.

(** The pairwise force: equal and opposite, along the line of centres, not
    attractive, of the stated size and zero beyond the cutoff. *)
Theorem C34_pair :
  forall strength tau x a p q,
    0 <= strength -> 0 < a p -> 0 < a q ->
    (forall l, repulsion strength tau x a p q l = - repulsion strength tau x a q p l) /\
    (exists c, 0 <= c /\ forall l, repulsion strength tau x a p q l = c * vsub (x p) (x q) l) /\
    0 <= dot3 (repulsion strength tau x a p q) (vsub (x p) (x q)) /\
    (0 < scaled_distance x a p q < 11 / 5 ->
       norm (repulsion strength tau x a p q) = repulsion_size strength tau (a p) (a q) (scaled_distance x a p q - 2)) /\
    (11 / 5 <= scaled_distance x a p q -> forall l, repulsion strength tau x a p q l = 0).
Proof.
  intros strength tau x a p q Hs Hp Hq. split; [intros; apply rep_anti|]. split; [exact (rep_line strength tau x a p q Hs Hp Hq)|].
  split; [apply rep_away; assumption|]. split.
  - intros H. rewrite rep_size by assumption. destruct (Rlt_dec 0 _); [|lra]. destruct (Rlt_dec _ _); [reflexivity|lra].
  - intros H l. unfold repulsion. destruct (Rlt_dec 0 _); [|reflexivity]. destruct (Rlt_dec _ _); [lra|reflexivity].
Qed.
Print Assumptions C34_pair.

Theorem C34_decreasing :
  forall strength tau a1 a2 g g', 0 <= strength -> 0 <= tau -> 0 < a1 -> 0 < a2 -> g <= g' ->
    repulsion_size strength tau a1 a2 g' <= repulsion_size strength tau a1 a2 g.
Proof. intros; apply size_decreasing; assumption. Qed.
Print Assumptions C34_decreasing.

(** Without lids no net force and no net torque is added (a dumbbell's torque
    is that of its total force at its centre, plus half its vector times the
    difference of its bead forces). *)
Theorem C34_balance :
  forall strength tau Ns Nd spos dpos ddx ssizes dsizes Fa Fb DFb Fa' Fb' DFb',
    repulsion_forces strength tau Ns Nd spos dpos ddx ssizes dsizes 0 Fa Fb DFb = Ok (Fa', Fb', DFb') ->
    (forall l, rsum Ns (fun i => Fa' i l) + rsum Nd (fun i => Fb' i l) = rsum Ns (fun i => Fa i l) + rsum Nd (fun i => Fb i l)) /\
    (forall l, (l < 3)%nat ->
       rsum Ns (fun i => cross (spos i) (vsub (Fa' i) (Fa i)) l)
       + rsum Nd (fun i => cross (dpos i) (vsub (Fb' i) (Fb i)) l + cross (vscal (1 / 2) (ddx i)) (vsub (DFb' i) (DFb i)) l) = 0).
Proof. exact suspension_balance. Qed.
Print Assumptions C34_balance.

(** Unit spheres touching on an axis. *)
Lemma rep_touching x p q s t strength tau :
  (forall l, (l < 3)%nat -> x p l = v3 s 0 0 l) -> (forall l, (l < 3)%nat -> x q l = v3 t 0 0 l) ->
  (Rabs (t - s) = 2 -> repulsion strength tau x (fun _ => 1) p q 0%nat = - (strength * ((t - s) / 2))) /\
  (Rabs (t - s) = 0 \/ 3 <= Rabs (t - s) -> repulsion strength tau x (fun _ => 1) p q 0%nat = 0).
Proof.
  intros Hp Hq.
  assert (N : norm (vsub (x q) (x p)) = Rabs (t - s)).
  { unfold norm, vsub. rewrite !Hp, !Hq by lia. cbn [v3]. replace (_ + _ + _) with ((t - s)²) by (unfold Rsqr; ring). apply sqrt_Rsqr_abs. }
  split; intros H; unfold repulsion, scaled_distance, direction, vscal; rewrite N.
  - rewrite H. destruct (Rlt_dec 0 _); [|lra]. destruct (Rlt_dec _ _); [|lra]. unfold repulsion_size.
    replace (Rmax 0 _) with 0 by (rewrite Rmax_left; lra). rewrite Rmult_0_r, Ropp_0, exp_0. unfold vsub. rewrite Hp, Hq by lia.
    cbn [v3]. field.
  - destruct (Rlt_dec 0 _); [|reflexivity]. destruct (Rlt_dec _ _); [|reflexivity]. destruct H; lra.
Qed.

(** A sphere touching the first bead of a dumbbell whose beads touch: the
    sphere is pushed back with force 50, the dumbbell forward with 50. *)
Example C34_example :
  exists Fa' Fb' DFb',
    repulsion_forces 50 20 1 1 (fun _ => v3 0 0 0) (fun _ => v3 3 0 0) (fun _ => v3 2 0 0) (fun _ => 1) (fun _ => 1) 0
      (fun _ _ => 0) (fun _ _ => 0) (fun _ _ => 0) = Ok (Fa', Fb', DFb') /\
    Fa' 0%nat 0%nat = - 50 /\ Fb' 0%nat 0%nat = 50 /\ DFb' 0%nat 0%nat = 50.
Proof.
  destruct (proj2 (C34_total 50 20 1 1 (fun _ => v3 0 0 0) (fun _ => v3 3 0 0) (fun _ => v3 2 0 0) (fun _ => 1) (fun _ => 1) 0
      (fun _ _ => 0) (fun _ _ => 0) (fun _ _ => 0))) as [[[Fa' Fb'] DFb'] E]; [lia|].
  exists Fa', Fb', DFb'. split; [exact E|]. apply C34_forces in E. cbv zeta in E.
  set (x := all_beads 1 1 _ _ _) in E.
  change (all_beads 1 1 (fun _ : nat => 1) (fun _ : nat => 1) (fun _ : nat => 1)) with
    (fun b => all_beads 1 1 (fun _ : nat => 1) (fun _ : nat => 1) (fun _ : nat => 1) b) in E.
  replace (all_beads 1 1 (fun _ : nat => 1) (fun _ : nat => 1) (fun _ : nat => 1)) with (fun _ : nat => 1) in E.
  2: { apply FunctionalExtensionality.functional_extensionality. intros b. unfold all_beads. destruct (Nat.ltb b 1), (Nat.ltb b (1 + 1)); reflexivity. }
  assert (X : forall b, (b < 3)%nat -> forall l, (l < 3)%nat -> x b l = v3 (2 * INR b) 0 0 l).
  { intros b Hb l Hl. idx3 Hb; idx3 Hl; unfold x, all_beads; simpl; lra. }
  destruct E as [EA EB]. specialize (EA 0%nat 0%nat). specialize (EB 0%nat 0%nat). destruct EB as [EB ED]; [lia|].
  rewrite EA, EB, ED by lia. cbn [Nat.leb Nat.mul Nat.add]. unfold total_repulsion. cbn [rsum].
  assert (R : forall p q, (p < 3)%nat -> (q < 3)%nat ->
    repulsion 50 20 x (fun _ => 1) p q 0%nat = if Nat.eqb p (q + 1) then 50 else if Nat.eqb q (p + 1) then - 50 else 0).
  { intros p q Hp Hq. destruct (rep_touching x p q (2 * INR p) (2 * INR q) 50 20 (X p Hp) (X q Hq)) as [T Z].
    idx3 Hp; idx3 Hq; cbn [Nat.eqb Nat.add]; simpl INR in *;
      (rewrite Z; [reflexivity|]) || (rewrite T; [lra|]); unfold Rabs; destruct (Rcase_abs _); lra. }
  rewrite !R by lia. cbn [Nat.eqb Nat.add]. lra.
Qed.
