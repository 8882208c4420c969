(** Derivatives of Lamb's solution. *)
From Coq Require Import Reals ZArith Arith Lia Lra Bool.
From Verif Require Import Base Model_Mob Model_Reflect Spec_Reflect Spec_Translate.
Local Open Scope R_scope.

Definition lamb_jac (l a b c h : R) (g x : vec) (K : mat) : mat := fun i j =>
  a * K i j + b * (cross (fun p => K p j) x i + cross g (fun p => delta p j) i)
  + c * ((l + 3) / (2 * (l + 1) * (2 * l + 3)) * (2 * x j * g i + dot3 x x * K i j) - l / ((l + 1) * (2 * l + 3)) * (g j * x i + h * delta i j)).

Lemma d_const c0 : derivable_pt_lim (fun _ => c0) 0 0.
Proof. exact (derivable_pt_lim_const c0 0). Qed.
Lemma d_plus f f' a a' : derivable_pt_lim f 0 a -> derivable_pt_lim f' 0 a' -> derivable_pt_lim (fun s => f s + f' s) 0 (a + a').
Proof. intros A B. exact (derivable_pt_lim_plus f f' 0 a a' A B). Qed.
Lemma d_minus f f' a a' : derivable_pt_lim f 0 a -> derivable_pt_lim f' 0 a' -> derivable_pt_lim (fun s => f s - f' s) 0 (a - a').
Proof. intros A B. exact (derivable_pt_lim_minus f f' 0 a a' A B). Qed.
Lemma d_mult f f' a a' : derivable_pt_lim f 0 a -> derivable_pt_lim f' 0 a' -> derivable_pt_lim (fun s => f s * f' s) 0 (a * f' 0 + f 0 * a').
Proof. intros A B. exact (derivable_pt_lim_mult f f' 0 a a' A B). Qed.
Lemma d_scal c0 f a : derivable_pt_lim f 0 a -> derivable_pt_lim (fun s => c0 * f s) 0 (c0 * a).
Proof. intros A. exact (derivable_pt_lim_scal f c0 0 a A). Qed.
Lemma d_eq f a a' : a = a' -> derivable_pt_lim f 0 a -> derivable_pt_lim f 0 a'.
Proof. intros ->. trivial. Qed.
Lemma d_moved x j i : derivable_pt_lim (fun s => moved x j s i) 0 (delta i j).
Proof.
  unfold moved. apply d_eq with (0 + (1 * delta i j + 0 * 0)); [ring|]. apply d_plus; [apply d_const|].
  apply d_mult; [exact (derivable_pt_lim_id 0)|apply d_const].
Qed.
Lemma moved_0 x j i : moved x j 0 i = x i.
Proof. unfold moved. ring. Qed.
From Coq Require Import FunctionalExtensionality.
Lemma at_0 x j : moved x j 0 = x.
Proof. extensionality i. apply moved_0. Qed.

Lemma lamb_partial l a b c h g K x i j : (i < 3)%nat -> (j < 3)%nat ->
  partial h j x (g x j) -> (forall p, (p < 3)%nat -> partial (fun y => g y p) j x (K x p j)) ->
  partial (fun y => lamb l a b c (h y) (g y) y i) j x (lamb_jac l a b c (h x) (g x) x (K x) i j).
Proof.
  intros Hi Hj Ph Pg. unfold partial in *. pose proof (Pg 0%nat ltac:(lia)) as P0. pose proof (Pg 1%nat ltac:(lia)) as P1. pose proof (Pg 2%nat ltac:(lia)) as P2.
  pose proof (d_moved x j 0) as M0. pose proof (d_moved x j 1) as M1. pose proof (d_moved x j 2) as M2.
  set (H0 := fun s => h (moved x j s)) in *. set (X0 := fun s => moved x j s 0%nat) in *. set (X1 := fun s => moved x j s 1%nat) in *. set (X2 := fun s => moved x j s 2%nat) in *.
  set (G0 := fun s => g (moved x j s) 0%nat) in *. set (G1 := fun s => g (moved x j s) 1%nat) in *. set (G2 := fun s => g (moved x j s) 2%nat) in *.
  assert (EH : H0 0 = h x) by (unfold H0; rewrite at_0; reflexivity).
  assert (E0 : X0 0 = x 0%nat) by (unfold X0; rewrite at_0; reflexivity). assert (E1 : X1 0 = x 1%nat) by (unfold X1; rewrite at_0; reflexivity). assert (E2 : X2 0 = x 2%nat) by (unfold X2; rewrite at_0; reflexivity).
  assert (F0 : G0 0 = g x 0%nat) by (unfold G0; rewrite at_0; reflexivity). assert (F1 : G1 0 = g x 1%nat) by (unfold G1; rewrite at_0; reflexivity). assert (F2 : G2 0 = g x 2%nat) by (unfold G2; rewrite at_0; reflexivity).
  set (al := (l + 3) / (2 * (l + 1) * (2 * l + 3))). set (be := l / ((l + 1) * (2 * l + 3))).
  pose proof (d_plus _ _ _ _ (d_plus _ _ _ _ (d_mult _ _ _ _ M0 M0) (d_mult _ _ _ _ M1 M1)) (d_mult _ _ _ _ M2 M2)) as Q. cbn beta in Q.
  set (QQ := fun s => X0 s * X0 s + X1 s * X1 s + X2 s * X2 s) in *. assert (EQ : QQ 0 = dot3 x x) by (unfold QQ; rewrite E0, E1, E2; reflexivity).
  assert (Fin : forall (Gi Xi : R -> R) gi xi Gp Xp Gq Xq gp xp gq xq,
    derivable_pt_lim Gi 0 gi -> derivable_pt_lim Xi 0 xi -> derivable_pt_lim Gp 0 gp -> derivable_pt_lim Xp 0 xp -> derivable_pt_lim Gq 0 gq -> derivable_pt_lim Xq 0 xq ->
    derivable_pt_lim (fun s => a * Gi s + b * (Gp s * Xq s - Gq s * Xp s) + c * (al * QQ s * Gi s - be * H0 s * Xi s)) 0
      (a * gi + b * ((gp * Xq 0 + Gp 0 * xq) - (gq * Xp 0 + Gq 0 * xp)) + c * ((al * (delta 0 j * X0 0 + X0 0 * delta 0 j + (delta 1 j * X1 0 + X1 0 * delta 1 j) + (delta 2 j * X2 0 + X2 0 * delta 2 j)) * Gi 0 + al * QQ 0 * gi) - (be * g x j * Xi 0 + be * H0 0 * xi)))).
  { intros Gi Xi gi xi Gp Xp Gq Xq gp xp gq xq A1 A2 A3 A4 A5 A6.
    apply d_plus; [apply d_plus; [apply d_scal; exact A1|apply d_scal; apply d_minus; apply d_mult; assumption]|].
    apply d_scal. apply d_minus; [apply (d_mult (fun s => al * QQ s) Gi); [apply d_scal; exact Q|exact A1]|apply (d_mult (fun s => be * H0 s) Xi); [apply d_scal; exact Ph|exact A2]]. }
  destruct i as [|[|[|i]]]; [| | |lia].
  - apply d_eq with (2 := Fin G0 X0 _ _ G1 X1 G2 X2 _ _ _ _ P0 M0 P1 M1 P2 M2).
    rewrite EH, E0, E1, E2, F0, F1, F2, EQ. unfold lamb_jac. fold al be. destruct j as [|[|[|j]]]; [| | |lia]; unfold cross, v3, delta; cbn [Nat.eqb]; ring.
  - apply d_eq with (2 := Fin G1 X1 _ _ G2 X2 G0 X0 _ _ _ _ P1 M1 P2 M2 P0 M0).
    rewrite EH, E0, E1, E2, F0, F1, F2, EQ. unfold lamb_jac. fold al be. destruct j as [|[|[|j]]]; [| | |lia]; unfold cross, v3, delta; cbn [Nat.eqb]; ring.
  - apply d_eq with (2 := Fin G2 X2 _ _ G0 X0 G1 X1 _ _ _ _ P2 M2 P0 M0 P1 M1).
    rewrite EH, E0, E1, E2, F0, F1, F2, EQ. unfold lamb_jac. fold al be. destruct j as [|[|[|j]]]; [| | |lia]; unfold cross, v3, delta; cbn [Nat.eqb]; ring.
Qed.

Section At.
Context (l a b c h : R) (g x : vec) (K : mat) (L1 : l + 1 <> 0) (L2 : 2 * l + 3 <> 0).
Context (Sym : forall i j, (i < 3)%nat -> (j < 3)%nat -> K i j = K j i) (Tr : rsum 3 (fun i => K i i) = 0).
Context (Eh : dot3 g x = l * h) (Eg : forall i, (i < 3)%nat -> rsum 3 (fun j => K i j * x j) = (l - 1) * g i).
Lemma lamb_div : rsum 3 (fun i => lamb_jac l a b c h g x K i i) = 0.
Proof using L1 L2 Sym Tr Eh.
  unfold dot3 in Eh. cbn [rsum] in *. unfold lamb_jac, cross, dot3, delta, v3. cbn [Nat.eqb].
  rewrite (Sym 1%nat 0%nat), (Sym 2%nat 0%nat), (Sym 2%nat 1%nat) by lia.
  transitivity ((a + c * ((l + 3) / (2 * (l + 1) * (2 * l + 3))) * (x 0%nat * x 0%nat + x 1%nat * x 1%nat + x 2%nat * x 2%nat)) * (0 + K 0%nat 0%nat + K 1%nat 1%nat + K 2%nat 2%nat)
    + c * ((l + 3) / ((l + 1) * (2 * l + 3)) - l / ((l + 1) * (2 * l + 3))) * (g 0%nat * x 0%nat + g 1%nat * x 1%nat + g 2%nat * x 2%nat) - 3 * c * l / ((l + 1) * (2 * l + 3)) * h); [field; split; assumption|].
  rewrite Tr, Eh. field. split; assumption.
Qed.
Lemma lamb_curl i : (i < 3)%nat -> curl (lamb_jac l a b c h g x K) i = b * (l + 1) * g i - c / (l + 1) * cross g x i.
Proof using L1 L2 Sym Tr Eg.
  intros Hi. pose proof (Eg 0%nat ltac:(lia)) as e0. pose proof (Eg 1%nat ltac:(lia)) as e1. pose proof (Eg 2%nat ltac:(lia)) as e2. cbn [rsum] in *.
  rewrite (Sym 1%nat 0%nat) in e1 by lia. rewrite (Sym 2%nat 0%nat), (Sym 2%nat 1%nat) in e2 by lia.
  assert (K22 : K 2%nat 2%nat = - K 0%nat 0%nat - K 1%nat 1%nat) by lra. rewrite K22 in e2.
  destruct i as [|[|[|i]]]; [| | |lia]; unfold curl, lamb_jac, cross, dot3, delta, v3; cbn [Nat.eqb]; rewrite ?(Sym 1%nat 0%nat), ?(Sym 2%nat 0%nat), ?(Sym 2%nat 1%nat) by lia; rewrite ?K22.
  - transitivity (b * (0 + K 0%nat 0%nat * x 0%nat + K 0%nat 1%nat * x 1%nat + K 0%nat 2%nat * x 2%nat + 2 * g 0%nat) - c / (l + 1) * (g 1%nat * x 2%nat - g 2%nat * x 1%nat)); [field; split; assumption|]. rewrite e0. ring.
  - transitivity (b * (0 + K 0%nat 1%nat * x 0%nat + K 1%nat 1%nat * x 1%nat + K 1%nat 2%nat * x 2%nat + 2 * g 1%nat) - c / (l + 1) * (g 2%nat * x 0%nat - g 0%nat * x 2%nat)); [field; split; assumption|]. rewrite e1. ring.
  - transitivity (b * (0 + K 0%nat 2%nat * x 0%nat + K 1%nat 2%nat * x 1%nat + (- K 0%nat 0%nat - K 1%nat 1%nat) * x 2%nat + 2 * g 2%nat) - c / (l + 1) * (g 0%nat * x 1%nat - g 1%nat * x 0%nat)); [field; split; assumption|]. rewrite e2. ring.
Qed.
Lemma lamb_radial : dot3 x (lamb l a b c h g x) = a * l * h + c * (l / (2 * (2 * l + 3))) * dot3 x x * h.
Proof using L1 L2 Eh.
  unfold dot3 in *. unfold lamb, cross, dot3, v3.
  transitivity ((a + c * ((l + 3) / (2 * (l + 1) * (2 * l + 3))) * (x 0%nat * x 0%nat + x 1%nat * x 1%nat + x 2%nat * x 2%nat)) * (g 0%nat * x 0%nat + g 1%nat * x 1%nat + g 2%nat * x 2%nat)
    - c * (l / ((l + 1) * (2 * l + 3))) * h * (x 0%nat * x 0%nat + x 1%nat * x 1%nat + x 2%nat * x 2%nat)); [field; split; assumption|]. rewrite Eh. field. split; assumption.
Qed.
Lemma lamb_radial_curl : dot3 x (curl (lamb_jac l a b c h g x K)) = b * l * (l + 1) * h.
Proof using L1 L2 Sym Tr Eh Eg.
  assert (E : forall i, (i < 3)%nat -> curl (lamb_jac l a b c h g x K) i = b * (l + 1) * g i - c / (l + 1) * cross g x i) by apply lamb_curl.
  unfold dot3 in *. rewrite !E by lia. unfold cross, v3.
  transitivity (b * (l + 1) * (g 0%nat * x 0%nat + g 1%nat * x 1%nat + g 2%nat * x 2%nat)); [field; exact L1|]. rewrite Eh. ring.
Qed.
End At.
