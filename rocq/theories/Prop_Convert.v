(** Properties C21-C24: the form conversions solve the same linear problem. *)
From Coq Require Import Reals List Arith Bool Lra Lia.
From Verif Require Import Base Py Model_Convert Spec_Convert Proof_Ppt Proof_Convert Proof_Diag.
Import ListNotations.
Local Open Scope R_scope.

(** C21 *)
Theorem C21_fts_to_fte :
  forall (inv : nat -> mat -> mat) (Ns Nd : nat) (M : mat),
    let N := (11 * Ns + 6 * Nd)%nat in
    (0 < Ns)%nat -> msym N M ->
    inv_ok inv (5 * Ns) (slice M (6 * Ns) (6 * Ns)) ->
    exists M', fts_to_fte_matrix inv Ns Nd M = Ok M' /\
      same_problem N (strain_set Ns) M M' /\
      sign_symmetric N (strain_set Ns) M'.
Proof. exact fts_to_fte_correct. Qed.
Print Assumptions C21_fts_to_fte.

(** C21: the call fails when there are no spheres. *)
Theorem C21_no_spheres_raises :
  forall inv Nd M, fts_to_fte_matrix inv 0 Nd M = Raise UnboundLocalError.
Proof. exact fts_to_fte_no_spheres. Qed.
Print Assumptions C21_no_spheres_raises.

(** C22 *)
Theorem C22_fte_to_ufte :
  forall (inv : nat -> mat -> mat) (nfix Ns Nd : nat) (M : mat),
    let N := (11 * Ns + 6 * Nd)%nat in
    (0 < Ns)%nat -> (nfix <= Ns)%nat ->
    sign_symmetric N (strain_set Ns) M ->
    inv_ok inv (3 * nfix) (slice M 0 0) ->
    exists M', fte_to_ufte_matrix inv nfix Ns Nd M = Ok M' /\
      same_problem N (fixed_spheres_set nfix) M M' /\
      sign_symmetric N (union_set (strain_set Ns) (fixed_spheres_set nfix)) M'.
Proof. exact fte_to_ufte_correct. Qed.
Print Assumptions C22_fte_to_ufte.

(** C21 and C22 composed: from the symmetric resistance matrix to ufte form. *)
Theorem C22_fts_to_ufte :
  forall (inv : nat -> mat -> mat) (nfix Ns Nd : nat) (R0 : mat),
    let N := (11 * Ns + 6 * Nd)%nat in
    (0 < Ns)%nat -> (nfix <= Ns)%nat -> msym N R0 ->
    inv_ok inv (5 * Ns) (slice R0 (6 * Ns) (6 * Ns)) ->
    exists Rfte, fts_to_fte_matrix inv Ns Nd R0 = Ok Rfte /\
      (inv_ok inv (3 * nfix) (slice Rfte 0 0) ->
       exists Rufte, fte_to_ufte_matrix inv nfix Ns Nd Rfte = Ok Rufte /\
         same_problem N (union_set (strain_set Ns) (fixed_spheres_set nfix)) R0 Rufte /\
         sign_symmetric N (union_set (strain_set Ns) (fixed_spheres_set nfix)) Rufte).
Proof. exact chain_ufte. Qed.
Print Assumptions C22_fts_to_ufte.

(** C23 *)
Theorem C23_ufte_to_ufteu :
  forall (inv : nat -> mat -> mat) (nfixd nfix Ns Nd : nat) (M : mat),
    let N := (11 * Ns + 6 * Nd)%nat in
    (nfix <= Ns)%nat -> (nfixd <= Nd)%nat ->
    sign_symmetric N (union_set (strain_set Ns) (fixed_spheres_set nfix)) M ->
    inv_ok inv (3 * nfixd) (slice M (11 * Ns) (11 * Ns)) ->
    inv_ok inv (3 * nfixd)
      (slice (ufte_to_ufteu_step1 inv nfixd nfix Ns Nd M) (11 * Ns + 3 * Nd) (11 * Ns + 3 * Nd)) ->
    same_problem N (fixed_dumbbells_set nfixd Ns Nd) M (ufte_to_ufteu_matrix inv nfixd nfix Ns Nd M).
Proof. exact ufte_to_ufteu_correct. Qed.
Print Assumptions C23_ufte_to_ufteu.

(** C21-C23 composed. *)
Theorem C23_fts_to_ufteu :
  forall inv nfixd nfix Ns Nd R0 Rfte Rufte,
    let N := (11 * Ns + 6 * Nd)%nat in
    (0 < Ns)%nat -> (nfix <= Ns)%nat -> (nfixd <= Nd)%nat -> msym N R0 ->
    inv_ok inv (5 * Ns) (slice R0 (6 * Ns) (6 * Ns)) ->
    fts_to_fte_matrix inv Ns Nd R0 = Ok Rfte ->
    inv_ok inv (3 * nfix) (slice Rfte 0 0) ->
    fte_to_ufte_matrix inv nfix Ns Nd Rfte = Ok Rufte ->
    inv_ok inv (3 * nfixd) (slice Rufte (11 * Ns) (11 * Ns)) ->
    inv_ok inv (3 * nfixd)
      (slice (ufte_to_ufteu_step1 inv nfixd nfix Ns Nd Rufte) (11 * Ns + 3 * Nd) (11 * Ns + 3 * Nd)) ->
    same_problem N
      (union_set (union_set (strain_set Ns) (fixed_spheres_set nfix)) (fixed_dumbbells_set nfixd Ns Nd))
      R0 (ufte_to_ufteu_matrix inv nfixd nfix Ns Nd Rufte).
Proof. exact chain_ufteu. Qed.
Print Assumptions C23_fts_to_ufteu.

(** C24 *)
Theorem C24_fts_to_duf :
  forall (inv : nat -> mat -> mat) (nfixd Nd : nat), (nfixd <= Nd)%nat ->
  forall M : mat,
    msym (6 * Nd) M -> inv_ok inv (3 * nfixd) (slice M 0 0) ->
    inv_ok inv (3 * nfixd) (slice (fts_to_duf_step1 inv nfixd Nd M) (3 * Nd) (3 * Nd)) ->
    same_problem (6 * Nd) (fixed_dumbbells_set nfixd 0 Nd) M (fts_to_duf_matrix inv nfixd Nd M).
Proof. exact fts_to_duf_correct. Qed.
Print Assumptions C24_fts_to_duf.

(** A concrete case: one sphere, one dumbbell, all of them with prescribed
    velocity; 2 on the diagonal, and a force-strain coupling 1 and a
    force-dumbbell coupling 1 off it.  [dinv] inverts diagonal matrices; every
    block that the chain inverts is diagonal here. *)
Definition exR : mat := fun i j =>
  if Nat.eqb i j then 2
  else if (Nat.eqb i 0 && Nat.eqb j 6 || Nat.eqb i 6 && Nat.eqb j 0)%bool then 1
  else if (Nat.eqb i 1 && Nat.eqb j 12 || Nat.eqb i 12 && Nat.eqb j 1)%bool then 1
  else 0.

Example C23_example :
  msym 17 exR /\ inv_ok dinv 5 (slice exR 6 6) /\
  exists Rfte Rufte,
    fts_to_fte_matrix dinv 1 1 exR = Ok Rfte /\ inv_ok dinv 3 (slice Rfte 0 0) /\
    Rfte 0%nat 0%nat = 3 / 2 /\
    fte_to_ufte_matrix dinv 1 1 1 Rfte = Ok Rufte /\ inv_ok dinv 3 (slice Rufte 11 11) /\
    inv_ok dinv 3 (slice (ufte_to_ufteu_step1 dinv 1 1 1 1 Rufte) 14 14).
Proof.
  assert (Hs : msym 17 exR).
  { intros i j Hi Hj. unfold exR. rewrite (Nat.eqb_sym j i).
    destruct (Nat.eqb i j); [reflexivity|].
    do 2 (rewrite (andb_comm (Nat.eqb j _)), (andb_comm (Nat.eqb j _)), orb_comm). 
    repeat match goal with |- context [if ?b then _ else _] => destruct b eqn:? end; try reflexivity;
    repeat (rewrite ?orb_true_iff, ?orb_false_iff, ?andb_true_iff, ?andb_false_iff, ?Nat.eqb_eq, ?Nat.eqb_neq in *); lia. }
  assert (Hi1 : inv_ok dinv 5 (slice exR 6 6)).
  { apply dinv_ok.
    - intros i j Hi Hj Hij. idx5 Hi; idx5 Hj; try (exfalso; apply Hij; reflexivity); reflexivity.
    - intros i Hi. idx5 Hi; unfold slice, exR; simpl; lra. }
  split; [exact Hs|]. split; [exact Hi1|].
  destruct (fts_to_fte_is_ppt dinv 1 1 exR ltac:(lia) Hs Hi1) as [Rfte [E1 P1]].
  change (11 * 1 + 6 * 1)%nat with 17%nat in P1. cbn [Nat.mul Nat.add] in P1.
  exists Rfte.
  assert (Hv : forall i j, (i < 17)%nat -> (j < 17)%nat -> Rfte i j =
    if (Nat.eqb i 0 && Nat.eqb j 0)%bool then 3/2
    else if (Nat.eqb i 0 && Nat.eqb j 6)%bool then 1/2
    else if (Nat.eqb i 6 && Nat.eqb j 0)%bool then -1/2
    else if (Nat.eqb i j && inb 6 11 i)%bool then 1/2 else exR i j).
  { intros i j Hi Hj. rewrite P1 by assumption.
    do 17 (destruct i as [|i]; [clear Hi;
      do 17 (destruct j as [|j]; [unfold ppt, dinv, slice, exR; simpl; field|]); lia|]); lia. }
  assert (Hsg : sign_symmetric 17 (strain_set 1) Rfte).
  { destruct (fts_to_fte_correct dinv 1 1 exR ltac:(lia) Hs Hi1) as [R1 [E1' [_ S1]]].
    rewrite E1 in E1'. injection E1' as <-. exact S1. }
  assert (Hi2 : inv_ok dinv 3 (slice Rfte 0 0)).
  { apply dinv_ok.
    - intros i j Hi Hj Hij. unfold slice. rewrite Hv by lia.
      idx3 Hi; idx3 Hj; try (exfalso; apply Hij; reflexivity); reflexivity.
    - intros i Hi. unfold slice. rewrite Hv by lia. idx3 Hi; unfold exR; simpl; lra. }
  destruct (fte_to_ufte_is_ppt dinv 1 1 1 Rfte ltac:(lia) ltac:(lia) Hsg Hi2) as [Rufte [E2 P2]].
  change (11 * 1 + 6 * 1)%nat with 17%nat in P2. cbn [Nat.mul Nat.add] in P2.
  exists Rufte.
  assert (Hw : forall i j, (11 <= i < 17)%nat -> (11 <= j < 17)%nat -> Rufte i j =
    if (Nat.eqb i 12 && Nat.eqb j 12)%bool then 3/2
    else exR i j).
  { intros i j Hi Hj. rewrite P2 by lia.
    unfold ppt.
    assert (Ei : inb 0 3 i = false) by (apply inb_false; lia).
    assert (Ej : inb 0 3 j = false) by (apply inb_false; lia).
    rewrite Ei, Ej. cbn [rsum Nat.sub Nat.add].
    unfold dinv, slice. cbn [Nat.add Nat.eqb].
    rewrite !Hv by lia. clear Ei Ej.
    do 11 (destruct i as [|i]; [lia|]). do 11 (destruct j as [|j]; [lia|]).
    do 6 (destruct i as [|i]; [clear Hi;
      do 6 (destruct j as [|j]; [unfold exR, inb; simpl; field|]); lia|]); lia. }
  assert (Hi3 : inv_ok dinv 3 (slice Rufte 11 11)).
  { apply dinv_ok.
    - intros i j Hi Hj Hij. unfold slice. rewrite Hw by lia.
      idx3 Hi; idx3 Hj; try (exfalso; apply Hij; reflexivity); reflexivity.
    - intros i Hi. unfold slice. rewrite Hw by lia. idx3 Hi; unfold exR; simpl; lra. }
  split; [exact E1|]. split; [exact Hi2|]. split; [rewrite Hv by lia; simpl; reflexivity|].
  split; [exact E2|]. split; [exact Hi3|].
  assert (Hsu : sign_symmetric 17 (union_set (strain_set 1) (fixed_spheres_set 1)) Rufte).
  { destruct (fte_to_ufte_correct dinv 1 1 1 Rfte ltac:(lia) ltac:(lia) Hsg Hi2) as [R1 [E1' [_ S1]]].
    rewrite E2 in E1'. injection E1' as <-. exact S1. }
  assert (Hx : forall i j, (14 <= i < 17)%nat -> (14 <= j < 17)%nat ->
     ufte_to_ufteu_step1 dinv 1 1 1 1 Rufte i j = exR i j).
  { intros i j Hi Hj.
    rewrite (ufteu_step1_is_ppt dinv 1 1 1 1 Rufte ltac:(lia) ltac:(lia) Hsu Hi3) by lia.
    unfold ppt.
    assert (Ei : inb (11 * 1) (11 * 1 + 3 * 1) i = false) by (apply inb_false; lia).
    assert (Ej : inb (11 * 1) (11 * 1 + 3 * 1) j = false) by (apply inb_false; lia).
    rewrite Ei, Ej. cbn [rsum Nat.sub Nat.add Nat.mul].
    unfold dinv, slice. cbn [Nat.add Nat.eqb].
    rewrite !Hw by lia. clear Ei Ej.
    do 14 (destruct i as [|i]; [lia|]). do 14 (destruct j as [|j]; [lia|]).
    do 3 (destruct i as [|i]; [clear Hi;
      do 3 (destruct j as [|j]; [unfold exR, inb; simpl; field|]); lia|]); lia. }
  apply dinv_ok.
  - intros i j Hi Hj Hij. unfold slice. rewrite Hx by lia.
    idx3 Hi; idx3 Hj; try (exfalso; apply Hij; reflexivity); reflexivity.
  - intros i Hi. unfold slice. rewrite Hx by lia. idx3 Hi; unfold exR; simpl; lra.
Qed.

Example C24_example :
  msym 6 (fun i j => if Nat.eqb i j then 2 else 0) /\
  inv_ok dinv 3 (slice (fun i j => if Nat.eqb i j then 2 else 0) 0 0).
Proof.
  split.
  - intros i j _ _. rewrite Nat.eqb_sym. reflexivity.
  - apply dinv_ok; unfold slice; cbn [Nat.add].
    + intros i j Hi Hj Hij. apply Nat.eqb_neq in Hij. rewrite Hij. reflexivity.
    + intros i Hi. rewrite Nat.eqb_refl. lra.
Qed.
