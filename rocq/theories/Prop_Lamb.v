(** C74: reading Lamb's solution for two spheres. *)
From Coq Require Import Reals List ZArith Arith Bool Lra Lia.
From Verif Require Import Py Base Model_Pack Model_Mob Model_Step Model_Output Model_Repulsion Model_Setups Model_Inputs Model_Scalars Model_Table
  Spec_Scalars Spec_Layout Spec_Minf Spec_R2B Proof_R2B2 Proof_Scalars Proof_Table Proof_Table2 Model_Lamb Proof_Lamb Proof_Lamb2 Prop_Scalars Prop_Table.
Import ListNotations.
Local Open Scope R_scope.

(** The program solves, for spheres on the x axis, the mobility problem with the
    scalars [x] in each of its cases. *)
Definition solves (lamb : case -> nat -> R) (x : nat -> R) : Prop :=
  exists U O S, forall c, 
    mobility_law x (v3 1 0 0) (U c) (O c) (Ff c) (Tt c) (Ee c) (S c) /\
    (forall k, (k < 22)%nat -> lamb c k = short_output (U c) (O c) (S c) k).

Theorem C74_scalars lamb x : solves lamb x -> forall n, (n < 44)%nat -> find_dim_kim_mobility_scalars lamb n = x n.
Proof.
  intros (U & O & S & H) n Hn. apply (read_all lamb x U O S); [| |exact Hn].
  - intros c k _ Hk. exact (proj2 (H c) k Hk).
  - intros c _. exact (proj1 (H c)).
Qed.
Print Assumptions C74_scalars.

(** The whole way: scalars [x] of the spheres of radii 1 and lam, the [li]-th
    ratio, at the [si]-th separation; the table holds what the run-time formulae
    need to give the resistance of that pair, seen from the first sphere
    (ratio lam) and from the second one (ratio 1 / lam). *)
Theorem C74_table inv lamb sds lams x si lam :
  In lam lams -> 0 < lam ->
  solves (lamb (nth si sds 0) lam) x ->
  x 2%nat = x 1%nat -> x 6%nat = x 5%nat -> x 18%nat = x 17%nat ->
  is_inv 2 (m_xa x) (inv (m_xa x)) -> is_inv 2 (m_xc x) (inv (m_xc x)) -> is_inv 4 (m_yabc x) (inv (m_yabc x)) ->
  let entry l n gamma := general_entry lam_scales_r (fun m li => pair_table inv lamb sds lams m si li) lams l n gamma in
  exists X,
    (forall d U O F T E S, d 0%nat * d 0%nat + d 1%nat * d 1%nat + d 2%nat * d 2%nat = 1 -> (forall q, (q < 2)%nat -> strain (E q)) ->
       mobility_law x d U O F T E S -> resistance_law X d U O F T E S) /\
    (exists sc, (forall n gamma, entry lam n gamma = Ok (sc gamma n)) /\
       forall gamma d, (gamma < 2)%nat -> governs (sc gamma) 1 X d d 0 gamma) /\
    (~ In (1 / lam) lams ->
     exists sc, (forall n gamma, entry (1 / lam) n gamma = Ok (sc gamma n)) /\
       forall gamma d, (gamma < 2)%nat -> governs (sc gamma) lam X (vopp d) d 1 (1 - gamma)).
Proof.
  intros Hin Hl Hs Ha Hy Hc Ia Ic Iy entry.
  set (XX := convert_dim_kim_mobility_to_dim_resistance inv x).
  pose proof (C74_scalars _ _ Hs) as HR.
  assert (PT : forall m k, nth k lams 0 = lam -> pair_table inv lamb sds lams m si k = nondimensionalise_scalars XX resistance_scales m).
  { intros m k Hk. unfold pair_table. cbv zeta. rewrite Hk. rewrite (convert_ext inv x _ HR). reflexivity. }
  exists XX. split; [|split].
  - intros d U O F T E S Hd HE HM. exact (C43_resistance inv x d U O F T E S Ha Hy Hc Ia Ic Iy Hd HE HM).
  - destruct (C47_direct (fun m li => pair_table inv lamb sds lams m si li) lams lam Hin) as (k & Hk & Hn & H).
    exists (fun gamma n => nondimensionalise_scalars XX resistance_scales (4 * n + 2 * 0 + gamma)%nat). split.
    + intros n gamma. unfold entry. rewrite H. rewrite (PT _ k Hn). replace (4 * n + 2 * 0 + gamma)%nat with (4 * n + gamma)%nat by lia. reflexivity.
    + intros gamma d Hg. exact (scales_any XX 0 gamma d ltac:(lia) Hg).
  - intros Hno. destruct (C47_resistance (fun m li => pair_table inv lamb sds lams m si li) lams lam Hin ltac:(lra) Hno) as (k & y & Hk & Hn & H & Q).
    exists y. split; [exact H|]. intros gamma d Hg.
    apply (governs_via _ (fun n => nondimensionalise_scalars XX resistance_scales (4 * n + 2 * 1 + (1 - gamma))%nat) lam 1).
    + intros k1 k2 i j. pose proof (Q gamma k1 k2 d 1 i j) as Q1. rewrite Rmult_1_r in Q1. rewrite Q1.
      unfold two_body. rewrite !(PT _ k Hn).
      repeat match goal with |- context [(4 * ?n + 3 - gamma)%nat] => replace (4 * n + 3 - gamma)%nat with (4 * n + 2 * 1 + (1 - gamma))%nat by lia end.
      reflexivity.
    + exact (scales_any XX 1 (1 - gamma) d ltac:(lia) ltac:(lia)).
Qed.
Print Assumptions C74_table.

(** The numbers compared by the tests: velocities, angular velocities and
    stresslets in the order and the condensed form of the simulation. *)
Theorem C74_written out U O S : (forall k, (k < 22)%nat -> out k = short_output U O S k) ->
  forall p, (p < 2)%nat ->
    (forall i, (i < 3)%nat -> written out (3 * p + i)%nat = U p i /\ written out (6 + 3 * p + i)%nat = O p i) /\
    (forall m, (m < 5)%nat -> written out (12 + 5 * p + m)%nat = condense_idx (S p) m).
Proof.
  intros H p Hp. split.
  - intros i Hi. rewrite !(written_spec out U O S) by (assumption || lia).
    destruct p as [|[|p]]; [| |lia]; (destruct i as [|[|[|i]]]; [| | |lia]); split; reflexivity.
  - intros m Hm. rewrite !(written_spec out U O S) by (assumption || lia).
    destruct p as [|[|p]]; [| |lia]; do 5 (destruct m as [|m]; [unfold condense_idx, contraction, hs3p1, hs3m1, s2, s3; cbn [rsum new_order nth app Nat.add Nat.mul]; cbv zeta; field|]); lia.
Qed.
Print Assumptions C74_written.

Local Lemma two_on_axis a b c d : a = c -> b = d -> [v3 a 0 0; v3 b 0 0] = [v3 c 0 0; v3 d 0 0].
Proof. intros -> ->. reflexivity. Qed.

(** Each of the 88 rows is compared with the simulation of the same problem. *)
Theorem C74_rows :
  length problems = 88%nat /\
  forall i s r1 r2 c fr ts, nth_error problems i = Some (s, r1, r2, c) ->
  exists u x0, pos_setup_tests (setup_of_row i) = Ok u /\ u_ss u = [r1; r2] /\ u_ds u = [] /\
    u_sp u = [v3 x0 0 0; v3 (x0 + s) 0 0] /\
  exists inp fl, input_ftsuoe (input_of_row i) fte 2 0 (config_of u) fr ts = Ok (inp, fl) /\
    i_Fa inp = map (fun p => Some (map (Ff c p) [0; 1; 2]%nat)) [0; 1]%nat /\
    i_Ta inp = map (fun p => Some (map (Tt c p) [0; 1; 2]%nat)) [0; 1]%nat /\
    i_Ea inp = map (fun p => Some (map (fun k => map (Ee c p k) [0; 1; 2]%nat) [0; 1; 2]%nat)) [0; 1]%nat.
Proof.
  split; [reflexivity|]. intros i s r1 r2 c fr ts Hi.
  assert (Hl : (i < 88)%nat) by (apply (nth_error_Some problems i); rewrite Hi; discriminate).
  assert (D : i = (11 * (i / 11) + i mod 11)%nat) by (apply Nat.div_mod; lia).
  assert (Hm : (i mod 11 < 11)%nat) by (apply Nat.mod_upper_bound; lia).
  assert (Hd : (i / 11 < 8)%nat) by (apply Nat.div_lt_upper_bound; lia).
  assert (HI : exists inp fl, forall u, input_ftsuoe (input_of_row i) fte 2 0 (config_of u) fr ts = Ok (inp, fl) /\
    let c := nth (i mod 11) test_cases F11 in
    i_Fa inp = map (fun p => Some (map (Ff c p) [0; 1; 2]%nat)) [0; 1]%nat /\
    i_Ta inp = map (fun p => Some (map (Tt c p) [0; 1; 2]%nat)) [0; 1]%nat /\
    i_Ea inp = map (fun p => Some (map (fun k => map (Ee c p k) [0; 1; 2]%nat) [0; 1; 2]%nat)) [0; 1]%nat).
  { unfold input_of_row. generalize dependent (i mod 11)%nat. intros m _ Hm. clear - Hm.
    Local Ltac inp := do 2 eexists; intros u; split; [cbn; reflexivity|];
      cbn [i_Fa i_Ta i_Ea with_Fa with_Ta with_Ea nth test_cases map Ff Tt Ee]; unfold put, put3, no2, no3; cbn [Nat.eqb andb];
      replace (- (5 / 10)) with (- (1 / 2)) by field; repeat split; reflexivity.
    do 11 (destruct m as [|m]; [inp|]). lia. }
  destruct HI as (inp & fl & HI).
  assert (HC : exists u x0, pos_setup_tests (setup_of_row i) = Ok u /\ u_ss u = [r1; r2] /\ u_ds u = [] /\
    u_sp u = [v3 x0 0 0; v3 (x0 + s) 0 0] /\ c = nth (i mod 11) test_cases F11).
  { unfold setup_of_row. set (j := (i / 11)%nat) in *. set (m := (i mod 11)%nat) in *. clearbody j m. subst i.
    Local Ltac row x := eexists; exists x; cbn [pos_setup_tests Z.of_nat Z.sub Z.opp Z.add Z.pos_sub Pos.of_succ_nat Pos.succ Pos.add u_ss u_ds u_sp spheres_only];
      split; [reflexivity|]; cbn [u_ss u_ds u_sp spheres_only]; split; [reflexivity|]; split; [reflexivity|]; split; [|reflexivity]; apply two_on_axis; field.
    destruct j as [|j]; [|destruct j as [|j]; [|destruct j as [|j]; [|destruct j as [|j]; [|destruct j as [|j]; [|destruct j as [|j]; [|destruct j as [|j]; [|destruct j as [|j]; [|lia]]]]]]]];
    do 11 (destruct m as [|m]; [cbn [nth_error problems flat_map map r_range s_dash_range test_cases app fst snd Nat.add Nat.mul] in Hi; injection Hi as <- <- <- <-; first [row 0|row (- (21 / 10) / 2)]|]); lia. }
  destruct HC as (u & x0 & H1 & H2 & H3 & H4 & ->). exists u, x0. repeat (split; [assumption|]).
  exists inp, fl. destruct (HI u) as [A B]. split; [exact A|exact B].
Qed.
Print Assumptions C74_rows.

(** Every family of scalars is solved by some program: the law itself. *)
Definition lawful (x : nat -> R) (c : case) : nat -> R :=
  let d := v3 1 0 0 in
  short_output
    (fun p i => rsum 2 (fun q => rsum 3 (fun j => tA x d p q i j * Ff c q j) + rsum 3 (fun j => tB x d q p j i * Tt c q j)
                              - rsum 3 (fun j => rsum 3 (fun k => tG x d q p j k i * Ee c q j k))))
    (fun p i => rsum 2 (fun q => rsum 3 (fun j => tB x d p q i j * Ff c q j) + rsum 3 (fun j => tC x d p q i j * Tt c q j)
                              - rsum 3 (fun j => rsum 3 (fun k => tH x d q p j k i * Ee c q j k))))
    (fun p i j => rsum 2 (fun q => rsum 3 (fun k => tG x d p q i j k * Ff c q k) + rsum 3 (fun k => tH x d p q i j k * Tt c q k)
                                + rsum 3 (fun k => rsum 3 (fun l => tM x d p q i j k l * Ee c q k l)))).
Lemma lawful_solves x : solves (lawful x) x.
Proof.
  do 3 eexists. intros c. split; [|intros k _; reflexivity].
  split; [|split]; intros; cbv beta; reflexivity.
Qed.

(** Scalars meeting every hypothesis of [C74_table], with radii 1 and 1/2 in a
    table of two ratios; a program that exchanges the two velocities is read
    differently. *)
Example C74_example :
  solves (lawful C43_x) C43_x /\ In (1 / 2) [1; 1 / 2] /\ ~ In (1 / (1 / 2)) [1; 1 / 2] /\
  C43_x 2%nat = C43_x 1%nat /\ C43_x 6%nat = C43_x 5%nat /\ C43_x 18%nat = C43_x 17%nat /\
  is_inv 2 (m_xa C43_x) (C43_inv (m_xa C43_x)) /\ is_inv 2 (m_xc C43_x) (C43_inv (m_xc C43_x)) /\
  is_inv 4 (m_yabc C43_x) (C43_inv (m_yabc C43_x)) /\
  find_dim_kim_mobility_scalars (lawful C43_x) 1%nat = C43_x 1%nat /\ C43_x 1%nat <> C43_x 0%nat.
Proof.
  destruct C43_example as (A & B & C & D & E & F & _).
  split; [apply lawful_solves|]. split; [right; left; reflexivity|].
  split; [intros [H|[H|[]]]; lra|]. repeat (split; [assumption|]).
  split; [apply C74_scalars; [apply lawful_solves|lia]|]. unfold C43_x. cbn [nth]. lra.
Qed.
(** The first row of the file: equal spheres 2.1 apart, a force on the first. *)
Example C74_first_row : nth_error problems 0 = Some (5 / 10 * (1 + 1) * (21 / 10), 1, 1, F11) /\
  nth_error problems 87 = Some (5 / 10 * (1 / 10 + 1 / 10) * (39 / 10), 1 / 10, 1 / 10, E4).
Proof. split; reflexivity. Qed.
