(** C92: particles that are not crowded: the code's far-field mobility is
    positive definite, two spheres always move, falling pairs and suspensions. *)
From Coq Require Import Reals List Arith ZArith Bool Lia Lra.
From Verif Require Import Base Py Model_Pack Model_Mob Model_Layout Model_Minf Model_Grand Model_Close Model_R2B Model_GrandP Model_Step
  Model_Output Model_Frame Model_Inputs Model_Sim Spec_Pack Spec_Layout Spec_Minf Spec_Convert Spec_Output Spec_Step Spec_Frame Spec_Posdef Spec_Run Spec_Run4
  Spec_Turn Spec_Turn4 Spec_Renumber Spec_Work Spec_Pair Spec_Two
  Proof_Layout Proof_Minf Proof_Minf3 Proof_Minf4 Proof_MinfP8 Proof_Posdef Proof_Posdef2 Proof_Frame Proof_Run Proof_Run2 Spec_Runs Proof_Runs2 Proof_Runs3 Prop_Runs Prop_Run
  Prop_Turn Proof_Work3 Prop_Pair Proof_Two4 Proof_Two5 Proof_Two6.
From Verif Require Proof_Step Prop_Minf.
Import ListNotations.
Local Open Scope R_scope.

(** For all numbers of spheres and dumbbells with room (positive radii, beads
    further than 1e-8 from each other, for no bead the influences of the others
    add up to more than 1): the far-field mobility matrix of the code is
    symmetric and positive definite, hence invertible, with a positive definite
    inverse. *)
Theorem C92_far_field bb p mu :
  let nb := (num_spheres p + 2 * num_dumbbells p)%nat in
  let n := (11 * num_spheres p + 6 * num_dumbbells p)%nat in
  0 < mu -> roomy nb (bead_positions p) (bead_sizes p) ->
  msym n (generate_Minfinity bb p mu) /\ pos_def n (generate_Minfinity bb p mu) /\
  exists mi, is_inv n (generate_Minfinity bb p mu) mi /\ msym n mi /\ pos_def n mi.
Proof.
  intros nb n Hmu (Ha & Hx & HU). pose proof (uncrowded_far bb p mu Hmu Ha Hx HU) as HP.
  assert (Hs : msym n (generate_Minfinity bb p mu)) by (apply (gen_sym bb p mu)).
  split; [exact Hs|]. split; [exact HP|]. destruct (pos_def_invertible n _ HP) as [mi HI]. exists mi. split; [exact HI|].
  split; [exact (is_inv_sym n _ mi Hs HI)|exact (pos_def_inv n _ mi HP HI)].
Qed.
Print Assumptions C92_far_field.

(** Spheres with room: whatever forces, torques and stresslets act on them, the
    power spent is between one tenth of and 1.9 times what it would be if each
    were alone in the fluid. *)
Theorem C92_power bb p mu v : num_dumbbells p = 0%nat ->
  let Ns := num_spheres p in
  0 < mu -> roomy Ns (bead_positions p) (bead_sizes p) ->
  let power := rsum (11 * Ns) (fun r => v r * mvec (11 * Ns) (generate_Minfinity bb p mu) v r) in
  let alone := lone_power Ns (bead_sizes p) mu v in
  1 / 10 * alone <= power <= 19 / 10 * alone.
Proof.
  intros H0 Ns Hmu (Ha & Hx & HU) power alone. pose proof (spheres_power bb p mu v H0 Hmu Ha Hx HU) as H. apply Rabs_between in H.
  unfold power, alone, Ns. lra.
Qed.
Print Assumptions C92_power.

(** The same of forces and torques on spheres moving without strain (forms fte
    and ufte), whose stresslets are not given. *)
Theorem C92_driven bb p mu w u : num_dumbbells p = 0%nat ->
  let Ns := num_spheres p in
  0 < mu -> roomy Ns (bead_positions p) (bead_sizes p) ->
  linrel (11 * Ns) (generate_Minfinity bb p mu) w u ->
  (forall r, (6 * Ns <= r < 11 * Ns)%nat -> u r = 0) ->
  let alone := lone_power Ns (bead_sizes p) mu (fun r => if Nat.ltb r (6 * Ns) then w r else 0) in
  1 / 10 * alone <= rsum (11 * Ns) (fun r => w r * u r) <= 19 / 10 * alone.
Proof. exact (driven_power bb p mu w u). Qed.
Print Assumptions C92_driven.

(** Who has room: any two spheres, of any sizes, overlapping or not; and [n]
    beads of radii up to [A] at mutual distances of 2 (n - 1) A or more. *)
Theorem C92_room :
  (forall x a, 0 < a 0%nat -> 0 < a 1%nat -> / 10 ^ 8 < norm (vsub (x 0%nat) (x 1%nat)) -> roomy 2 x a) /\
  (forall n x a A, (0 < n)%nat -> (forall b, (b < n)%nat -> 0 < a b <= A) ->
     (forall b b', (b < n)%nat -> (b' < n)%nat -> b <> b' -> / 10 ^ 8 < norm (vsub (x b) (x b')) /\ 2 * (INR n - 1) * A <= norm (vsub (x b) (x b'))) ->
     roomy n x a).
Proof.
  split.
  - intros x a A0 A1 D. split; [|split; [|apply two_uncrowded; assumption]].
    + intros b Hb. destruct b as [|[|b]]; [exact A0|exact A1|lia].
    + intros b b' Hb Hb' Ne. assert (C : (b = 0 /\ b' = 1)%nat \/ (b = 1 /\ b' = 0)%nat) by lia. destruct C as [[-> ->]|[-> ->]]; [exact D|].
      replace (norm (vsub (x 1%nat) (x 0%nat))) with (norm (vsub (x 0%nat) (x 1%nat))); [exact D|]. unfold norm, vsub. f_equal. ring.
  - intros n x a A Hn Ha Hx. split; [intros b Hb; apply Ha, Hb|]. split; [intros b b' Hb Hb' Ne; apply Hx; assumption|].
    apply (spaced_uncrowded n x a A Hn Ha). intros b b' Hb Hb' Ne. apply Hx; assumption.
Qed.
Print Assumptions C92_room.

(** Finding: the distance must exceed 1e-8.  Two unit spheres with centres
    closer than that (and further than 1e-10) are not taken for touching, but
    at their true distance, and the matrix is indefinite: equal forces along
    the line of centres move the spheres against them. *)
Theorem C92_close_pair_refuted bb s mu : 0 < mu -> tiny < s <= / 10 ^ 8 ->
  let p := mkPos 2 0 (fun _ => 1) (fun i => match i with O => v3 s 0 0 | _ => v3 0 0 0 end) (fun _ => 1) (fun _ => v3 0 0 0) (fun _ => v3 0 0 0) in
  norm (vsub (sphere_positions p 0%nat) (sphere_positions p 1%nat)) = s /\
  let v := fun r => delta 0 r + delta 3 r in
  mvec 22 (generate_Minfinity bb p mu) v 0%nat < 0 /\ mvec 22 (generate_Minfinity bb p mu) v 3%nat < 0 /\
  ~ pos_def 22 (generate_Minfinity bb p mu).
Proof.
  intros Hmu [Ht Hs] p. assert (T0 : 0 < tiny) by (unfold tiny; apply Rinv_0_lt_compat, pow_lt; lra).
  assert (NX : norm (vsub (v3 s 0 0) (v3 0 0 0)) = s) by (apply Prop_Minf.norm_x; lra).
  split; [exact NX|]. intros v. set (M := generate_Minfinity bb p mu).
  pose proof PI_RGT_0 as HPI. set (c := 1 / (8 * PI * mu)).
  assert (HP : 0 < 8 * PI * mu) by (apply Rmult_lt_0_compat; [apply Rmult_lt_0_compat|]; lra).
  assert (Hc : 0 < c) by (apply Rdiv_lt_0_compat; lra).
  assert (P8 : / 10 ^ 8 < 1 / 2) by (replace (1 / 2) with (/ 2) by lra; apply Rinv_lt_contravar; simpl; lra).
  assert (S1 : forall b, (b < 2)%nat -> M (3 * b)%nat (3 * b)%nat = 4 / 3 * c).
  { intros b Hb. pose proof (sphere_ent bb p mu KU b KU b 0 0 Hb Hb ltac:(discriminate) ltac:(discriminate) ltac:(cbn; lia) ltac:(cbn; lia)) as E.
    cbn [kstart] in E. rewrite Nat.add_0_r in E. unfold M. rewrite E. unfold minf_loop. rewrite loop_self by (cbn; lia).
    unfold bead_sizes, self_value, p, c, delta. cbn [num_spheres num_dumbbells sphere_sizes].
    replace (Nat.ltb b 2) with true by (symmetry; apply Nat.ltb_lt; exact Hb). cbn [Nat.eqb]. field. lra. }
  assert (X : M 0%nat 3%nat = c * ((2 * (s * s) - 4 / 3) / (s * s * s))).
  { pose proof (sphere_ent bb p mu KU 0 KU 1 0 0 ltac:(cbn; lia) ltac:(cbn; lia) ltac:(discriminate) ltac:(discriminate) ltac:(cbn; lia) ltac:(cbn; lia)) as E.
    cbn [kstart] in E. change (3 * 0 + 0)%nat with 0%nat in E. change (3 * 1 + 0)%nat with 3%nat in E. unfold M. rewrite E. unfold minf_loop.
    rewrite loop_pair; [|cbn; lia|cbn; lia|cbn; lia|cbn; lia|discriminate| |].
    - unfold bead_mobility, bead_positions, bead_sizes, p. cbn [num_spheres num_dumbbells sphere_positions sphere_sizes Nat.ltb Nat.leb pmob].
      unfold pair_geometry. rewrite NX. destruct (Rlt_dec (/ 10 ^ 8) s) as [C|_]; [lra|]. cbn [fst snd].
      unfold pmob, M11. destruct (Rlt_dec tiny s) as [_|]; [|contradiction].
      unfold J, Lap_J, vsub, v3, delta, c. cbn [Nat.eqb pow]. destruct bb; cbn; field; lra.
    - unfold bead_sizes, p. cbn. lra.
    - unfold bead_positions, p. cbn [num_spheres num_dumbbells sphere_positions Nat.ltb Nat.leb]. rewrite NX. exact Ht. }
  assert (SY : M 3%nat 0%nat = M 0%nat 3%nat) by (apply (gen_sym bb p mu); cbn; lia).
  assert (NEG : 4 / 3 * c + c * ((2 * (s * s) - 4 / 3) / (s * s * s)) < 0).
  { assert (Q : s * s < 1 / 2 * (1 / 2)) by (apply Rmult_le_0_lt_compat; lra). assert (Q0 : 0 < s * s) by (apply Rmult_lt_0_compat; lra).
    assert (Q3 : 0 < s * s * s) by (apply Rmult_lt_0_compat; lra).
    assert (Q4 : s * s * s < 1 / 2 * (1 / 2) * 1) by (apply Rmult_le_0_lt_compat; lra).
    replace (4 / 3 * c + c * ((2 * (s * s) - 4 / 3) / (s * s * s))) with (c * ((4 / 3 * (s * s * s) + 2 * (s * s) - 4 / 3) / (s * s * s))) by (field; lra).
    apply Rmult_lt_reg_l with (/ c); [apply Rinv_0_lt_compat, Hc|]. rewrite Rmult_0_r, <- Rmult_assoc, Rinv_l, Rmult_1_l by lra.
    apply Rmult_lt_reg_r with (s * s * s); [exact Q3|]. unfold Rdiv. rewrite Rmult_assoc, Rinv_l, Rmult_0_l by lra. lra. }
  assert (MV : forall r, mvec 22 M v r = M r 0%nat + M r 3%nat).
  { intros r. unfold mvec, v. rewrite (rsum_ext 22 _ (fun j => delta 0 j * M r j + delta 3 j * M r j)) by (intros; ring).
    rewrite rsum_plus. rewrite (rsum_delta_l 22 0 (fun j => M r j)) by lia. rewrite (rsum_delta_l 22 3 (fun j => M r j)) by lia. reflexivity. }
  pose proof (S1 0%nat ltac:(lia)) as D0. pose proof (S1 1%nat ltac:(lia)) as D1. cbn [Nat.mul Nat.add] in D0, D1.
  assert (V0 : mvec 22 M v 0%nat < 0) by (rewrite MV, D0, X; exact NEG).
  assert (V3 : mvec 22 M v 3%nat < 0) by (rewrite MV, SY, D1, X; lra).
  split; [exact V0|]. split; [exact V3|]. intros C.
  pose proof (pos_def_quad 22 M v C) as Q. assert (K : 0 < rsum 22 (fun i => v i * mvec 22 M v i)).
  { apply Q. exists 0%nat. split; [lia|]. unfold v, delta. cbn. lra. }
  rewrite (rsum_ext 22 _ (fun j => delta 0 j * mvec 22 M v j + delta 3 j * mvec 22 M v j)) in K by (intros; unfold v; ring).
  rewrite rsum_plus, (rsum_delta_l 22 0 (fun j => mvec 22 M v j)), (rsum_delta_l 22 3 (fun j => mvec 22 M v j)) in K by lia. lra.
Qed.
Print Assumptions C92_close_pair_refuted.

(** Far-field runs that stay in configurations with room solve the equations
    in every frame; nothing is assumed of matrices. *)
Theorem C92_run :
  forall inv inv3 solve sc table h stale Ns Nd fm bb cutoff_factor g input p0 s fs,
    let frames := run_frames inv3 Ns Nd (far_inverse inv h stale Ns Nd bb g input)
      (solve_rest inv inv3 solve sc table h stale Ns Nd fm false bb true cutoff_factor g input) g (fresh p0) in
    inverts_posdef inv -> solves_posdef solve -> (0 < Ns)%nat ->
    g_use_drag g = false -> g_start g = 0%nat -> g_scheme g = euler \/ g_scheme g = ab2 -> g_explosion g = false \/ Nd = 0%nat ->
    (0 < g_save_pos g)%nat -> (0 < g_save_forces g)%nat ->
    (g_save_after g mod g_save_pos g = 0)%nat -> (g_save_after g mod g_save_forces g = 0)%nat ->
    (forall p t i f, input p t = Ok (i, f) -> well_posed Ns Nd fm i /\ 0 < f_mu f /\ unbounded f) ->
    (forall m st, (m < g_num_frames g)%nat -> frames (seq 0 m) = Ok st ->
       roomy (Ns + 2 * Nd) (bead_positions (posdata_of Ns Nd (s_pos st))) (bead_sizes (posdata_of Ns Nd (s_pos st)))) ->
    full_simulation inv inv3 solve sc table h stale Ns Nd fm false bb true cutoff_factor g input p0 = Ok (Some (s, fs)) ->
    correct_output inv3 sc table h stale Ns Nd fm bb true cutoff_factor g input p0 s fs.
Proof.
  intros inv inv3 solve sc table h stale Ns Nd fm bb cf g input p0 s fs frames Hi Hs HN Hd H0 Hsch He S1 S2 S3 S4 Hw HR E.
  destruct (roomy_posed inv inv3 solve sc table h stale Ns Nd fm bb cf g input p0 He Hd Hw) as (Q1 & Q2 & Q3 & Q4 & _).
  { intros m p Hm (st & Es & <-). exact (HR m st Hm Es). }
  exact (C65_run inv inv3 solve sc table h stale Ns Nd fm bb true cf g input p0 s fs Hi Hs HN H0 Hsch S1 S2 S3 S4 Q1 Q2 Q3 Q4 E).
Qed.
Print Assumptions C92_run.

(** Spheres falling under gravity (input 1), far field only, Euler steps: as
    long as they have room, the sum of their heights drops in every frame by
    between one tenth of and 1.9 times what it would if each fell alone. *)
Theorem C92_fall :
  forall inv inv3 solve sc table h stale Ns fm bb cutoff_factor g dt p0 s fs,
    let N := g_num_frames g in
    let input := fun p t => input_ftsuoe 1 fm Ns 0 p t dt in
    let frames := run_frames inv3 Ns 0 (far_inverse inv h stale Ns 0 bb g input)
      (solve_rest inv inv3 solve sc table h stale Ns 0 fm false bb true cutoff_factor g input) g (fresh p0) in
    let alone := lone_fall Ns (c_ssizes p0) * g_dt g in
    inverts_posdef inv -> solves_posdef solve -> (0 < Ns)%nat -> fm = fte \/ fm = ufte ->
    g_use_drag g = false -> g_start g = 0%nat -> no_box_g g -> 0 <= g_dt g -> g_scheme g = euler ->
    (0 < g_save_pos g)%nat -> (0 < g_save_forces g)%nat ->
    (g_save_after g mod g_save_pos g = 0)%nat -> (g_save_after g mod g_save_forces g = 0)%nat ->
    (forall m st, (m < N)%nat -> frames (seq 0 m) = Ok st ->
       roomy Ns (bead_positions (posdata_of Ns 0 (s_pos st))) (bead_sizes (posdata_of Ns 0 (s_pos st)))) ->
    full_simulation inv inv3 solve sc table h stale Ns 0 fm false bb true cutoff_factor g input p0 = Ok (Some (s, fs)) ->
    exists pos : nat -> snapshot,
      (forall j l, (j < Ns)%nat -> (l < 3)%nat -> n_pos (pos 0%nat) j l = c_spos p0 j l) /\
      (forall m, (m < N)%nat -> 1 / 10 * alone <= heights Ns (pos m) - heights Ns (pos (S m)) <= 19 / 10 * alone) /\
      s = map pos (due_frames (g_save_pos g) (g_save_after g) N) ++ (if save_due (g_save_pos g) (g_save_after g) (N - 1) then [pos N] else []).
Proof.
  intros inv inv3 solve sc table h stale Ns fm bb cf g dt p0 s fs N input frames alone Hi Hs HN Hfm Hd H0 Hb Hdt Hsch S1 S2 S3 S4 HR E.
  destruct (roomy_fall inv inv3 solve sc table h stale Ns fm bb cf g dt p0 Hi Hs HN Hfm Hd H0 Hb Hdt S1 S2 S3 S4 s fs E) as (pos & A & B & C).
  - intros m p Hm (st & Es & <-). replace (Ns + 2 * 0)%nat with Ns by lia. exact (HR m st Hm Es).
  - left. exact Hsch.
  - exists pos. split; [intros j l; apply (A 0%nat j l eq_refl)|]. split; [|exact C].
    intros m Hm. pose proof (B m Hm (or_introl Hsch)). unfold alone. lra.
Qed.
Print Assumptions C92_fall.

(** Two equal spheres falling under gravity, far field only, any scheme: with
    usable settings the run completes, and the spheres move along a straight
    line at a constant velocity, at any distance above 1e-8, even overlapping. *)
Lemma gravity_alike fm dt : fm = fte \/ fm = ufte -> pulled_alike fm 1 [0; 0; - (1)] (fun p t => input_ftsuoe 1 fm 2 0 p t dt).
Proof.
  intros Hfm p t i f EI. pose proof (gravity_forced 2 0 fm Hfm p t dt i f EI) as FO.
  pose proof (gravity_flow 2 0 fm p t dt i f EI) as EF. pose proof (gravity_inputs 2 0 fm p t dt i f EI) as IG.
  split; [exact FO|]. rewrite EF, IG. split; [intros k Hk; reflexivity|]. split; [reflexivity|]. split; [reflexivity|].
  destruct Hfm as [-> | ->]; [left; reflexivity|right; split; reflexivity].
Qed.
Lemma gravity_posed fm dt : fm = fte \/ fm = ufte -> forall p t i f, input_ftsuoe 1 fm 2 0 p t dt = Ok (i, f) -> well_posed 2 0 fm i.
Proof. intros Hfm p t i f EI. exact (proj1 (gravity_well 2 fm dt ltac:(lia) Hfm p t i f EI)). Qed.
Theorem C92_falling_pair :
  forall inv inv3 solve sc table h stale fm bb cutoff_factor g dt p0,
    let N := g_num_frames g in
    let input := fun p t => input_ftsuoe 1 fm 2 0 p t dt in
    0 < cutoff_factor -> inverts_posdef inv -> solves_posdef solve -> solves_shape solve -> fm = fte \/ fm = ufte ->
    usable g 0 -> g_use_drag g = false -> no_box_g g ->
    c_ssizes p0 0%nat = c_ssizes p0 1%nat -> 0 < c_ssizes p0 0%nat -> / 10 ^ 8 < norm (vsub (c_spos p0 1%nat) (c_spos p0 0%nat)) ->
    exists s fs, full_simulation inv inv3 solve sc table h stale 2 0 fm false bb true cutoff_factor g input p0 = Ok (Some (s, fs)) /\
      exists (U : vec) (S : mat) (pos : nat -> snapshot) (frc : nat -> fsnapshot),
        (forall m, (m <= N)%nat -> carried p0 U (INR m * g_dt g) (pos m)) /\
        (forall m, (m < N)%nat -> opposite_stresslets S (frc m)) /\
        s = map pos (due_frames (g_save_pos g) 0 N) ++ (if save_due (g_save_pos g) 0 (N - 1) then [pos N] else []) /\
        fs = map frc (due_frames (g_save_forces g) 0 N).
Proof.
  intros inv inv3 solve sc table h stale fm bb cf g dt p0 N input Hcf Hi Hs Hsh Hfm HU Hd Hb Hsz Ha Hx.
  pose proof HU as (SC & U1 & U2 & U3 & U4 & U5 & U6 & U7).
  destruct (C62_complete inv inv3 solve sc table h stale 2 0 fm false bb true cf g input p0 (map (c_ssizes p0) (seq 0 2)) Hsh) as (s & fs & E & _).
  { intros i Hi'. apply in_map, in_seq. lia. }
  { intros i Hi'. lia. }
  { left. reflexivity. }
  { reflexivity. }
  { intros p t _ _. destruct (given_inputs 1 fm 2 0 p t dt ltac:(lia)) as (i & f & E & C & _).
    - unfold workable. cbn [Nat.eqb]. destruct Hfm as [-> | ->]; [left; discriminate|left; reflexivity].
    - exists i, f. split; [exact E|]. split; [exact C|]. left. rewrite (gravity_flow 2 0 fm p t dt i f E). exact free_default. }
  { exact HU. }
  exists s, fs. split; [exact E|].
  assert (M0 : forall e, (0 < e)%nat -> (g_save_after g mod e = 0)%nat) by (intros e He; rewrite U7; apply Nat.mod_0_l; lia).
  pose proof (C88_pair inv inv3 solve sc table h stale fm bb true cf g input 1 [0; 0; - (1)] p0 s fs Hcf Hi Hs U2 Hb U5 U6 (M0 _ U5) (M0 _ U6) (gravity_alike fm dt Hfm) Hsz) as K. cbv zeta in K. rewrite U7 in K. apply K; [|exact E]. clear K.
  apply (pair_posed inv inv3 solve sc table h stale fm bb true cf input p0 1 [0; 0; - (1)]); try assumption; try lra.
  - exact (gravity_alike fm dt Hfm).
  - exact (gravity_posed fm dt Hfm).
  - tauto.
Qed.
Print Assumptions C92_falling_pair.

(** Configurations met by such a run: always with room. *)
Lemma pair_rooms inv inv3 solve sc table h stale fm bb cf g dt p0 :
  let input := fun p t => input_ftsuoe 1 fm 2 0 p t dt in
  0 < cf -> inverts_posdef inv -> solves_posdef solve -> fm = fte \/ fm = ufte ->
  g_start g = 0%nat -> g_scheme g = euler \/ g_scheme g = ab2 \/ g_scheme g = rk4 -> g_use_drag g = false -> no_box_g g ->
  c_ssizes p0 0%nat = c_ssizes p0 1%nat -> 0 < c_ssizes p0 0%nat -> / 10 ^ 8 < norm (vsub (c_spos p0 1%nat) (c_spos p0 0%nat)) ->
  forall m st, run_frames inv3 2 0 (far_inverse inv h stale 2 0 bb g input)
      (solve_rest inv inv3 solve sc table h stale 2 0 fm false bb true cf g input) g (fresh p0) (seq 0 m) = Ok st ->
    roomy 2 (bead_positions (posdata_of 2 0 (s_pos st))) (bead_sizes (posdata_of 2 0 (s_pos st))).
Proof.
  intros input Hcf Hi Hs Hfm H0 Hsch Hd Hb Hsz Ha Hx m st E.
  pose proof (always_paired inv inv3 solve sc table h stale fm bb true cf input p0 1 [0; 0; - (1)] Hcf Hi Hs (gravity_alike fm dt Hfm) Hsz ltac:(lra) Ha Hx (or_introl eq_refl)
    (gravity_posed fm dt Hfm) g Hd H0 Hb Hsch m st E) as P.
  pose proof (paired_sizes p0 Hsz Ha (s_pos st) P) as Z. split; [exact Z|]. split; [exact (paired_apart p0 Hx (s_pos st) P)|].
  apply two_uncrowded; apply Z; lia.
Qed.

(** The velocity at which the pair falls is between one tenth of and 1.9 times
    that of one of the spheres alone. *)
Theorem C92_pair_speed :
  forall inv inv3 solve sc table h stale fm bb cutoff_factor g dt p0,
    let N := g_num_frames g in
    let input := fun p t => input_ftsuoe 1 fm 2 0 p t dt in
    let a := c_ssizes p0 0%nat in
    0 < cutoff_factor -> inverts_posdef inv -> solves_posdef solve -> solves_shape solve -> fm = fte \/ fm = ufte ->
    usable g 0 -> g_scheme g <> rk4 -> g_use_drag g = false -> no_box_g g -> 0 < g_dt g -> g_save_pos g = 1%nat ->
    c_ssizes p0 0%nat = c_ssizes p0 1%nat -> 0 < a -> / 10 ^ 8 < norm (vsub (c_spos p0 1%nat) (c_spos p0 0%nat)) ->
    exists s fs, full_simulation inv inv3 solve sc table h stale 2 0 fm false bb true cutoff_factor g input p0 = Ok (Some (s, fs)) /\
      exists (U : vec) (pos : nat -> snapshot),
        (forall m, (m <= N)%nat -> carried p0 U (INR m * g_dt g) (pos m)) /\ s = map pos (seq 0 (S N)) /\
        1 / 10 * (1 / (6 * PI * a)) <= - U 2%nat <= 19 / 10 * (1 / (6 * PI * a)).
Proof.
  intros inv inv3 solve sc table h stale fm bb cf g dt p0 N input a Hcf Hi Hs Hsh Hfm HU Hr Hd Hb Hdt HS Hsz Ha Hx.
  pose proof HU as (SC & U1 & U2 & U3 & U4 & U5 & U6 & U7).
  assert (Hsch : g_scheme g = euler \/ g_scheme g = ab2) by (destruct SC as [C|[C|[C _]]]; [left; exact C|contradiction|right; exact C]).
  destruct (C92_falling_pair inv inv3 solve sc table h stale fm bb cf g dt p0 Hcf Hi Hs Hsh Hfm HU Hd Hb Hsz Ha Hx) as (s & fs & E & U & S & pos & frc & A & _ & B & _).
  exists s, fs. split; [exact E|]. exists U, pos. split; [exact A|].
  assert (ALL : forall (q : nat -> snapshot), map q (due_frames 1 0 N) ++ (if save_due 1 0 (N - 1) then [q N] else []) = map q (seq 0 (Datatypes.S N))).
  { intros q. rewrite due_every. unfold save_due. rewrite Nat.mod_1_r. cbn [Nat.eqb Nat.leb andb]. rewrite seq_S, map_app. reflexivity. }
  fold N in B. rewrite HS, ALL in B. split; [exact B|].
  assert (M0 : forall e, (0 < e)%nat -> (g_save_after g mod e = 0)%nat) by (intros e He; rewrite U7; apply Nat.mod_0_l; lia).
  destruct (roomy_fall inv inv3 solve sc table h stale 2 fm bb cf g dt p0 Hi Hs ltac:(lia) Hfm Hd U2 Hb (Rlt_le _ _ Hdt) U5 U6 (M0 _ U5) (M0 _ U6) s fs E)
    as (pos' & _ & B' & C'); [|exact Hsch|].
  { intros m p Hm (st & Es & <-). apply (pair_rooms inv inv3 solve sc table h stale fm bb cf g dt p0 Hcf Hi Hs Hfm U2 ltac:(tauto) Hd Hb Hsz Ha Hx m st Es). }
  rewrite HS, U7 in C'. fold N in C'. rewrite ALL in C'.
  assert (EQ : forall m, (m <= N)%nat -> pos' m = pos m).
  { intros m Hm. assert (K : nth_error (map pos' (seq 0 (Datatypes.S N))) m = nth_error (map pos (seq 0 (Datatypes.S N))) m) by congruence.
    rewrite !nth_error_map in K. rewrite (nth_error_nth' (seq 0 (Datatypes.S N)) 0%nat) in K by (rewrite seq_length; lia).
    rewrite seq_nth in K by lia. cbn in K. congruence. }
  assert (HN : (0 < N)%nat) by exact U1.
  pose proof (B' 0%nat HN (or_intror eq_refl)) as D. rewrite !EQ in D by (fold N; lia).
  unfold heights, rsum, lone_fall in D. cbn [rsum] in D. rewrite !(A 0%nat) in D by (fold N; lia). rewrite !(A 1%nat) in D by (fold N; lia). cbn [INR] in D. rewrite <- Hsz in D.
  fold a in D. set (x := 1 / (6 * PI * a)) in *.
  assert (K1 : g_dt g * (1 / 10 * x) <= g_dt g * - U 2%nat) by lra. assert (K2 : g_dt g * - U 2%nat <= g_dt g * (19 / 10 * x)) by lra.
  split; [apply (Rmult_le_reg_l (g_dt g)); assumption|apply (Rmult_le_reg_l (g_dt g)); assumption].
Qed.
Print Assumptions C92_pair_speed.

(** Instances.  Three unit spheres in a row; two spheres of radii 1 and 100 half
    inside each other; two spheres at a distance of 5e-9. *)
Definition three_in_row : posdata :=
  mkPos 3 0 (fun _ => 1) (fun j => v3 (5 * INR j) 0 0) (fun _ => 1) (fun _ => v3 0 0 0) (fun _ => v3 0 0 0).
Example C92_row_example bb : exists mi, is_inv 33 (generate_Minfinity bb three_in_row 1) mi /\ msym 33 mi /\ pos_def 33 mi.
Proof.
  apply (C92_far_field bb three_in_row 1 ltac:(lra)). apply (proj2 C92_room 3%nat _ _ 1); [lia| |].
  - intros b Hb. unfold bead_sizes, three_in_row. cbn [num_spheres num_dumbbells sphere_sizes]. destruct b as [|[|[|b]]]; cbn; lra || lia.
  - intros b b' Hb Hb' Ne.
    assert (K : 5 <= norm (vsub (bead_positions three_in_row b) (bead_positions three_in_row b'))).
    { apply Rle_trans with (2 := comp_norm _ 0%nat ltac:(lia)). unfold bead_positions, three_in_row.
      destruct b as [|[|[|b]]], b' as [|[|[|b']]]; try lia; unfold vsub, v3; cbn; unfold Rabs; destruct (Rcase_abs _); lra. }
    split; [|cbn; lra]. apply Rlt_le_trans with (2 := K). apply Rlt_trans with 1; [|lra]. rewrite <- Rinv_1. apply Rinv_lt_contravar; cbn; lra.
Qed.
Example C92_two_example bb : exists mi,
  is_inv 22 (generate_Minfinity bb (mkPos 2 0 (fun j => if Nat.eqb j 0 then 1 else 100) (fun j => v3 0 0 (99 * INR j)) (fun _ => 1) (fun _ => v3 0 0 0) (fun _ => v3 0 0 0)) 1) mi /\
  msym 22 mi /\ pos_def 22 mi.
Proof.
  set (p := mkPos _ _ _ _ _ _ _). apply (C92_far_field bb p 1 ltac:(lra)). apply (proj1 C92_room).
  - cbn. lra.
  - cbn. lra.
  - apply Rlt_le_trans with (2 := comp_norm _ 2%nat ltac:(lia)). unfold bead_positions, p, vsub, v3. cbn.
    apply Rlt_trans with 1; [rewrite <- Rinv_1; apply Rinv_lt_contravar; lra|]. unfold Rabs. destruct (Rcase_abs _); lra.
Qed.
Example C92_close_example : tiny < / (2 * 10 ^ 8) <= / 10 ^ 8.
Proof. unfold tiny. split; [apply Rinv_lt_contravar; cbn; lra|apply Rinv_le_contravar; cbn; lra]. Qed.
(** Two overlapping unit spheres, one above the other, with the settings the
    repository comes with but without near field: any number of frames. *)
Definition overlapping_pair : config :=
  mkConfig (fun _ => 1) (fun j => v3 0 0 (INR j)) (fun j k => v3 1 0 (INR j)) (fun _ => 1) (fun _ => v3 0 0 0) (fun _ => v3 0 0 0).
Example C92_pair_example sc dt num_frames : 0 < dt -> (0 < num_frames)%nat ->
  exists s fs, full_simulation pinv Proof_Step.inv3 psolve sc [] 0 (fun _ _ => 0) 2 0 fte false true true 2
      (shipped_settings dt num_frames (v3 0 0 0) (v3 0 0 0)) (fun p t => input_ftsuoe 1 fte 2 0 p t dt) overlapping_pair = Ok (Some (s, fs)) /\
    exists (U : vec) (pos : nat -> snapshot),
      (forall m, (m <= num_frames)%nat -> carried overlapping_pair U (INR m * dt) (pos m)) /\ s = map pos (seq 0 (S num_frames)) /\
      1 / 10 * (1 / (6 * PI * 1)) <= - U 2%nat <= 19 / 10 * (1 / (6 * PI * 1)).
Proof.
  intros Hdt HN.
  assert (SH : solves_shape psolve) by (intros n A b _; unfold psolve; rewrite map_length, seq_length; reflexivity).
  apply (C92_pair_speed pinv Proof_Step.inv3 psolve sc [] 0 (fun _ _ => 0) fte true 2 (shipped_settings dt num_frames (v3 0 0 0) (v3 0 0 0)) dt overlapping_pair);
    try assumption; try reflexivity; try lra.
  - exact pinv_ok.
  - exact psolve_ok.
  - left. reflexivity.
  - repeat split; cbn; auto; lia.
  - discriminate.
  - intros l Hl. reflexivity.
  - cbn. lra.
  - apply Rlt_le_trans with (2 := comp_norm _ 2%nat ltac:(lia)). unfold overlapping_pair, vsub, v3. cbn.
    apply Rlt_trans with (/ 2); [apply Rinv_lt_contravar; lra|]. unfold Rabs. destruct (Rcase_abs _); lra.
Qed.
(** The same run meets the conditions of C92_run and C92_fall. *)
Example C92_run_example sc dt num_frames : 0 < dt -> (0 < num_frames)%nat ->
  let g := shipped_settings dt num_frames (v3 0 0 0) (v3 0 0 0) in
  let input := fun p t => input_ftsuoe 1 fte 2 0 p t dt in
  exists s fs, full_simulation pinv Proof_Step.inv3 psolve sc [] 0 (fun _ _ => 0) 2 0 fte false true true 2 g input overlapping_pair = Ok (Some (s, fs)) /\
    correct_output Proof_Step.inv3 sc [] 0 (fun _ _ => 0) 2 0 fte true true 2 g input overlapping_pair s fs /\
    exists pos : nat -> snapshot,
      (forall m, (m < num_frames)%nat -> 1 / 10 * (lone_fall 2 (fun _ => 1) * dt) <= heights 2 (pos m) - heights 2 (pos (S m)) <= 19 / 10 * (lone_fall 2 (fun _ => 1) * dt)) /\
      s = map pos (due_frames 1 0 num_frames) ++ [pos num_frames].
Proof.
  intros Hdt HN g input. destruct (C92_pair_example sc dt num_frames Hdt HN) as (s & fs & E & _). exists s, fs. split; [exact E|].
  assert (HR : forall m st, (m < g_num_frames g)%nat ->
    run_frames Proof_Step.inv3 2 0 (far_inverse pinv 0 (fun _ _ => 0) 2 0 true g input)
      (solve_rest pinv Proof_Step.inv3 psolve sc [] 0 (fun _ _ => 0) 2 0 fte false true true 2 g input) g (fresh overlapping_pair) (seq 0 m) = Ok st ->
    roomy 2 (bead_positions (posdata_of 2 0 (s_pos st))) (bead_sizes (posdata_of 2 0 (s_pos st)))).
  { intros m st _. apply (pair_rooms pinv Proof_Step.inv3 psolve sc [] 0 (fun _ _ => 0) fte true 2 g dt overlapping_pair); try reflexivity; try lra.
    - exact pinv_ok.
    - exact psolve_ok.
    - left. reflexivity.
    - left. reflexivity.
    - intros l Hl. reflexivity.
    - cbn. lra.
    - apply Rlt_le_trans with (2 := comp_norm _ 2%nat ltac:(lia)). unfold overlapping_pair, vsub, v3. cbn.
      apply Rlt_trans with (/ 2); [apply Rinv_lt_contravar; lra|]. unfold Rabs. destruct (Rcase_abs _); lra. }
  split.
  - apply (C92_run pinv Proof_Step.inv3 psolve sc [] 0 (fun _ _ => 0) 2 0 fte true 2 g input overlapping_pair s fs); try assumption; try reflexivity; try (cbn; lia); try exact pinv_ok; try exact psolve_ok; try (left; reflexivity); try (right; reflexivity).
    intros p t i f EI. exact (gravity_well 2 fte dt ltac:(lia) (or_introl eq_refl) p t i f EI).
  - destruct (C92_fall pinv Proof_Step.inv3 psolve sc [] 0 (fun _ _ => 0) 2 fte true 2 g dt overlapping_pair s fs) as (pos & _ & A & B); try assumption; try reflexivity; try (cbn; lia); try exact pinv_ok; try exact psolve_ok;
      try (left; reflexivity); try (cbn; lra).
    + intros l Hl. reflexivity.
    + exists pos. split; [exact A|]. rewrite B. cbn [g_save_pos g_save_after g_num_frames g shipped_settings]. unfold save_due. rewrite Nat.mod_1_r. reflexivity.
Qed.
