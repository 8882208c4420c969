(** Which far-field inverse is in use. *)
From Coq Require Import Reals List Arith Bool Lia Lra.
From Verif Require Import Base Py Model_Mob Model_Close Model_Step Model_Frame Spec_Frame Proof_Close Proof_Frame.
Import ListNotations.
Local Open Scope R_scope.

Section Far.
Variable inv : mat -> mat.
Variables Ns Nd : nat.
Variable far : config -> R -> mat.
Variable rest : config -> R -> velocities -> mat -> res solution.
Variable g : settings.
Notation frame rst := (generate_frame inv Ns Nd far rst g).
Notation frames := (run_frames inv Ns Nd far rest g).

Lemma regen_spec f regen : regenerate_now g f = Ok regen ->
  (0 < g_invert_every g)%nat /\ (regen = true <-> inversion_due (g_start g) (g_invert_every g) f).
Proof.
  unfold regenerate_now. intros H. binv H. injection H as <-. apply divides_spec in E. destruct E as [H0 H1].
  split; [exact H0|]. rewrite orb_true_iff, H1, Nat.eqb_eq. reflexivity.
Qed.

(** Only the matrix [M] is handed to the solver. *)
Definition fixed_far (M : mat) : config -> R -> velocities -> mat -> res solution := fun p t v _ => rest p t v M.

Lemma step_fixed f regen p err minv vel :
  (g_scheme g <> rk4 \/ g_rk4_each g = false \/ regen = false) -> g_use_drag g = false ->
  step inv Ns Nd far (fixed_far (if regen then far p (INR f) else minv)) g f regen p err minv vel =
  step inv Ns Nd far rest g f regen p err minv vel.
Proof.
  intros Hs Hd. unfold step. destruct (g_scheme g).
  - unfold step_euler_ab2, gen, fixed_far. rewrite Hd. simpl orb. reflexivity.
  - unfold step_euler_ab2, gen, fixed_far. rewrite Hd. simpl orb. reflexivity.
  - assert (E : (if g_rk4_each g then regen else false) = false).
    { destruct (g_rk4_each g); [|reflexivity]. destruct Hs as [Hs|[Hs|Hs]]; [congruence|congruence|exact Hs]. }
    unfold step_rk4. cbv zeta. rewrite E. unfold gen, fixed_far. rewrite Hd. simpl orb.
    set (M := if regen then far p (INR f) else minv).
    destruct (rest p (INR f) vel M) as [s|]; reflexivity.
  - reflexivity.
Qed.

Lemma far_schedule st0 n st st' :
  g_use_drag g = false ->
  frames st0 (seq (g_start g) n) = Ok st -> s_error st = false ->
  frame rest st (g_start g + n)%nat = Ok st' ->
  exists h sth, latest_due (g_start g) (g_invert_every g) (g_start g + n) h /\
    frames st0 (seq (g_start g) (h - g_start g)) = Ok sth /\ s_error sth = false /\
    s_minv st' = far (s_pos sth) (INR h) /\
    (g_scheme g <> rk4 \/ g_rk4_each g = false \/ ~ inversion_due (g_start g) (g_invert_every g) (g_start g + n) ->
     frame (fixed_far (far (s_pos sth) (INR h))) st (g_start g + n)%nat = Ok st').
Proof.
  intros Hd. revert st st'. induction n as [|n IH]; intros st st' Hr He Hf.
  - destruct (frame_inv _ _ _ _ _ _ _ _ _ He Hf) as (regen & r & R1 & R2 & R3 & R4 & R5 & R6 & R7 & R8 & R9).
    destruct (regen_spec _ _ R1) as [Hpos Hregen].
    assert (regen = true) by (apply Hregen; right; lia). subst regen.
    exists (g_start g), st. rewrite Nat.sub_diag, Nat.add_0_r in *. split; [|split; [|split; [|split]]].
    + split; [lia|]. split; [right; reflexivity|]. intros; lia.
    + exact Hr.
    + exact He.
    + rewrite R5, (step_minv _ _ _ _ _ _ _ _ _ _ _ _ _ R2), Hd. reflexivity.
    + intros Hs.
      assert (Hs' : g_scheme g <> rk4 \/ g_rk4_each g = false \/ true = false).
      { destruct Hs as [?|[?|Hs]]; auto. exfalso. apply Hs. right. reflexivity. }
      rewrite <- (step_fixed _ true _ _ _ _ Hs' Hd) in R2.
      rewrite (frame_intro _ _ _ _ _ _ _ _ _ _ _ _ _ He R1 R2 R7 R8 R9). destruct st'; cbn in *; subst; reflexivity.
  - destruct (frame_inv _ _ _ _ _ _ _ _ _ He Hf) as (regen & r & R1 & R2 & R3 & R4 & R5 & R6 & R7 & R8 & R9).
    destruct (regen_spec _ _ R1) as [Hpos Hregen].
    destruct regen.
    + exists (g_start g + S n)%nat, st. replace (g_start g + S n - g_start g)%nat with (S n) by lia.
      split; [|split; [|split; [|split]]].
      * split; [lia|]. split; [apply Hregen; reflexivity|]. intros; lia.
      * exact Hr.
      * exact He.
      * rewrite R5, (step_minv _ _ _ _ _ _ _ _ _ _ _ _ _ R2), Hd. reflexivity.
      * intros Hs.
        assert (Hs' : g_scheme g <> rk4 \/ g_rk4_each g = false \/ true = false).
        { destruct Hs as [?|[?|Hs]]; auto. exfalso. apply Hs. apply Hregen. reflexivity. }
        rewrite <- (step_fixed _ true _ _ _ _ Hs' Hd) in R2.
        rewrite (frame_intro _ _ _ _ _ _ _ _ _ _ _ _ _ He R1 R2 R7 R8 R9). destruct st'; cbn in *; subst; reflexivity.
    + destruct (frames_snoc _ _ _ _ _ _ _ _ _ _ Hr) as (st1 & Hr1 & Hf1).
      assert (He1 : s_error st1 = false).
      { destruct (s_error st1) eqn:E1; [|reflexivity]. rewrite latch in Hf1 by exact E1. congruence. }
      destruct (IH st1 st Hr1 He1 Hf1) as (h & sth & (L1 & L2 & L3) & Hh & Heh & Hm & _).
      assert (Hnd : ~ inversion_due (g_start g) (g_invert_every g) (g_start g + S n)).
      { intros Hdue. apply Hregen in Hdue. discriminate. }
      exists h, sth. split; [|split; [|split; [|split]]]; auto.
      * split; [lia|]. split; [exact L2|]. intros h' Hh'.
        destruct (Nat.eq_dec h' (g_start g + S n)) as [-> |Hne]; [exact Hnd|]. apply L3. lia.
      * rewrite R5, (step_minv _ _ _ _ _ _ _ _ _ _ _ _ _ R2), Hd. exact Hm.
      * intros _. rewrite <- (step_fixed _ false _ _ _ _ (or_intror (or_intror eq_refl)) Hd) in R2.
        rewrite <- Hm.
        rewrite (frame_intro _ _ _ _ _ _ _ _ _ _ _ _ _ He R1 R2 R7 R8 R9). destruct st'; cbn in *; subst; reflexivity.
Qed.

Lemma far_drag st f st' : g_use_drag g = true -> s_error st = false ->
  frame rest st f = Ok st' -> s_minv st' = far (s_pos st) (INR f).
Proof.
  intros Hd He Hf.
  destruct (frame_inv _ _ _ _ _ _ _ _ _ He Hf) as (regen & r & R1 & R2 & R3 & R4 & R5 & R6 & R7 & R8 & R9).
  rewrite R5, (step_minv _ _ _ _ _ _ _ _ _ _ _ _ _ R2), Hd. reflexivity.
Qed.

(** The latest due frame is unique and computable. *)
Lemma latest_due_unique start every f h h' : latest_due start every f h -> latest_due start every f h' -> h = h'.
Proof.
  intros (A & B & C) (A' & B' & C').
  destruct (Nat.lt_trichotomy h h') as [L|[E|L]]; [|exact E|].
  - exfalso. apply (C h'); [lia|exact B'].
  - exfalso. apply (C' h); [lia|exact B].
Qed.
End Far.
