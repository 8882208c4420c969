(** The frame loop: inversion of frames, error latch, far-field schedule. *)
From Coq Require Import Reals List Arith Bool Lia Lra.
From Verif Require Import Base Py Model_Mob Model_Close Model_Step Model_Frame Spec_Frame Proof_Close.
Import ListNotations.
Local Open Scope R_scope.

Lemma bind_inv {A B} (x : res A) (f : A -> res B) y : bind x f = Ok y -> exists a, x = Ok a /\ f a = Ok y.
Proof. destruct x; simpl; intros H; [exists a; auto|discriminate]. Qed.
Ltac binv H := let a := fresh "a" in let E := fresh "E" in
  apply bind_inv in H; destruct H as (a & E & H).

Ltac dpair := repeat match goal with x : (_ * _)%type |- _ => destruct x end.

Lemma divides_spec b a d : divides b a = Ok d -> (0 < b)%nat /\ (d = true <-> exists q, a = (q * b)%nat).
Proof.
  unfold divides. destruct b as [|b]; [discriminate|]. intros H. injection H as <-. split; [lia|].
  rewrite Nat.eqb_eq. split.
  - intros E. change (a mod S b = 0)%nat in E. exists (a / S b)%nat. pose proof (Nat.div_mod a (S b) ltac:(lia)) as D. rewrite E, Nat.add_0_r in D. rewrite Nat.mul_comm. exact D.
  - intros (q & ->). change ((q * S b) mod S b = 0)%nat. apply Nat.mod_mul. lia.
Qed.

Section Loop.
Variable inv : mat -> mat.
Variables Ns Nd : nat.
Variable far : config -> R -> mat.
Variable rest : config -> R -> velocities -> mat -> res solution.
Variable g : settings.
Notation frame := (generate_frame inv Ns Nd far rest g).
Notation frames := (run_frames inv Ns Nd far rest g).

Definition step (f : nat) (regen : bool) (p : config) (err : bool) (minv : mat) (vel : velocities) : res stepped :=
  match g_scheme g with
  | euler | ab2 => step_euler_ab2 inv Ns Nd far rest g f regen p err minv vel
  | rk4 => step_rk4 inv Ns Nd far rest g f regen p err minv vel
  | other_scheme => Raise SystemExit
  end.
Definition vel_at (st : state) (f : nat) : velocities :=
  if (Nat.eqb f 0 || Nat.eqb f (g_start g))%bool then zero_vel else s_vel st.

Lemma frame_inv st f st' : s_error st = false -> frame st f = Ok st' ->
  exists regen r, regenerate_now g f = Ok regen /\
    step f regen (s_pos st) false (if regen then no_matrix else s_minv st) (vel_at st f) = Ok r /\
    s_pos st' = t_pos r /\ s_error st' = t_error r /\ s_minv st' = t_minv r /\ s_vel st' = t_vel r /\
    save_positions Ns g f (s_pos st) (t_pos r) (s_saved st) = Ok (s_saved st') /\
    save_forces g f (t_forces r) (s_fsaved st) = Ok (s_fsaved st') /\
    backup g f (s_saved st') (s_fsaved st') (s_tempfile st) = Ok (s_tempfile st').
Proof.
  intros He H. unfold generate_frame in H. rewrite He in H.
  binv H. binv H. binv H. binv H. binv H. injection H as <-. cbn [s_pos s_error s_minv s_vel s_saved s_fsaved s_tempfile].
  exists a, a0. repeat split; assumption.
Qed.

Lemma frame_intro st f regen r saved fsaved temp : s_error st = false ->
  regenerate_now g f = Ok regen ->
  step f regen (s_pos st) false (if regen then no_matrix else s_minv st) (vel_at st f) = Ok r ->
  save_positions Ns g f (s_pos st) (t_pos r) (s_saved st) = Ok saved ->
  save_forces g f (t_forces r) (s_fsaved st) = Ok fsaved ->
  backup g f saved fsaved (s_tempfile st) = Ok temp ->
  frame st f = Ok (mkState (t_pos r) (t_error r) (t_minv r) (t_vel r) saved fsaved temp).
Proof.
  intros He H1 H2 H3 H4 H5. unfold generate_frame. rewrite He, H1. cbn [bind]. cbv zeta.
  unfold step, vel_at in H2. rewrite H2. cbn [bind]. rewrite H3. cbn [bind]. rewrite H4. cbn [bind]. rewrite H5. reflexivity.
Qed.

Lemma frames_app st l1 l2 : frames st (l1 ++ l2) = bind (frames st l1) (fun st' => frames st' l2).
Proof.
  revert st. induction l1 as [|f l1 IH]; intros st; simpl; [reflexivity|].
  destruct (frame st f); simpl; [apply IH|reflexivity].
Qed.
Lemma frames_snoc st s n st' : frames st (seq s (S n)) = Ok st' ->
  exists st1, frames st (seq s n) = Ok st1 /\ frame st1 (s + n) = Ok st'.
Proof.
  replace (S n) with (n + 1)%nat by lia. rewrite seq_app, frames_app. intros H. binv H. exists a. split; [exact E|].
  simpl in H. binv H. injection H as <-. exact E0.
Qed.
Lemma frames_snoc_intro st s n st1 st' : frames st (seq s n) = Ok st1 -> frame st1 (s + n) = Ok st' ->
  frames st (seq s (S n)) = Ok st'.
Proof.
  intros H1 H2. replace (S n) with (n + 1)%nat by lia. rewrite seq_app, frames_app, H1. simpl. rewrite H2. reflexivity.
Qed.
Lemma frames_prefix st s n m st' : frames st (seq s n) = Ok st' -> (m <= n)%nat ->
  exists st1, frames st (seq s m) = Ok st1.
Proof.
  intros H Hm. replace n with (m + (n - m))%nat in H by lia. rewrite seq_app, frames_app in H. binv H. exists a. exact E.
Qed.

(** Error latch. *)
Lemma latch st f : s_error st = true -> frame st f = Ok st.
Proof. intros H. unfold generate_frame. rewrite H. reflexivity. Qed.
Lemma latch_run st l : s_error st = true -> frames st l = Ok st.
Proof. intros H. induction l as [|f l IH]; simpl; [reflexivity|]. rewrite latch by exact H. exact IH. Qed.
Lemma no_error_before st s n m st1 st' :
  frames st (seq s n) = Ok st' -> (m <= n)%nat -> frames st (seq s m) = Ok st1 -> s_error st' = false -> s_error st1 = false.
Proof.
  intros H Hm H1 He. replace n with (m + (n - m))%nat in H by lia. rewrite seq_app, frames_app, H1 in H. simpl in H.
  destruct (s_error st1) eqn:E; [|reflexivity]. rewrite latch_run in H by exact E. congruence.
Qed.

(** The far-field inverse of a step. *)
Lemma step_minv f regen p err minv vel r : step f regen p err minv vel = Ok r ->
  t_minv r = if (g_use_drag g || regen)%bool then far p (INR f) else minv.
Proof.
  unfold step. destruct (g_scheme g).
  - unfold step_euler_ab2, gen. intros H. binv H. dpair. binv E. injection E as <- <-.
    binv H. dpair. binv H. dpair. injection H as <-. reflexivity.
  - unfold step_euler_ab2, gen. intros H. binv H. dpair. binv E. injection E as <- <-.
    binv H. dpair. binv H. dpair. injection H as <-. reflexivity.
  - unfold step_rk4. intros H. binv H. dpair. unfold gen in E. binv E. injection E as <- <-.
    do 8 (binv H; dpair).
    destruct (Nat.eqb Ns 0), (Nat.eqb Nd 0); injection H as <-; reflexivity.
  - discriminate.
Qed.
End Loop.
