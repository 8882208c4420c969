(** The first frames of three runs whose inputs combine. *)
From Coq Require Import Reals List Arith Bool Lia Lra FunctionalExtensionality.
From Verif Require Import Base Py Model_Pack Model_Mob Model_Minf Model_Output Model_Step Model_Frame Model_Inputs Model_Sim
  Spec_Pack Spec_Minf Spec_Convert Spec_Output Spec_Step Spec_Frame Spec_Posdef Spec_Run Spec_Turn Spec_Linear
  Proof_Pack Proof_Output Proof_Posdef Proof_Frame Proof_Run Proof_Run2 Proof_Linear.
Import ListNotations.
Local Open Scope R_scope.

Lemma saved_all n : due_frames 1 0 n = seq 0 n.
Proof.
  unfold due_frames. generalize (seq 0 n). intros l. induction l as [|a l IH]; [reflexivity|]. cbn [filter]. unfold save_due at 1. rewrite Nat.mod_1_r. cbn. rewrite IH. reflexivity.
Qed.
Lemma saved_first {A} (f : nat -> A) n (e : A) : (0 < n)%nat -> e = f n ->
  nth_error (map f (due_frames 1 0 n) ++ (if save_due 1 0 (n - 1) then [e] else [])) 0 = Some (f 0%nat) /\
  nth_error (map f (due_frames 1 0 n) ++ (if save_due 1 0 (n - 1) then [e] else [])) 1 = Some (f 1%nat).
Proof.
  intros Hn ->. rewrite saved_all. unfold save_due. rewrite Nat.mod_1_r. cbn [Nat.eqb Nat.leb andb].
  destruct n as [|[|n]]; [lia|split; reflexivity|split; reflexivity].
Qed.

Section First.
Variable inv : nat -> mat -> mat.
Variable inv3 : mat -> mat.
Variable solve : nat -> mat -> list R -> list R.
Variable sc : nat -> nat -> R -> nat -> R.
Variable table : list R.
Variable h : nat.
Variable stale : nat -> nat -> R.
Variables Ns Nd : nat.
Variable fm : form.
Variables bb minf_only : bool.
Variable cf : R.
Variable g : settings.
Variable p0 : config.
Notation n := (11 * Ns + 6 * Nd)%nat.
Hypothesis Hinv : inverts_posdef inv.
Hypothesis Hsolve : solves_posdef solve.
Hypothesis HNs : (0 < Ns)%nat.
Hypothesis Hstart : g_start g = 0%nat.
Hypothesis Hsch : g_scheme g = euler \/ g_scheme g = ab2.
Hypothesis Hframes : (0 < g_num_frames g)%nat.
Hypothesis Hbox : periodic g = false.
Hypothesis S1 : g_save_pos g = 1%nat.
Hypothesis S2 : g_save_forces g = 1%nat.
Hypothesis S3 : g_save_after g = 0%nat.
Notation far := (far_resistance h stale Ns Nd bb g).
Notation near := (near_field inv3 sc table Ns Nd bb minf_only cf).

(** What the first frame of a run saves. *)
Lemma first_frame input s fs : posed_run inv inv3 solve sc table h stale Ns Nd fm bb minf_only cf g input p0 ->
  full_simulation inv inv3 solve sc table h stale Ns Nd fm false bb minf_only cf g input p0 = Ok (Some (s, fs)) ->
  exists p1 i f L N o, input p0 0 = Ok (i, f) /\ far input (fun _ => p0) 0 L /\ near p0 f N /\
    answers Ns Nd fm i (fun a b => L a b + N a b) o /\ pos_def n (fun a b => L a b + N a b) /\
    nth_error s 0 = Some (snap Ns p0) /\ nth_error s 1 = Some (snap Ns p1) /\ nth_error fs 0 = Some (forces_of o) /\
    (forall j l, (j < Ns)%nat -> (l < 3)%nat -> c_spos p1 j l = c_spos p0 j l + g_dt g * sphere_speed g f o p0 j l) /\
    (forall d l, (d < Nd)%nat -> (l < 3)%nat -> c_dpos p1 d l = c_dpos p0 d l + g_dt g * centre_speed f o p0 d l /\
       c_ddx p1 d l = c_ddx p0 d l + g_dt g * stretch_speed f o p0 d l).
Proof.
  intros (Q1 & Q2 & Q3 & Q4 & Q5) E.
  assert (Z1 : (0 < g_save_pos g)%nat) by lia. assert (Z2 : (0 < g_save_forces g)%nat) by lia.
  assert (Z3 : (g_save_after g mod g_save_pos g = 0)%nat) by (rewrite S1; apply Nat.mod_1_r). assert (Z4 : (g_save_after g mod g_save_forces g = 0)%nat) by (rewrite S2; apply Nat.mod_1_r).
  destruct (whole_run inv inv3 solve sc table h stale Ns Nd fm false bb minf_only cf g input p0 Hinv Hsolve HNs eq_refl Hstart Hsch
    Q1 Q2 Q3 Q4 s fs Z1 Z2 Z3 Z4 E) as (pos & fl & out & (P0 & Rc) & M & Es & Ef).
  destruct (M 0%nat Hframes) as [(i & L & N0 & EI & F & NF & A) (_ & _ & MV & MD)].
  assert (F0 : far input (fun _ => p0) 0 L).
  { unfold far_resistance in *. destruct (g_use_drag g); [rewrite P0 in F; exact F|].
    destruct F as (k & i' & f' & M' & D & EI' & FM & IV). assert (k = 0)%nat by (destruct D as ((_ & D) & _); lia). subst k. rewrite P0 in EI', FM.
    exists 0%nat, i', f', M'. auto. }
  assert (PD : pos_def n (fun a b => L a b + N0 a b)).
  { apply (Q4 0%nat pos i (fl 0%nat)); try assumption. intros k Hk. apply Rc. lia. }
  rewrite P0 in *. cbn [INR] in EI. exists (pos 1%nat), i, (fl 0%nat), L, N0, (out 0%nat).
  rewrite S1, S3 in Es. rewrite S2, S3 in Ef. pose proof (saved_first (fun m => snap Ns (pos m)) (g_num_frames g) _ Hframes eq_refl) as [V0 V1]. rewrite <- Es in V0, V1.
  split; [exact EI|]. split; [exact F0|]. split; [exact NF|]. split; [exact A|]. split; [exact PD|].
  split; [rewrite V0, P0; reflexivity|]. split; [exact V1|].
  split. { rewrite Ef, saved_all. destruct (g_num_frames g); [lia|reflexivity]. }
  assert (LD : forall f x y, landed inv3 g f x y -> forall l, (l < 3)%nat -> y l = x l) by (intros f x y HL l Hl; rewrite (HL l Hl), Hbox; reflexivity).
  split.
  - intros j l Hj Hl. destruct (MV j Hj) as (x & HL & X & _). rewrite (LD _ _ _ HL l Hl), (X l Hl), ?P0.
    replace (match g_scheme g with euler => true | _ => (0 =? 0)%nat end) with true by (destruct (g_scheme g); reflexivity). reflexivity.
  - intros d l Hd Hl. destruct (MD d Hd) as ((x & HL & X) & Y). rewrite (LD _ _ _ HL l Hl), (X l Hl), (Y l Hl), ?P0. auto.
Qed.

Lemma far_same input input' i f i' f' L L' : input p0 0 = Ok (i, f) -> input' p0 0 = Ok (i', f') -> f_mu f = f_mu f' -> unbounded f -> unbounded f' ->
  far input (fun _ => p0) 0 L -> far input' (fun _ => p0) 0 L' -> forall a b, (a < n)%nat -> (b < n)%nat -> L a b = L' a b.
Proof.
  intros E E' Hmu U U' F F' a b Ha Hb. unfold far_resistance in F, F'. cbn [INR] in *. destruct (g_use_drag g).
  - destruct F as (i1 & f1 & E1 & _ & ->). destruct F' as (i2 & f2 & E2 & _ & ->). rewrite E in E1. injection E1 as <- <-. rewrite E' in E2. injection E2 as <- <-. rewrite Hmu. reflexivity.
  - destruct F as (k & i1 & f1 & M1 & D & E1 & FM & IV). destruct F' as (k' & i2 & f2 & M2 & D' & E2 & FM' & IV').
    assert (k = 0)%nat by (destruct D as ((_ & D) & _); lia). assert (k' = 0)%nat by (destruct D' as ((_ & D') & _); lia). subst k k'. cbn [INR] in *.
    rewrite E in E1. injection E1 as <- <-. rewrite E' in E2. injection E2 as <- <-. rewrite (proj1 FM U) in IV. rewrite (proj1 FM' U') in IV'. rewrite <- Hmu in IV'.
    exact (is_inv_unique n _ _ _ IV IV' a b Ha Hb).
Qed.
Lemma near_same f f' N N' : f_mu f = f_mu f' -> unbounded f -> unbounded f' -> near p0 f N -> near p0 f' N' -> N = N'.
Proof.
  intros Hmu U U' A B. unfold near_field in A, B. destruct minf_only; [congruence|]. rewrite <- Hmu in B. pose proof (proj1 A U). pose proof (proj1 B U'). congruence.
Qed.

Variables al be : R.
Variables input1 input2 input : config -> R -> res (inputs * flow).
Hypothesis HC : combined_start al be input1 input2 input p0.
Hypothesis HP1 : posed_run inv inv3 solve sc table h stale Ns Nd fm bb minf_only cf g input1 p0.
Hypothesis HP2 : posed_run inv inv3 solve sc table h stale Ns Nd fm bb minf_only cf g input2 p0.
Hypothesis HP : posed_run inv inv3 solve sc table h stale Ns Nd fm bb minf_only cf g input p0.

Lemma flow_linear f1 f2 f E1 E2 E x l : flow_comb al be f1 f2 f -> mat_comb al be E1 E2 E -> (l < 3)%nat ->
  linear_flow (f_U f) (f_O f) E (f_centre f) x l =
  al * linear_flow (f_U f1) (f_O f1) E1 (f_centre f1) x l + be * linear_flow (f_U f2) (f_O f2) E2 (f_centre f2) x l.
Proof.
  intros (HU & HO & HC' & _) HE Hl. unfold linear_flow, mvec, vsub, cross. cbn [rsum].
  rewrite (HU l Hl). pose proof (HC' 0%nat ltac:(lia)) as [a1 a2]. pose proof (HC' 1%nat ltac:(lia)) as [a3 a4]. pose proof (HC' 2%nat ltac:(lia)) as [a5 a6].
  rewrite (HE l 0%nat Hl ltac:(lia)), (HE l 1%nat Hl ltac:(lia)), (HE l 2%nat Hl ltac:(lia)). rewrite a1, a2, a3, a4, a5, a6.
  pose proof (HO 0%nat ltac:(lia)) as b0. pose proof (HO 1%nat ltac:(lia)) as b1. pose proof (HO 2%nat ltac:(lia)) as b2.
  idx3 Hl; unfold v3; cbn; rewrite ?b0, ?b1, ?b2; ring.
Qed.

Lemma first_comb s1 fs1 s2 fs2 s fs :
  full_simulation inv inv3 solve sc table h stale Ns Nd fm false bb minf_only cf g input1 p0 = Ok (Some (s1, fs1)) ->
  full_simulation inv inv3 solve sc table h stale Ns Nd fm false bb minf_only cf g input2 p0 = Ok (Some (s2, fs2)) ->
  full_simulation inv inv3 solve sc table h stale Ns Nd fm false bb minf_only cf g input p0 = Ok (Some (s, fs)) ->
  exists a b1 b2 b c1 c2 c,
    nth_error s1 0 = Some a /\ nth_error s2 0 = Some a /\ nth_error s 0 = Some a /\ a = snap Ns p0 /\
    nth_error s1 1 = Some b1 /\ nth_error s2 1 = Some b2 /\ nth_error s 1 = Some b /\ displaced_comb al be Ns Nd a b1 b2 b /\
    nth_error fs1 0 = Some c1 /\ nth_error fs2 0 = Some c2 /\ nth_error fs 0 = Some c /\ forces_comb al be Ns Nd c1 c2 c.
Proof.
  intros R1 R2 RR. destruct HC as (i1 & f1 & i2 & f2 & i & f & E1 & E2 & E & HI & HF & G1 & G2 & G).
  destruct (first_frame _ _ _ HP1 R1) as (p1 & i1' & f1' & L1 & N1 & o1 & E1' & A2 & A3 & A4 & A5 & A6 & A7 & A8 & A9 & A10).
  rewrite E1 in E1'. injection E1' as <- <-.
  destruct (first_frame _ _ _ HP2 R2) as (p2 & i2' & f2' & L2 & N2 & o2 & E2' & B2 & B3 & B4 & B5 & B6 & B7 & B8 & B9 & B10).
  rewrite E2 in E2'. injection E2' as <- <-.
  destruct (first_frame _ _ _ HP RR) as (p3 & i' & f' & L & N0 & o & E' & C2 & C3 & C4 & C5 & C6 & C7 & C8 & C9 & C10).
  rewrite E in E'. injection E' as <- <-.
  pose proof HF as (_ & _ & _ & M1 & M2 & U1 & U2 & UU).
  assert (X1 : answers Ns Nd fm i1 (fun a b => L a b + N0 a b) o1).
  { rewrite <- (near_same f1 f N1 N0 M1 U1 UU A3 C3). refine (answers_ext Ns Nd fm i1 _ _ o1 _ A4). intros a b Ha Hb.
    rewrite (far_same _ _ _ _ _ _ _ _ E1 E M1 U1 UU A2 C2 a b Ha Hb). reflexivity. }
  assert (X2 : answers Ns Nd fm i2 (fun a b => L a b + N0 a b) o2).
  { rewrite <- (near_same f2 f N2 N0 M2 U2 UU B3 C3). refine (answers_ext Ns Nd fm i2 _ _ o2 _ B4). intros a b Ha Hb.
    rewrite (far_same _ _ _ _ _ _ _ _ E2 E M2 U2 UU B2 C2 a b Ha Hb). reflexivity. }
  pose proof (answers_comb al be Ns Nd fm i1 i2 i _ o1 o2 o HI G1 G2 G X1 X2 C4 C5) as [OS OD].
  assert (SP : forall j l, (j < Ns)%nat -> (l < 3)%nat -> sphere_speed g f o p0 j l = al * sphere_speed g f1 o1 p0 j l + be * sphere_speed g f2 o2 p0 j l).
  { intros j l Hj Hl. unfold sphere_speed. destruct (g_fully_2d g && Nat.eqb l 1)%bool; [ring|]. destruct (OS j Hj) as (_ & _ & _ & K4 & _ & K6).
    rewrite (K4 l Hl), (flow_linear f1 f2 f _ _ _ _ l HF K6 Hl). ring. }
  assert (BF : forall x l, (l < 3)%nat -> bead_flow f o x l = al * bead_flow f1 o1 x l + be * bead_flow f2 o2 x l).
  { intros x l Hl. unfold bead_flow. apply flow_linear; try assumption. apply (OS 0%nat HNs). }
  do 7 eexists. split; [exact A6|]. split; [exact B6|]. split; [exact C6|]. split; [reflexivity|]. split; [exact A7|]. split; [exact B7|]. split; [exact C7|].
  split; [|split; [exact A8|split; [exact B8|split; [exact C8|]]]].
  - split.
    + intros j Hj l Hl. unfold vsub, snap. cbn [n_pos]. unfold append_rows. destruct (Nat.ltb_spec j Ns).
      * rewrite A9, B9, C9, SP by assumption. ring.
      * destruct (A10 (j - Ns)%nat l ltac:(lia) Hl) as [-> _]. destruct (B10 (j - Ns)%nat l ltac:(lia) Hl) as [-> _]. destruct (C10 (j - Ns)%nat l ltac:(lia) Hl) as [-> _].
        destruct (OD (j - Ns)%nat ltac:(lia)) as (_ & _ & K3 & _). unfold centre_speed. rewrite (K3 l Hl), !BF by exact Hl. field.
    + intros d Hd l Hl. unfold vsub, snap. cbn [n_dx].
      destruct (A10 d l Hd Hl) as [_ ->]. destruct (B10 d l Hd Hl) as [_ ->]. destruct (C10 d l Hd Hl) as [_ ->].
      destruct (OD d Hd) as (_ & _ & _ & K4). unfold stretch_speed. rewrite (K4 l Hl), !BF by exact Hl. ring.
  - split.
    + intros j Hj. destruct (OS j Hj) as (K1 & _ & K3 & _). split; [exact K1|exact K3].
    + intros d Hd. destruct (OD d Hd) as (K1 & K2 & _). split; [exact K1|exact K2].
Qed.
End First.
