(** Runs: the grand problem of one configuration. *)
From Coq Require Import Reals List Arith Bool Lia Lra.
From Verif Require Import Base Py Model_Minf Model_Grand Model_Close Model_R2B Model_MinfP Model_GrandP Model_Step
  Model_Output Model_Frame Model_Inputs Model_Sim Spec_Convert Spec_Output Spec_Step Spec_Frame Spec_Posdef Spec_Run
  Proof_Step Proof_Frame Proof_GrandP Prop_Minf Prop_MinfP Prop_Grand Proof_Shape Proof_Posdef Proof_Posdef2 Prop_Posdef.
Import ListNotations.
Local Open Scope R_scope.

Lemma free_unbounded f : free_space f = true <-> unbounded f.
Proof.
  unfold free_space. rewrite zero3_spec. unfold unbounded, vsub. split; intros H l Hl; specialize (H l Hl); lra.
Qed.

Lemma pos_def_ext n A B : (forall i j, (i < n)%nat -> (j < n)%nat -> A i j = B i j) -> pos_def n A -> pos_def n B.
Proof.
  intros E H x y L. apply H. intros i Hi. rewrite (L i Hi). apply rsum_ext. intros j Hj. rewrite E by assumption. reflexivity.
Qed.

Section One.
Variable inv : nat -> mat -> mat.
Variable inv3 : mat -> mat.
Variable solve : nat -> mat -> list R -> list R.
Variable sc : nat -> nat -> R -> nat -> R.
Variable table : list R.
Variable h : nat.
Variable stale : nat -> nat -> R.
Variables Ns Nd : nat.
Variable fm : form.
Variables extract bb minf_only : bool.
Variable cutoff_factor : R.
Variable g : settings.
Variable input : config -> R -> res (inputs * flow).
Notation n := (11 * Ns + 6 * Nd)%nat.
Notation farm := (far_mobility h stale Ns Nd bb).
Notation nearf := (near_field inv3 sc table Ns Nd bb minf_only cutoff_factor).
Notation ans := (answers Ns Nd fm).

Hypothesis Hinv : inverts_posdef inv.
Hypothesis Hsolve : solves_posdef solve.
Hypothesis HNs : (0 < Ns)%nat.
Hypothesis Hex : extract = false.

Lemma answers_ext i A B o : (forall a b, (a < n)%nat -> (b < n)%nat -> A a b = B a b) -> ans i A o -> ans i B o.
Proof.
  intros E [(L1 & L2 & R1) K]. split; [|exact K]. split; [exact L1|]. split; [exact L2|].
  intros a Ha. rewrite (R1 a Ha). apply rsum_ext. intros b Hb. rewrite E by assumption. reflexivity.
Qed.

Lemma output_answers G i : well_posed Ns Nd fm i -> msym n G -> pos_def n G ->
  exists o, generate_output inv solve Ns Nd fm extract G i (fun _ => i) = Ok o /\ ans i G o.
Proof.
  intros HWP Hs Hp. pose proof (fun o => output_shape inv solve Ns Nd fm G i o HWP HNs) as SH. destruct HWP as (HT & HW).
  unfold ans. rewrite Hex in *. destruct fm; try contradiction.
  - destruct HW as (L & HF & HS & HFb & HD).
    destruct (C64_fts inv solve Hsolve Ns Nd false G i (fun _ => i) Hp L ltac:(intros; lia) HF HT HS HFb HD)
      as (o & E & K1 & K2 & K3 & K4 & K5 & K6). exists o. specialize (SH o E). tauto.
  - destruct HW as (HF & HE & HFb & HD).
    destruct (C64_fte inv solve Hinv Hsolve Ns Nd false G i i HNs Hs Hp HF HT HE HFb HD)
      as (o & E & K1 & K2 & K3 & K4 & K5 & K6). exists o. specialize (SH o E). tauto.
  - destruct HW as ((nfix & HU & HR) & HE & HFb & HD).
    destruct (C64_ufte inv solve Hinv Hsolve Ns Nd nfix G i (fun _ => i) HNs Hs Hp HU HR HT HE HFb HD)
      as (o & E & K1 & K2 & K3 & K4 & K5 & K6 & K7). exists o. split; [exact E|]. split; [exact K7|]. split; [exact (SH o E)|]. split; [exact K3|].
    split; [exists nfix; tauto|tauto].
  - destruct HW as ((nfix & HU & HR) & HE & nfixd & HUb & HRb & HD).
    destruct (C64_ufteu inv solve Hinv Hsolve Ns Nd nfix nfixd false G i (fun _ => i) HNs Hs Hp HU HR HT HE HUb HRb HD)
      as (o & E & K1 & K2 & K3 & K4 & K5 & K6 & K7 & K8 & K9). exists o. split; [exact E|]. split; [exact K9|]. split; [exact (SH o E)|]. split; [exact K3|].
    split; [exists nfix; tauto|]. split; [exact K4|]. exists nfixd. tauto.
Qed.

Lemma rest_answers p t vel L s :
  solve_rest inv inv3 solve sc table h stale Ns Nd fm extract bb minf_only cutoff_factor g input p t vel L = Ok s ->
  (forall i f, input p t = Ok (i, f) -> well_posed Ns Nd fm i) -> msym n L ->
  (forall i f N, input p t = Ok (i, f) -> nearf p f N -> pos_def n (fun a b => L a b + N a b)) ->
  exists i f N o, input p t = Ok (i, f) /\ nearf p f N /\ ans i (fun a b => L a b + N a b) o /\ s = solution_of o f /\
    (g_use_drag g = true -> unbounded f).
Proof.
  intros E HW HL HP. unfold solve_rest in E. binv E. destruct a as [i f]. specialize (HW i f E0).
  assert (Hfm : fm <> stokes_drag_dumbbells_only /\ fm <> duf) by (destruct HW as [_ HW]; destruct fm; try contradiction; split; discriminate).
  assert (E1 : exists G mi o,
    (if free_space f then grand_resistance_free inv sc table bb (posdata_of Ns Nd p) L false cutoff_factor false false minf_only (f_mu f)
     else match i_Ea i with
          | [] => Raise IndexError
          | _ => grand_resistance_periodic inv inv3 sc table h bb (posdata_of Ns Nd p) L (f_bl f) (f_tr f) false cutoff_factor
                   (g_use_drag g) minf_only (f_mu f) (f_Ot f) (f_Et f) stale
          end) = Ok (G, mi) /\
    generate_output inv solve Ns Nd fm extract G i (fun _ => i) = Ok o /\ s = solution_of o f).
  { destruct Hfm as [F1 F2]. destruct fm; try congruence; binv E; destruct a as [G mi]; binv E; injection E as <-; exists G, mi, a; auto. }
  clear E. destruct E1 as (G & mi & o & EG & Eo & ->).
  assert (K : exists N, nearf p f N /\ (forall a b, G a b = L a b + N a b) /\ msym n G /\ (g_use_drag g = true -> unbounded f)).
  { destruct (free_space f) eqn:Ef.
    - pose proof (proj1 (free_unbounded f) Ef) as Hu.
      destruct (C57_stored _ _ _ _ _ _ _ _ _ _ _ EG) as [_ EN].
      assert (SG : msym n G).
      { refine (proj1 (free_sym inv sc table bb (posdata_of Ns Nd p) cutoff_factor (f_mu f) L false false false minf_only G mi _ _ EG));
        [discriminate|intros _ _; exact HL]. }
      unfold near_field. destruct minf_only.
      + exists mzero. split; [reflexivity|]. split; [intros a b; rewrite EN; unfold mzero; ring|]. split; [exact SG|intros _; exact Hu].
      + destruct EN as (N & EN & EG'). exists N. split; [split; [intros _; exact EN|intros C; destruct (C Hu)]|]. auto.
    - assert (Hu : ~ unbounded f) by (intros C; apply free_unbounded in C; congruence).
      destruct (i_Ea i) as [|e0 l0]; [discriminate|].
      destruct (g_use_drag g) eqn:Ed.
      { rewrite periodic_drag_raises in EG by (cbn [num_spheres num_dumbbells posdata_of]; lia). discriminate. }
      assert (SG : msym n G).
      { refine (proj1 (periodic_sym inv inv3 sc table h bb (posdata_of Ns Nd p) (f_bl f) (f_tr f) cutoff_factor (f_mu f) (f_Ot f) (f_Et f)
          stale L false minf_only G mi _ _ EG)); [discriminate|intros _; exact HL]. }
      assert (Q : exists N, nearf p f N /\ forall a b, G a b = L a b + N a b).
      { unfold grand_resistance_periodic in EG. cbn [bind] in EG. unfold add_near in EG. unfold near_field. clear HP. destruct minf_only.
        - injection EG as <- <-. exists mzero. split; [reflexivity|]. intros; unfold mzero; ring.
        - destruct (generate_R2Bexact_periodic inv3 sc table bb (posdata_of Ns Nd p) cutoff_factor (f_mu f) (vsub (f_tr f) (f_bl f)) (f_Ot f) (f_Et f)) as [N|] eqn:EN; [|discriminate].
          cbn [bind] in EG. injection EG as <- <-. exists N. split; [split; [intros C; destruct (Hu C)|intros _; reflexivity]|].
          intros a b. unfold madd. ring. }
      destruct Q as (N & Q1 & Q2). exists N. split; [exact Q1|]. split; [exact Q2|]. split; [exact SG|discriminate]. }
  destruct K as (N & HN & EGN & SG & Hd).
  assert (PG : pos_def n G) by (apply (pos_def_ext n (fun a b => L a b + N a b)); [intros; symmetry; apply EGN|exact (HP i f N E0 HN)]).
  destruct (output_answers G i HW SG PG) as (o' & Eo' & A). rewrite Eo in Eo'. injection Eo' as <-.
  exists i, f, N, o. split; [exact E0|]. split; [exact HN|]. split; [|split; [reflexivity|exact Hd]].
  apply (answers_ext i G); [intros; apply EGN|exact A].
Qed.

Lemma far_ok p t i f : input p t = Ok (i, f) -> g_use_drag g = false -> (forall M, farm p f M -> pos_def n M) ->
  exists M, farm p f M /\ is_inv n M (far_inverse inv h stale Ns Nd bb g input p t) /\
    msym n (far_inverse inv h stale Ns Nd bb g input p t).
Proof.
  intros E Hd HP. unfold far_inverse. rewrite E. destruct (free_space f) eqn:Ef.
  - pose proof (proj1 (free_unbounded f) Ef) as Hu.
    assert (HM : farm p f (generate_Minfinity bb (posdata_of Ns Nd p) (f_mu f))) by (split; [reflexivity|intros C; destruct (C Hu)]).
    exists (generate_Minfinity bb (posdata_of Ns Nd p) (f_mu f)). split; [exact HM|].
    unfold Minfinity_inverse. rewrite Hd. cbn [num_spheres num_dumbbells posdata_of].
    assert (I : is_inv n (generate_Minfinity bb (posdata_of Ns Nd p) (f_mu f)) (inv n (generate_Minfinity bb (posdata_of Ns Nd p) (f_mu f))))
      by exact (Hinv _ _ (HP _ HM)).
    split; [exact I|]. apply (is_inv_sym _ _ _ (C09_symmetric bb (posdata_of Ns Nd p) (f_mu f)) I).
  - assert (Hu : ~ unbounded f) by (intros C; apply free_unbounded in C; congruence).
    set (M := generate_Minfinity_periodic h bb (posdata_of Ns Nd p) (f_bl f) (f_tr f) (f_mu f) (f_Ot f) (f_Et f) stale).
    assert (HM : farm p f M) by (split; [intros C; destruct (Hu C)|reflexivity]).
    exists M. split; [exact HM|]. pose proof (Hinv _ _ (HP _ HM)) as I. split; [exact I|].
    exact (is_inv_sym _ _ _ (C52_symmetric h bb (posdata_of Ns Nd p) (f_bl f) (f_tr f) (f_mu f) (f_Ot f) (f_Et f) stale) I).
Qed.

Lemma far_drag_ok p t i f : input p t = Ok (i, f) -> g_use_drag g = true -> unbounded f ->
  far_inverse inv h stale Ns Nd bb g input p t = drag_Minfinity_inverse (posdata_of Ns Nd p) (f_mu f).
Proof.
  intros E Hd Hu. unfold far_inverse. rewrite E. apply free_unbounded in Hu. rewrite Hu. unfold Minfinity_inverse. rewrite Hd. reflexivity.
Qed.
End One.
