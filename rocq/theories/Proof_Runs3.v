(** Runs that do not raise, and runs that do: the example inputs. *)
From Coq Require Import Reals List Arith ZArith Bool Lra Lia.
From Verif Require Import Base Py Model_Pack Model_Convert Model_Minf Model_Close Model_R2B Model_MinfP Model_Grand Model_GrandP
  Model_Step Model_Shear Model_Repulsion Model_Output Model_Frame Model_Inputs Model_Sim
  Spec_Output Spec_Frame Spec_Runs Spec_Pack Proof_Pack Proof_Output Proof_Runs Proof_Runs2 Proof_Frame.
Import ListNotations.
Local Open Scope R_scope.

Lemma repeat_given n w r : length r = w -> all_given n w (repeat (Some r) n).
Proof. intros H. split; [apply repeat_length|]. intros o Ho. apply repeat_spec in Ho. subst o. exists r. auto. Qed.
Lemma repeat_given33 n m : length m = 3%nat -> (forall r, In r m -> length r = 3%nat) -> all_given33 n (repeat (Some m) n).
Proof. intros H H1. split; [apply repeat_length|]. intros o Ho. apply repeat_spec in Ho. subst o. exists m. auto. Qed.
Lemma map_given (F : nat -> list R) n w : (forall k, length (F k) = w) -> all_given n w (map (fun k => Some (F k)) (seq 0 n)).
Proof.
  intros H. split; [rewrite map_length; apply seq_length|]. intros o Ho. apply in_map_iff in Ho. destruct Ho as (k & <- & _). eauto.
Qed.
Lemma shear_given n (E : mat) : (0 < n)%nat -> all_given33 n (map (fun m => Some (row2 m)) (repeat E (Nat.max 1 n))).
Proof.
  intros Hn. replace (Nat.max 1 n) with n by lia. split; [rewrite map_length; apply repeat_length|].
  intros o Ho. apply in_map_iff in Ho. destruct Ho as (m & <- & _). exists (row2 m).
  split; [reflexivity|]. split; [reflexivity|]. intros r [<-|[<-|[<-|[]]]]; reflexivity.
Qed.
Lemma zeros_given n : all_given n 3 (repeat (Some zeros3) n).
Proof. apply repeat_given. reflexivity. Qed.
Lemma zeros_given33 n : all_given33 n (repeat (Some zeros33) n).
Proof. apply repeat_given33; [reflexivity|]. intros r [<-|[<-|[<-|[]]]]; reflexivity. Qed.
Lemma given_repeat {A} e n (x : A) : given e (repeat (Some x) n) = Ok (repeat x n).
Proof. induction n as [|n IH]; [reflexivity|]. simpl. rewrite IH. reflexivity. Qed.
Lemma given_none {A} e n : (0 < n)%nat -> given e (repeat (@None A) n) = Raise e.
Proof. destruct n; [lia|reflexivity]. Qed.

Lemma opposed_length m : length (opposed m) = m.
Proof.
  unfold opposed. rewrite app_length, !repeat_length. pose proof (Nat.div_le_upper_bound m 2 m). lia.
Qed.
Lemma opposed_given m : all_given m 3 (opposed m).
Proof.
  split; [apply opposed_length|]. intros o Ho. unfold opposed in Ho. apply in_app_or in Ho.
  destruct Ho as [Ho|Ho]; apply repeat_spec in Ho; subst o; eexists; split; reflexivity.
Qed.
Lemma all_given_nth n w l i : all_given n w l -> (i < n)%nat -> exists r, nth_error l i = Some (Some r) /\ length r = w.
Proof.
  intros [L H] Hi. destruct (nth_error l i) as [o|] eqn:E; [|apply nth_error_None in E; lia].
  destruct (H o (nth_error_In _ _ E)) as (r & -> & Hr). exists r. auto.
Qed.
Lemma nth_error_repeat_lt {A} (x : A) n i : (i < n)%nat -> nth_error (repeat x n) i = Some x.
Proof. revert i. induction n as [|n IH]; intros [|i] H; try lia; simpl; [reflexivity|apply IH; lia]. Qed.

(** Force rows of example 6 in forms fts and fte. *)
Lemma forces6 : all_given 99 3 (set_slice (repeat (Some zeros3) 99) 90 (length (repeat (Some zeros3) 99)) (repeat (Some [10; 0; 0]) 9)).
Proof.
  split; [reflexivity|]. intros o Ho.
  assert (H : o = Some zeros3 \/ o = Some [10; 0; 0]).
  { unfold set_slice in Ho. apply in_app_or in Ho. destruct Ho as [Ho|Ho].
    - left. apply (repeat_spec 90). change (repeat (Some zeros3) 90) with (firstn 90 (repeat (Some zeros3) 99)). exact Ho.
    - apply in_app_or in Ho. destruct Ho as [Ho|Ho]; [right; apply (repeat_spec 9); exact Ho|].
      rewrite repeat_length in Ho. simpl in Ho. contradiction Ho. }
  destruct H as [-> | ->]; eexists; split; reflexivity.
Qed.
Lemma free_default : free_space default_flow = true.
Proof.
  unfold free_space, default_flow. cbn [f_bl f_tr]. unfold is_zero3, vsub, v3. cbn. rewrite !Rminus_0_r.
  assert (Reqb 0 0 = true) as -> by (unfold Reqb; destruct (Req_EM_T 0 0); [reflexivity|contradiction]). reflexivity.
Qed.
Lemma oscillatory_returns Ns t dt : exists h,
  oscillatory_shear (1 / 3) 10 t dt 0 (v3 (225 / 100) 0 (225 / 100)) Ns 1 false false = Ok h /\ exists E, h_Ea h = repeat E (Nat.max 1 Ns).
Proof.
  unfold oscillatory_shear. assert (Reqb 10 0 = false) as ->. { unfold Reqb. destruct (Req_EM_T 10 0); [lra|reflexivity]. }
  eexists. split; [reflexivity|]. eexists. reflexivity.
Qed.
Lemma repulsion_returns Ns Nd p Fa Fb DFb : exists a b c,
  repulsion_forces 50 20 Ns Nd (c_spos p) (c_dpos p) (c_ddx p) (c_ssizes p) (c_dsizes p) 0 Fa Fb DFb = Ok (a, b, c).
Proof.
  unfold repulsion_forces. assert ((Nat.ltb 0 Ns && Nat.leb Ns (2 * 0))%bool = false) as ->.
  { destruct (Nat.ltb_spec 0 Ns); [|reflexivity]. apply Nat.leb_gt. lia. }
  do 3 eexists. reflexivity.
Qed.
Lemma set90_split Ns : (90 <= Ns)%nat -> set_slice (repeat None Ns) 0 90 (opposed 90) = opposed 90 ++ repeat None (Ns - 90).
Proof.
  intros H. unfold set_slice. cbn [firstn app]. f_equal. change (Nat.max 0 90) with 90%nat.
  replace Ns with (90 + (Ns - 90))%nat at 1 by lia. rewrite repeat_app, skipn_app, repeat_length.
  rewrite skipn_all2 by (rewrite repeat_length; lia). rewrite Nat.sub_diag. reflexivity.
Qed.
Lemma set90_forces Ns : (90 <= Ns)%nat ->
  set_slice (repeat (@None (list R)) Ns) 90 (length (repeat (@None (list R)) Ns)) (repeat (Some [10; 0; 0]) 9) = repeat None 90 ++ repeat (Some [10; 0; 0]) 9.
Proof.
  intros H. unfold set_slice. rewrite repeat_length, Nat.max_r by lia. rewrite skipn_all2 by (rewrite repeat_length; lia).
  rewrite app_nil_r. f_equal. replace Ns with (90 + (Ns - 90))%nat by lia. rewrite repeat_app, firstn_app, repeat_length, Nat.sub_diag.
  rewrite firstn_all2 by (rewrite repeat_length; lia). rewrite firstn_O, app_nil_r. reflexivity.
Qed.
Lemma mixed_rows Ns k u f : all_given k 3 u -> (k <= Ns)%nat -> length f = Ns ->
  (forall i, (k <= i < Ns)%nat -> exists r, nth_error f i = Some (Some r) /\ length r = 3%nat) ->
  split_given Ns k (u ++ repeat None (Ns - k)) f /\ rest_missing Ns k (u ++ repeat None (Ns - k)).
Proof.
  intros Hu Hk Hf H. destruct (Hu) as [Lu _]. split.
  - split; [exact Hk|]. split; [rewrite app_length, repeat_length; lia|]. split; [exact Hf|]. split; [|exact H].
    intros i Hi. rewrite nth_error_app1 by lia. apply (all_given_nth k); assumption.
  - intros i Hi. rewrite nth_error_app2, Lu by lia. apply nth_error_repeat_lt. lia.
Qed.

(** ** The workable examples *)
Ltac parts := cbn [fst with_shear with_Fa with_Fb with_DFb with_Ua with_Ea default_inputs empty_vectors i_Fa i_Ta i_Sa i_Fb i_DFb i_Ua i_Oa i_Ea i_Ub i_HalfDUb].

Lemma given_inputs n fm Ns Nd p t dt : (1 <= n <= 7)%Z -> workable n fm Ns ->
  exists i f, input_ftsuoe n fm Ns Nd p t dt = Ok (i, f) /\ complete fm Ns Nd i /\
    (free_space f = true \/ i_Ea i <> []).
Proof.
  intros Hn HW. pose proof free_default as FS.
  destruct (oscillatory_returns Ns t dt) as (h & HO & E & HE).
  pose proof (repulsion_returns Ns Nd p) as HR.
  unfold workable in HW. destruct (Nat.eqb_spec Ns 0) as [H0|H0].
  { destruct HW as [-> HW]. destruct HW as [-> | ->].
    - unfold input_ftsuoe. cbn [Z.ltb Z.compare]. rewrite HO. cbn [bind]. do 2 eexists. split; [reflexivity|].
      split; [|left; exact FS]. unfold complete. cbv zeta. parts.
      split; [apply repeat_length|]. split; [intros _; rewrite HE, H0; eexists; reflexivity|].
      split; [apply zeros_given|]. split; [apply zeros_given|]. split; [apply zeros_given33|]. split; [apply zeros_given|].
      apply map_given. reflexivity.
    - unfold input_ftsuoe. cbn [Z.ltb Z.compare]. do 2 eexists. split; [reflexivity|]. split; [|left; exact FS].
      unfold complete. cbv zeta. parts.
      split; [apply repeat_length|]. split; [intros _; rewrite H0; eexists; reflexivity|].
      split; [apply zeros_given|]. split; [apply zeros_given|]. split; [apply zeros_given33|]. split; apply zeros_given. }
  assert (HP : (0 < Ns)%nat) by lia.
  assert (Hn' : (n = 1 \/ n = 2 \/ n = 3 \/ n = 4 \/ n = 5 \/ n = 6 \/ n = 7)%Z) by lia. clear Hn.
  assert (G3 : all_given Ns 3 (repeat (Some [0; 0; - (1)]) Ns)) by (apply repeat_given; reflexivity).
  assert (NE : forall A (x : A), repeat x Ns <> []).
  { intros A x Hx. apply (f_equal (@length _)) in Hx. rewrite repeat_length in Hx. simpl in Hx. lia. }
  destruct fm; try contradiction HW.
  - assert (Hc : forall i, length (i_Ua i) = Ns -> all_given Ns 3 (i_Fa i) -> i_Ta i = repeat (Some zeros3) Ns -> i_Sa i = repeat (Some zeros33) Ns ->
       all_given Nd 3 (i_Fb i) -> all_given Nd 3 (i_DFb i) -> complete fts Ns Nd i).
    { intros i H1 H2 H3 H4 H5 H6. unfold complete. cbv zeta. rewrite H3, H4. split; [exact H1|]. split; [lia|]. split; [exact H2|].
      split; [apply zeros_given|]. split; [apply zeros_given33|]. split; assumption. }
    decompose [or] Hn'; subst n; unfold input_ftsuoe; cbn [Z.ltb Z.compare].
    + do 2 eexists. split; [reflexivity|]. split; [|left; exact FS]. apply Hc; parts; first [apply repeat_length|exact G3|apply zeros_given|reflexivity].
    + unfold simple_cubic_8. do 2 eexists. split; [reflexivity|]. split; [|right; parts; apply NE].
      apply Hc; parts; first [apply repeat_length|exact G3|apply zeros_given|reflexivity].
    + rewrite HO. cbn [bind]. do 2 eexists. split; [reflexivity|]. split; [|left; exact FS].
      apply Hc; parts; first [apply repeat_length|apply zeros_given|reflexivity|apply map_given; reflexivity].
    + parts. rewrite !given_repeat. cbn [bind].
      match goal with |- context [repulsion_forces _ _ _ _ _ _ _ _ _ _ ?a ?b ?c] => destruct (HR a b c) as (x & y & z & ->) end. cbn [bind].
      do 2 eexists. split; [reflexivity|]. split; [|left; exact FS].
      apply Hc; parts; first [apply repeat_length|apply map_given; reflexivity|reflexivity].
    + do 2 eexists. split; [reflexivity|]. split; [|left; exact FS]. apply Hc; parts; first [apply opposed_length|apply zeros_given|reflexivity].
    + destruct HW as [HW|HW]; [contradiction|]. do 2 eexists. split; [reflexivity|]. split; [|left; exact FS].
      apply Hc; parts; rewrite ?HW; first [apply forces6|apply zeros_given|reflexivity].
    + do 2 eexists. split; [reflexivity|]. split; [|left; exact FS]. apply Hc; parts; first [apply repeat_length|apply zeros_given|reflexivity].
  - assert (Hc : forall i, all_given Ns 3 (i_Fa i) -> i_Ta i = repeat (Some zeros3) Ns -> all_given33 Ns (i_Ea i) ->
       all_given Nd 3 (i_Fb i) -> all_given Nd 3 (i_DFb i) -> complete fte Ns Nd i).
    { intros i H2 H3 H4 H5 H6. unfold complete. cbv zeta. rewrite H3. split; [exact HP|]. split; [exact H2|].
      split; [apply zeros_given|]. split; [exact H4|]. split; assumption. }
    decompose [or] Hn'; subst n; unfold input_ftsuoe; cbn [Z.ltb Z.compare].
    + do 2 eexists. split; [reflexivity|]. split; [|left; exact FS]. apply Hc; parts; first [exact G3|apply zeros_given|apply zeros_given33|reflexivity].
    + unfold simple_cubic_8. do 2 eexists. split; [reflexivity|]. split; [|right; parts; apply NE].
      apply Hc; parts; first [exact G3|apply zeros_given|apply zeros_given33|reflexivity].
    + rewrite HO. cbn [bind]. do 2 eexists. split; [reflexivity|]. split; [|left; exact FS].
      apply Hc; parts; first [apply zeros_given|rewrite HE; apply shear_given; exact HP|reflexivity|apply map_given; reflexivity].
    + parts. rewrite !given_repeat. cbn [bind].
      match goal with |- context [repulsion_forces _ _ _ _ _ _ _ _ _ _ ?a ?b ?c] => destruct (HR a b c) as (x & y & z & ->) end. cbn [bind].
      do 2 eexists. split; [reflexivity|]. split; [|left; exact FS].
      apply Hc; parts; first [apply map_given; reflexivity|apply zeros_given33|reflexivity].
    + do 2 eexists. split; [reflexivity|]. split; [|left; exact FS]. apply Hc; parts; first [apply zeros_given|apply zeros_given33|reflexivity].
    + destruct HW as [HW|HW]; [contradiction|]. do 2 eexists. split; [reflexivity|]. split; [|left; exact FS].
      apply Hc; parts; rewrite ?HW; first [apply forces6|apply zeros_given|apply zeros_given33|reflexivity].
    + do 2 eexists. split; [reflexivity|]. split; [|left; exact FS].
      apply Hc; parts; first [apply zeros_given|apply shear_given; exact HP|reflexivity].
  - assert (Hc : forall i k u, all_given k 3 u -> (k <= Ns)%nat -> i_Ua i = u ++ repeat None (Ns - k) -> (Ns <= length (i_Fa i))%nat ->
       (forall j, (k <= j < Ns)%nat -> exists r, nth_error (i_Fa i) j = Some (Some r) /\ length r = 3%nat) ->
       i_Ta i = repeat (Some zeros3) Ns -> i_Ea i = repeat (Some zeros33) Ns -> i_Fb i = repeat (Some zeros3) Nd -> i_DFb i = repeat (Some zeros3) Nd ->
       complete ufte Ns Nd i).
    { intros i k u Hu Hk HU HF HF1 HT HE1 HB HD. unfold complete. cbv zeta. rewrite HU, HT, HE1, HB, HD. split; [exact HP|].
      split; [|split; [apply zeros_given|]; split; [apply zeros_given33|]; split; apply zeros_given].
      exists k. apply mixed_rows; [exact Hu|exact Hk|apply firstn_length_le; exact HF|].
      intros j Hj. destruct (HF1 j Hj) as (r & Hr & Lr). exists r. split; [|exact Lr].
      rewrite <- Hr. rewrite <- (firstn_skipn Ns (i_Fa i)) at 2. symmetry. apply nth_error_app1. rewrite firstn_length_le; lia. }
    assert (N0 : all_given 0 3 []) by (split; [reflexivity|intros o []]).
    destruct HW as [-> | [-> | [-> | [-> HW]]]]; unfold input_ftsuoe; cbn [Z.ltb Z.compare].
    + do 2 eexists. split; [reflexivity|]. split; [|left; exact FS].
      apply (Hc _ 0%nat [] N0); parts; try reflexivity; [lia|rewrite Nat.sub_0_r; reflexivity|rewrite repeat_length; lia|].
      intros j Hj. rewrite nth_error_repeat_lt by lia. eexists; split; reflexivity.
    + unfold simple_cubic_8. do 2 eexists. split; [reflexivity|]. split; [|right; parts; apply NE].
      apply (Hc _ 0%nat [] N0); parts; try reflexivity; [lia|rewrite Nat.sub_0_r; reflexivity|rewrite repeat_length; lia|].
      intros j Hj. rewrite nth_error_repeat_lt by lia. eexists; split; reflexivity.
    + do 2 eexists. split; [reflexivity|]. split; [|left; exact FS].
      apply (Hc _ Ns (opposed Ns) (opposed_given Ns)); parts; try reflexivity.
      * rewrite Nat.sub_diag. cbn [repeat]. rewrite app_nil_r. reflexivity.
      * rewrite repeat_length. lia.
      * intros j Hj. lia.
    + do 2 eexists. split; [reflexivity|]. split; [|left; exact FS].
      apply (Hc _ 90%nat (opposed 90) (opposed_given 90)); parts; try reflexivity.
      * lia.
      * apply set90_split. lia.
      * rewrite set90_forces by lia. rewrite app_length, !repeat_length. lia.
      * intros j Hj. rewrite set90_forces by lia. rewrite nth_error_app2, repeat_length by (rewrite repeat_length; lia).
        rewrite nth_error_repeat_lt by lia. eexists; split; reflexivity.
Qed.
