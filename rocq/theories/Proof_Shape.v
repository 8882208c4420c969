(** The shapes of what [generate_output_FTSUOE] returns. *)
From Coq Require Import Reals List Arith Bool Lia Lra.
From Verif Require Import Base Py Model_Pack Model_Convert Model_Minf Model_Grand Model_Close Model_R2B Model_MinfP Model_GrandP Model_Step
  Model_Output Model_Frame Model_Inputs Model_Sim Spec_Pack Proof_Pack Spec_Convert Spec_Output Proof_Output Proof_Output2 Proof_Output3 Spec_Run Proof_Frame.
Import ListNotations.
Local Open Scope R_scope.

Lemma reshape_shaped n w l r : reshape n w l = Ok r -> shaped n w r.
Proof.
  unfold reshape. destruct (Nat.eqb_spec (length l) (n * w)) as [E|]; [|discriminate]. intros H. injection H as <-.
  destruct (chunks_shaped n w l E) as (H1 & H2 & _). split; assumption.
Qed.
Lemma uncondense_shaped c n s : uncondense c n = Ok s -> shaped_st n s.
Proof.
  unfold uncondense. destruct (_ && _)%bool; [|discriminate].
  assert (K : forall x y : list (list (list R)), Ok x = Ok y -> x = y) by (intros x y H; injection H; auto).
  intros H. apply K in H. subst s. split; [rewrite map_length, seq_length; reflexivity|].
  intros t Ht. apply in_map_iff in Ht. destruct Ht as (i & <- & _). apply uncondense1_sym_traceless.
Qed.
Lemma deconstruct_shaped Ns Nd v u o e ub hdu :
  deconstruct_velocity_vector_for_fts Ns Nd v = Ok (u, o, e, ub, hdu) ->
  shaped Ns 3 u /\ shaped Ns 3 o /\ shaped_st Ns e /\ shaped Nd 3 ub /\ shaped Nd 3 hdu.
Proof.
  unfold deconstruct_velocity_vector_for_fts. cbv zeta. intros H. binv H. binv H. binv H. binv H. binv H. binv H.
  injection H as <- <- <- <- <-.
  apply reshape_shaped in E, E0, E2, E3. apply uncondense_shaped in E4. auto.
Qed.
Lemma given_shaped e n w l l' : all_given n w l -> given e l = Ok l' -> shaped n w l'.
Proof.
  intros H G. destruct (all_given_rows _ _ _ H) as (r & -> & S). rewrite given_map in G. injection G as <-. exact S.
Qed.
Lemma given_shaped33 e n l l' : all_given33 n l -> given e l = Ok l' -> length l' = n /\ forall m, In m l' -> is33 m.
Proof.
  intros H G. destruct (all_given33_rows _ _ H) as (r & -> & S). rewrite given_map in G. injection G as <-. exact S.
Qed.
Lemma shaped_st_33 n s : shaped_st n s -> length s = n /\ forall m, In m s -> is33 m.
Proof. intros [L H]. split; [exact L|]. intros m Hm. apply (H m Hm). Qed.

(** The first [k] rows of [a], the others of [b]. *)
Lemma split_shaped e n k a b a1 b2 r :
  (k <= n)%nat -> length a = n -> length b = n ->
  lslice a 0 k = map Some a1 -> shaped k 3 a1 -> lslice b k n = map Some b2 -> shaped (n - k) 3 b2 ->
  given e (split_out n k a b) = Ok r -> shaped n 3 r.
Proof.
  intros Hk La Lb Ea Sa Eb Sb H. rewrite split_out_eq in H by assumption. rewrite Ea, Eb, <- map_app, given_map in H.
  injection H as <-. replace n with (k + (n - k))%nat by lia. apply shaped_app; assumption.
Qed.

Lemma output_shape inv solve Ns Nd fm G i o :
  well_posed Ns Nd fm i -> (0 < Ns)%nat -> generate_output inv solve Ns Nd fm false G i (fun _ => i) = Ok o -> of_shape Ns Nd fm o.
Proof.
  intros (HT & HW) HN H. unfold generate_output in H. destruct fm; try contradiction.
  - destruct HW as (L & HF & HS & HFb & HD). unfold output_fts in H.
    binv H. binv H. binv H. destruct a1 as [[[[u w] e] ub] hd]. binv H. binv H. binv H. binv H. binv H. binv H.
    injection H as <-. apply deconstruct_shaped in E1. destruct E1 as (S1 & S2 & S3 & S4 & S5).
    rewrite L in E7. destruct (Nat.eqb_spec Ns 0); [lia|]. injection E7 as <-.
    pose proof (given_shaped _ _ _ _ _ HF E2). pose proof (given_shaped _ _ _ _ _ HT E3). pose proof (given_shaped33 _ _ _ _ HS E4).
    pose proof (given_shaped _ _ _ _ _ HFb E5). pose proof (given_shaped _ _ _ _ _ HD E6). pose proof (shaped_st_33 _ _ S3).
    unfold of_shape. cbn. auto 15.
  - destruct HW as (HF & HE & HFb & HD). unfold output_fte in H. cbv zeta in H.
    binv H. binv H. binv H. binv H. destruct a2 as [[[[u w] e] ub] hd]. binv H. binv H. binv H. binv H. binv H.
    injection H as <-. apply deconstruct_shaped in E2. destruct E2 as (S1 & S2 & S3 & S4 & S5).
    pose proof (given_shaped _ _ _ _ _ HF E3). pose proof (given_shaped _ _ _ _ _ HT E4). pose proof (given_shaped33 _ _ _ _ HE E5).
    pose proof (given_shaped _ _ _ _ _ HFb E6). pose proof (given_shaped _ _ _ _ _ HD E7). pose proof (shaped_st_33 _ _ S3).
    unfold of_shape. cbn. auto 15.
  - destruct HW as ((nfix & HU & HR) & HE & HFb & HD). unfold output_ufte in H. cbv zeta in H.
    rewrite (proj1 (proj2 HU)), (nfix_count _ _ _ _ HU HR) in H.
    binv H. binv H. binv H. binv H. binv H. destruct a3 as [[[[u w] e] ub] hd]. binv H. binv H. binv H. binv H. binv H. binv H.
    injection H as <-. apply deconstruct_shaped in E3. destruct E3 as (S1 & S2 & S3 & S4 & S5).
    pose proof (given_shaped _ _ _ _ _ HT E4). pose proof (given_shaped33 _ _ _ _ HE E5).
    pose proof (given_shaped _ _ _ _ _ HFb E6). pose proof (given_shaped _ _ _ _ _ HD E7). pose proof (shaped_st_33 _ _ S3).
    destruct (split_given_rows _ _ _ _ HU) as (u1 & f2 & EU & SU & EF & SF). destruct HU as (Hk & LU & LF & _).
    destruct (split_shapes Ns nfix u Hk S1) as (X1 & X2 & X3 & X4).
    pose proof (split_shaped _ Ns nfix _ _ _ _ _ Hk ltac:(rewrite map_length; apply S1) LF X1 X2 EF SF E8).
    pose proof (split_shaped _ Ns nfix _ _ _ _ _ Hk LU ltac:(rewrite map_length; apply S1) EU SU X3 X4 E9).
    unfold of_shape. cbn. auto 15.
  - destruct HW as ((nfix & HU & HR) & HE & nfixd & HUb & HRb & HD). unfold output_ufteu in H. cbv zeta in H.
    rewrite (proj1 (proj2 HU)), (nfix_count _ _ _ _ HU HR) in H.
    rewrite (proj1 (proj2 HUb)), (nfix_count _ _ _ _ HUb HRb) in H.
    binv H. binv H. binv H. binv H. binv H. destruct a3 as [[[[u w] e] ub] hd].
    binv H. binv H. binv H. binv H. binv H. binv H. binv H. binv H.
    injection H as <-. apply deconstruct_shaped in E3. destruct E3 as (S1 & S2 & S3 & S4 & S5).
    pose proof (given_shaped _ _ _ _ _ HT E4). pose proof (given_shaped33 _ _ _ _ HE E5). pose proof (shaped_st_33 _ _ S3).
    destruct (split_given_rows _ _ _ _ HU) as (u1 & f2 & EU & SU & EF & SF). destruct HU as (Hk & LU & LF & _).
    destruct (split_shapes Ns nfix u Hk S1) as (X1 & X2 & X3 & X4).
    pose proof (split_shaped _ Ns nfix _ _ _ _ _ Hk ltac:(rewrite map_length; apply S1) LF X1 X2 EF SF E6).
    pose proof (split_shaped _ Ns nfix _ _ _ _ _ Hk LU ltac:(rewrite map_length; apply S1) EU SU X3 X4 E7).
    destruct (split_given_rows _ _ _ _ HUb) as (v1 & g2 & EV & SV & EG & SG). destruct HUb as (Hkd & LV & LG & _).
    destruct (split_shapes Nd nfixd ub Hkd S4) as (Y1 & Y2 & Y3 & Y4).
    pose proof (split_shaped _ Nd nfixd _ _ _ _ _ Hkd ltac:(rewrite map_length; apply S4) LG Y1 Y2 EG SG E8).
    pose proof (split_shaped _ Nd nfixd _ _ _ _ _ Hkd LV ltac:(rewrite map_length; apply S4) EV SV Y3 Y4 E9).
    destruct (split_given_rows _ _ _ _ HD) as (w1 & h2 & EW & SW & EH & SH). destruct HD as (_ & LW & LH & _).
    destruct (split_shapes Nd nfixd hd Hkd S5) as (Z1 & Z2 & Z3 & Z4).
    pose proof (split_shaped _ Nd nfixd _ _ _ _ _ Hkd ltac:(rewrite map_length; apply S5) LH Z1 Z2 EH SH E10).
    pose proof (split_shaped _ Nd nfixd _ _ _ _ _ Hkd LW ltac:(rewrite map_length; apply S5) EW SW Z3 Z4 E11).
    unfold of_shape. cbn. auto 15.
Qed.
