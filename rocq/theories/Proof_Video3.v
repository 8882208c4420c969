(** C84: whole videos. *)
From Coq Require Import Reals List Arith Bool ZArith Lia Lra.
From Verif Require Import Base Py Model_Mob Model_Close Model_Shear Model_Step Model_MinfP Model_Output Model_Frame Model_Inputs Model_Graphics
  Model_Checkpoint Model_Video Spec_Checkpoint Spec_Shear Spec_Video Proof_Periodic Proof_Periodic2 Proof_Video Proof_Video2.
Import ListNotations.
Local Open Scope R_scope.

(** ** The red box *)
Lemma unstrained_basis f k l : unstrained f -> (k < 3)%nat -> (l < 3)%nat -> video_basis f k l = diag3 (vsub (f_tr f) (f_bl f)) k l.
Proof.
  intros U Hk Hl. unfold video_basis, shear_basis_vectors. set (box := vsub (f_tr f) (f_bl f)).
  replace (cross (f_Ot f) (diag3 box k) l + rsum 3 (fun j => f_Et f l j * diag3 box k j)) with 0.
  - rewrite rmod_0. ring.
  - destruct (U 0%nat ltac:(lia)) as [O0 _]. destruct (U 1%nat ltac:(lia)) as [O1 _]. destruct (U 2%nat ltac:(lia)) as [O2 _].
    destruct (U l Hl) as [_ E]. cbn [rsum]. rewrite !E by lia. idx3 Hl; unfold cross; cbn; rewrite ?O0, ?O1, ?O2; ring.
Qed.
Lemma corner_unstrained f c l : unstrained f -> (forall l, (l < 3)%nat -> 0 < vsub (f_tr f) (f_bl f) l) -> (l < 3)%nat -> corner f c l = c l.
Proof.
  intros U P Hl. unfold corner, mvec. cbn [rsum].
  rewrite !unstrained_basis by (auto; lia). pose proof (P 0%nat ltac:(lia)). pose proof (P 1%nat ltac:(lia)). pose proof (P 2%nat ltac:(lia)). unfold diag3.
  idx3 Hl; cbn [Nat.eqb]; field; repeat split; lra.
Qed.
Lemma box_unstrained f : unstrained f -> (forall l, (l < 3)%nat -> 0 < vsub (f_tr f) (f_bl f) l) -> box_outline f (video_box f).
Proof. intros U P l Hl. cbv zeta. rewrite !corner_unstrained by assumption. auto. Qed.

Lemma frame_picture Ns row F f pic : proper_box f -> frame_of_picture Ns row F f pic -> picture_of Ns row F f pic.
Proof.
  intros PB (A & B & C). exists (video_basis f). split; [apply basis_carried, PB|]. split; [exact A|]. split; [exact B|].
  intros N. exists (video_box f). split; [apply C, N|]. intros U. apply box_unstrained; [exact U|]. apply box_pos; assumption.
Qed.

(** ** All frames *)
Lemma row_nat {A} (l : list A) k x : nth_error l k = Some x -> py_row l (Z.of_nat k) = Ok x.
Proof.
  intros H. unfold py_row. destruct (Z.ltb_spec (Z.of_nat k) 0); [lia|]. destruct (Z.ltb_spec (Z.of_nat k) 0); [lia|].
  rewrite Nat2Z.id, H. reflexivity.
Qed.
Lemma row_over {A} (l : list A) k : (length l <= k)%nat -> py_row l (Z.of_nat k) = Raise IndexError.
Proof.
  intros H. unfold py_row. destruct (Z.ltb_spec (Z.of_nat k) 0); [lia|]. destruct (Z.ltb_spec (Z.of_nat k) 0); [lia|].
  rewrite Nat2Z.id. replace (nth_error l k) with (@None A); [reflexivity|]. symmetry. apply nth_error_None, H.
Qed.

(** Row of the forces shown in picture [k] of [n]. *)
Definition force_row (n k : nat) : nat := if Nat.eqb (S k) n then (k - 1)%nat else k.
Lemma force_index n k : (1 < n)%nat -> (k < n)%nat ->
  (if (Z.of_nat k =? Z.of_nat n - 1)%Z then Z.of_nat k - 1 else Z.of_nat k)%Z = Z.of_nat (force_row n k).
Proof.
  intros N H. unfold force_row. destruct (Z.eqb_spec (Z.of_nat k) (Z.of_nat n - 1)) as [E|E]; destruct (Nat.eqb_spec (S k) n); lia.
Qed.

Lemma frames_all Ns Nd s fs every start flow_at n (P : nat -> picture -> Prop) m j :
  (forall k, (j <= k < j + m)%nat -> exists pic, video_frame Ns Nd s fs every start flow_at n (Z.of_nat k) = Ok pic /\ P k pic) ->
  exists pics, frames_from Ns Nd s fs every start flow_at n (seq j m) = Ok pics /\ length pics = m /\
    forall k pic, nth_error pics k = Some pic -> P (j + k)%nat pic.
Proof.
  revert j. induction m as [|m IH]; intros j H.
  - exists []. split; [reflexivity|]. split; [reflexivity|]. intros [|k] pic E; discriminate.
  - destruct (H j ltac:(lia)) as (p & E & Q). destruct (IH (S j)) as (q & E2 & L & QQ); [intros k Hk; apply H; lia|].
    exists (p :: q). cbn [seq frames_from]. rewrite E. cbn [bind]. rewrite E2. cbn [bind]. split; [reflexivity|]. split; [simpl; lia|].
    intros [|k] pic K; cbn in K; [injection K as <-; rewrite Nat.add_0_r; exact Q|].
    replace (j + S k)%nat with (S j + k)%nat by lia. apply QQ, K.
Qed.

Lemma video_shown Ns s fs every start stop flow_at (fl : nat -> flow) n :
  (0 < every)%nat -> (1 < n)%nat ->
  video_length s (Z.of_nat every) (Z.of_nat start) stop = Ok (Z.of_nat n) ->
  (forall k, (k < n)%nat -> (k * every + start < length s)%nat /\ (force_row n k < length fs)%nat /\
     flow_at (INR (k * every + start)) = Ok (fl k) /\ proper_box (fl k)) ->
  exists pics, video Ns 0 s fs (Z.of_nat every) (Z.of_nat start) stop flow_at = Ok pics /\ length pics = n /\
    forall k row F pic, nth_error s (k * every + start) = Some row -> nth_error fs (force_row n k) = Some F -> nth_error pics k = Some pic ->
      picture_of Ns row (n_Fa F) (fl k) pic.
Proof.
  intros HE HN HL H. unfold video. rewrite HL. cbn [bind]. rewrite Nat2Z.id.
  destruct (frames_all Ns 0 s fs (Z.of_nat every) (Z.of_nat start) flow_at (Z.of_nat n)
    (fun k pic => forall row F, nth_error s (k * every + start) = Some row -> nth_error fs (force_row n k) = Some F -> picture_of Ns row (n_Fa F) (fl k) pic) n 0) as (pics & E & L & Q).
  - intros k Hk. destruct (H k ltac:(lia)) as (A & B & C & D).
    destruct (nth_error s (k * every + start)) as [row|] eqn:ER; [|apply nth_error_None in ER; lia].
    destruct (nth_error fs (force_row n k)) as [F|] eqn:EF; [|apply nth_error_None in EF; lia].
    assert (EI : (Z.of_nat k * Z.of_nat every + Z.of_nat start = Z.of_nat (k * every + start))%Z) by lia.
    destruct (frame_shown Ns 0 s fs (Z.of_nat every) (Z.of_nat start) flow_at (Z.of_nat n) (Z.of_nat k) row F (fl k)) as (pic & EP & FP).
    + reflexivity.
    + rewrite EI. apply row_nat, ER.
    + rewrite force_index by lia. apply row_nat, EF.
    + rewrite EI, <- INR_IZR_INZ. exact C.
    + exact D.
    + exists pic. split; [exact EP|]. intros row' F' R1 R2. injection R1 as <-. injection R2 as <-. apply frame_picture; assumption.
  - exists pics. split; [exact E|]. split; [exact L|]. intros k row F pic A B C. exact (Q k pic C row F A B).
Qed.

(** ** The flow *)
Lemma flow_agrees n fm Ns Nd p t dt i f Ns' Nd' p' :
  (0 <= n)%Z -> n <> 4%Z -> input_ftsuoe n fm Ns Nd p t dt = Ok (i, f) ->
  video_flow n Ns' Nd' p' dt t = Ok f /\ proper_box f.
Proof.
  intros H4 HN E. unfold video_flow. unfold input_ftsuoe in *. destruct (Z.ltb_spec n 0); [lia|].
  assert (U : proper_box default_flow) by (left; intros l Hl; reflexivity).
  destruct n as [|n|n]; [discriminate| |lia].
  do 3 (try destruct n as [n|n|]); try discriminate; try (exfalso; apply HN; reflexivity);
    try (unfold oscillatory_shear in *; destruct (Reqb 10 0); [discriminate|]; cbn [bind] in *);
    injection E as _ <-; (split; [reflexivity|]);
    first [exact U | left; intros l Hl; reflexivity | right; intros l Hl; cbn; idx3 Hl; cbn; lra].
Qed.
Lemma flow_repulsion Ns Nd p dt t : (0 < Ns + Nd)%nat -> video_flow 4 Ns Nd p dt t = Raise TypeError.
Proof.
  intros H. unfold video_flow, input_ftsuoe. cbn [Z.ltb Z.compare]. cbn [default_inputs].
  unfold empty_vectors. destruct Ns as [|Ns]; [|reflexivity]. destruct Nd as [|Nd]; [lia|]. reflexivity.
Qed.

(** ** Failures *)
Lemma frames_first Ns Nd s fs every start flow_at n m j e : (j < m)%nat ->
  (forall k, (k < j)%nat -> exists pic, video_frame Ns Nd s fs every start flow_at n (Z.of_nat k) = Ok pic) ->
  video_frame Ns Nd s fs every start flow_at n (Z.of_nat j) = Raise e ->
  frames_from Ns Nd s fs every start flow_at n (seq 0 m) = Raise e.
Proof.
  intros H K E. cut (forall d i, (i + d = j)%nat -> frames_from Ns Nd s fs every start flow_at n (seq i (m - i)) = Raise e).
  - intros C. rewrite <- (Nat.sub_0_r m). apply (C j 0%nat). lia.
  - induction d as [|d IH]; intros i Hi.
    + replace i with j in * by lia. replace (m - j)%nat with (S (m - S j)) by lia. cbn [seq frames_from]. rewrite E. reflexivity.
    + destruct (K i ltac:(lia)) as [pic EP]. replace (m - i)%nat with (S (m - S i)) by lia. cbn [seq frames_from].
      rewrite EP. cbn [bind]. rewrite (IH (S i)) by lia. reflexivity.
Qed.
Lemma frame_dumbbells Ns Nd s fs every start flow_at n k row F f : (0 < Nd)%nat ->
  py_row s (k * every + start)%Z = Ok row -> py_row fs (if (k =? n - 1)%Z then k - 1 else k)%Z = Ok F -> flow_at (IZR (k * every + start)) = Ok f ->
  video_frame Ns Nd s fs every start flow_at n k = Raise TypeError.
Proof.
  intros H A B C. unfold video_frame. rewrite A. cbn [bind]. rewrite B. cbn [bind]. rewrite C. cbn [bind].
  destruct (Nat.ltb_spec 0 Nd); [reflexivity|lia].
Qed.
