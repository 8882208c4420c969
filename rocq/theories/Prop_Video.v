(** C84: the pictures made of a saved run. *)
From Coq Require Import Reals List Arith Bool Ascii String ZArith Lia Lra.
From Verif Require Import Base Py Model_Mob Model_Close Model_Shear Model_Step Model_MinfP Model_Output Model_Frame Model_Inputs Model_Graphics
  Model_Sim Model_Checkpoint Model_Video Spec_Checkpoint Spec_Frame Spec_Shear Spec_Video Proof_Frame Proof_Posdef Proof_Posdef2 Proof_Run2 Proof_Periodic Proof_Periodic2
  Proof_Video Proof_Video2 Proof_Video3 Prop_Frame Prop_Run.
Import ListNotations.
Local Open Scope R_scope.

(** The name of a file gives back the timestep, the input number and the setup
    number of the run, if the timestep is at least 0.0001 or a whole number. *)
Theorem C84_name : forall ts P M d1 d2 d3 tail,
  ~ In "-"%char ts -> (0 <= setup_number P)%Z -> (0 <= input_number P)%Z -> (0 <= num_frames P)%Z ->
  normal_timestep (timestep P) ->
  (exists n, timestep P = TInt n) \/ / 10000 <= denotes (timestep P) ->
  video_parameters (file_name ts P M d1 d2 d3 ++ tail) = Ok (denotes (timestep P), input_number P, setup_number P).
Proof.
  intros ts P M d1 d2 d3 tail T HS HI HF HT HL. rewrite name_read by assumption.
  destruct (timestep P) as [n|ds p] eqn:E; [reflexivity|]. destruct (Z.leb_spec p (-4)) as [L|L]; [exfalso|reflexivity].
  destruct HL as [[n K]|K]; [discriminate|]. destruct HT as [D1 D2]. apply (small_float ds p D1 D2) in L. lra.
Qed.
Print Assumptions C84_name.
Example C84_name_example :
  video_parameters (lit "2403051200-s1-i2-100fr-t0p25-M1-desc") = Ok (denotes (TFloat [2%nat; 5%nat] 0), 2%Z, 1%Z) /\
  normal_timestep (TFloat [2%nat; 5%nat] 0) /\ denotes (TFloat [2%nat; 5%nat] 0) = 25 / 100.
Proof.
  split; [|split; [|cbn; lra]].
  - change (lit "2403051200-s1-i2-100fr-t0p25-M1-desc") with
      (file_name (lit "2403051200") (mkParams 1 2 100 (TFloat [2%nat; 5%nat] 0)) 1 [] [] (lit "desc")).
    rewrite <- (app_nil_r (file_name _ _ _ _ _ _)).
    apply C84_name; try (cbn; lia); [cbn; intuition discriminate| |right; cbn; lra].
    split; [split; [discriminate|repeat constructor; lia]|cbn; lia].
  - split; [split; [discriminate|repeat constructor; lia]|cbn; lia].
Qed.

(** Finding: with a smaller timestep, which python writes with an exponent, and
    with a negative setup number, no video can be made of the file. *)
Theorem C84_name_refuted : forall ts P M d1 d2 d3 tail,
  ~ In "-"%char ts ->
  ((0 <= setup_number P)%Z /\ (0 <= input_number P)%Z /\ (0 <= num_frames P)%Z /\
     (exists ds p, timestep P = TFloat ds p /\ decimal ds /\ hd 0%nat ds <> 0%nat) /\ denotes (timestep P) < / 10000) \/
  (setup_number P < 0)%Z ->
  video_parameters (file_name ts P M d1 d2 d3 ++ tail) = Raise ValueError.
Proof.
  intros ts P M d1 d2 d3 tail T [(HS & HI & HF & (ds & p & E & D1 & D2) & HL)|H]; [|apply name_negative; assumption].
  rewrite name_read; try assumption; [|rewrite E; split; assumption]. rewrite E in *.
  apply (small_float ds p D1 D2) in HL. destruct (Z.leb_spec p (-4)); [reflexivity|lia].
Qed.
Print Assumptions C84_name_refuted.
Example C84_small_timestep : video_parameters (lit "2403051200-s1-i2-100fr-t1e-05-M1") = Raise ValueError.
Proof. reflexivity. Qed.

(** The pictures of a file with [N] rows of forces and one more of positions, all
    frames shown: one for each row of positions, showing that row; reddened by the
    forces of the same row, the last one by those of the row before. *)
Theorem C84_pictures : forall Ns s fs flow_at (fl : nat -> flow),
  (0 < List.length fs)%nat -> List.length s = S (List.length fs) ->
  (forall k, (k < List.length s)%nat -> flow_at (INR k) = Ok (fl k) /\ proper_box (fl k)) ->
  exists pics, video Ns 0 s fs 1 0 0 flow_at = Ok pics /\ List.length pics = List.length s /\
    forall k row F pic, nth_error s k = Some row -> nth_error fs (Nat.min k (List.length fs - 1)) = Some F -> nth_error pics k = Some pic ->
      picture_of Ns row (n_Fa F) (fl k) pic.
Proof.
  intros Ns s fs flow_at fl HN HL HF.
  destruct (video_shown Ns s fs 1 0 0 flow_at fl (List.length s)) as (pics & E & L & Q).
  - lia.
  - lia.
  - unfold video_length. cbn [Z.eqb]. rewrite Z.div_1_r. reflexivity.
  - intros k Hk. rewrite Nat.mul_1_r, Nat.add_0_r. split; [exact Hk|]. split; [|apply HF, Hk].
    unfold force_row. destruct (Nat.eqb_spec (S k) (List.length s)); lia.
  - exists pics. split; [exact E|]. split; [exact L|]. intros k row F pic A B C.
    apply (Q k row F pic); [rewrite Nat.mul_1_r, Nat.add_0_r; exact A| |exact C].
    assert (K : (k < List.length s)%nat) by (apply nth_error_Some; congruence).
    unfold force_row. destruct (Nat.eqb_spec (S k) (List.length s)).
    + replace (Nat.min k (List.length fs - 1)) with (k - 1)%nat in B by lia. exact B.
    + replace (Nat.min k (List.length fs - 1)) with k in B by lia. exact B.
Qed.
Print Assumptions C84_pictures.

(** The script applied to the file of a run uses the box and the strain the run
    had (inputs other than 4), whatever the configuration. *)
Theorem C84_flow : forall n fm Ns Nd p t dt i f Ns' Nd' p',
  (0 <= n)%Z -> n <> 4%Z -> input_ftsuoe n fm Ns Nd p t dt = Ok (i, f) ->
  video_flow n Ns' Nd' p' dt t = Ok f /\ proper_box f.
Proof. exact flow_agrees. Qed.
Print Assumptions C84_flow.

(** From the run to its video: a run of spheres that saved every frame, by one of
    the input numbers.  Picture [k] shows the spheres where they were at frame [k]
    and the forces of frame [k]; the last picture shows the final positions. *)
Theorem C84_run : forall inv Ns far rest g p0 s fs ts P M d1 d2 d3 setup Ns0 Nd0 q fm (fl : nat -> flow),
  let frames := run_frames inv Ns 0 far rest g (fresh p0) in
  let N := g_num_frames g in
  g_start g = 0%nat -> g_save_pos g = 1%nat -> g_save_forces g = 1%nat -> g_save_after g = 0%nat -> (0 < N)%nat ->
  (forall m st, (m < N)%nat -> frames (seq 0 m) = Ok st -> s_error st = false) ->
  simulate inv Ns 0 far rest g (fresh p0) = Ok (Some (s, fs)) ->
  ~ In "-"%char ts -> (0 <= setup_number P)%Z -> (0 <= input_number P)%Z -> input_number P <> 4%Z -> (0 <= num_frames P)%Z ->
  normal_timestep (timestep P) -> (exists n, timestep P = TInt n) \/ / 10000 <= denotes (timestep P) ->
  setup (setup_number P) = Ok (Ns0, Nd0, q) ->
  (forall k, (k <= N)%nat -> exists p i, input_ftsuoe (input_number P) fm Ns 0 p (INR k) (denotes (timestep P)) = Ok (i, fl k)) ->
  exists pos frc pics,
    (forall m, (m <= N)%nat -> exists st, frames (seq 0 m) = Ok st /\ s_pos st = pos m) /\
    (forall m, (m < N)%nat -> exists st regen r, frames (seq 0 m) = Ok st /\ regenerate_now g m = Ok regen /\
      step inv Ns 0 far rest g m regen (s_pos st) false (if regen then no_matrix else s_minv st) (vel_at g st m) = Ok r /\
      frc m = t_forces r) /\
    make_video (file_name ts P M d1 d2 d3) setup Ns 0 s fs 1 0 0 = Ok pics /\ List.length pics = S N /\
    forall k pic, nth_error pics k = Some pic ->
      picture_of Ns (snap Ns (pos k)) (n_Fa (frc (Nat.min k (N - 1)))) (fl k) pic.
Proof.
  intros inv Ns far rest g p0 s fs ts P M d1 d2 d3 setup Ns0 Nd0 q fm fl frames N H0 H1 H2 H3 HN Hq Hsim T HS HI H4 HF HT HL Hset Hfl.
  destruct (C35_output inv Ns 0 far rest g p0 s fs H0) as (pos & frc & A & Es & Ef & B); try assumption; try (rewrite ?H1, ?H2, ?H3; cbn; lia).
  fold N in Es, Ef. rewrite H1, H3 in Es. rewrite H2, H3 in Ef.
  assert (D : forall l, filter (save_due 1 0) l = l).
  { induction l as [|x l IH]; [reflexivity|]. cbn [filter]. replace (save_due 1 0 x) with true by (unfold save_due; rewrite Nat.mod_1_r; reflexivity). rewrite IH. reflexivity. }
  unfold due_frames in Es, Ef. rewrite D in Es, Ef. replace (save_due 1 0 (N - 1)) with true in Es by (unfold save_due; rewrite Nat.mod_1_r; reflexivity).
  assert (Es' : s = map (fun m => snap Ns (pos m)) (seq 0 (S N))).
  { rewrite seq_S, map_app. rewrite Es. reflexivity. }
  assert (Ls : List.length s = S N) by (rewrite Es', map_length, seq_length; reflexivity).
  assert (Lf : List.length fs = N) by (rewrite Ef, map_length, seq_length; reflexivity).
  destruct (C84_pictures Ns s fs (video_flow (input_number P) Ns0 Nd0 q (denotes (timestep P))) fl) as (pics & E & L & Q).
  - lia.
  - lia.
  - intros k Hk. destruct (Hfl k ltac:(lia)) as (p & i & Ei). exact (C84_flow _ _ _ _ _ _ _ _ _ Ns0 Nd0 q HI H4 Ei).
  - exists pos, frc, pics. split; [exact A|]. split; [exact B|]. split.
    + unfold make_video. rewrite <- (app_nil_r (file_name _ _ _ _ _ _)). rewrite C84_name by assumption. cbn [bind]. rewrite Hset. exact E.
    + split; [lia|]. intros k pic K. assert (KL : (k < S N)%nat) by (rewrite <- Ls, <- L; apply nth_error_Some; congruence).
      apply (Q k); [| |exact K].
      * rewrite Es'. rewrite nth_error_map. rewrite (nth_error_nth' _ 0%nat) by (rewrite seq_length; exact KL). rewrite seq_nth by exact KL. reflexivity.
      * rewrite Lf, Ef. rewrite nth_error_map. rewrite (nth_error_nth' _ 0%nat) by (rewrite seq_length; lia). rewrite seq_nth by lia. reflexivity.
Qed.
Print Assumptions C84_run.

(** Instance: any number of spheres falling under gravity with the drag matrix for
    any number of frames of 0.1; the video of the file. *)
Example C84_example sc Ns p0 N setup Nd0 q :
  (0 < Ns)%nat -> (0 < N)%nat -> (forall i, (i < Ns)%nat -> 0 < c_ssizes p0 i) -> setup 1%Z = Ok (Ns, Nd0, q) ->
  let dt := denotes (TFloat [1%nat] 0) in
  let input := fun p t => input_ftsuoe 1 fte Ns 0 p t dt in
  exists s fs pics,
    full_simulation pinv (fun m => m) psolve sc [] 0 (fun _ _ => 0) Ns 0 fte false true true 2 (drag_settings dt N) input p0 = Ok (Some (s, fs)) /\
    make_video (file_name (lit "2403051200") (mkParams 1 1 (Z.of_nat N) (TFloat [1%nat] 0)) 1 [] [] []) setup Ns 0 s fs 1 0 0 = Ok pics /\
    List.length pics = S N /\
    forall k row pic, nth_error s k = Some row -> nth_error pics k = Some pic ->
      List.length (pic_discs pic) = Ns /\ pic_box pic = None /\
      forall i, (i < Ns)%nat -> exists d, In d (pic_discs pic) /\ forall l, (l < 3)%nat -> d_centre d l = n_pos row i l.
Proof.
  intros HN HF HP Hset dt input. destruct (C65_example sc Ns p0 dt N HN HF HP) as (s & fs & E & _ & L1 & L2). fold input in E.
  destruct (C84_pictures Ns s fs (video_flow 1 Ns Nd0 q dt) (fun _ => default_flow)) as (pics & EV & LV & Q).
  - lia.
  - lia.
  - intros k _. split; [reflexivity|]. left. intros l Hl. reflexivity.
  - exists s, fs, pics. split; [exact E|]. split.
    + unfold make_video. rewrite <- (app_nil_r (file_name _ _ _ _ _ _)). rewrite C84_name; cbn [setup_number input_number num_frames timestep]; try lia.
      * cbn [bind]. rewrite Hset. exact EV.
      * cbn. intuition discriminate.
      * split; [split; [discriminate|repeat constructor; lia]|cbn; lia].
      * right. cbn. lra.
    + split; [lia|]. intros k row pic K1 K2.
      assert (KF : exists F, nth_error fs (Nat.min k (List.length fs - 1)) = Some F).
      { destruct (nth_error fs _) as [F|] eqn:EE; [exists F; reflexivity|]. apply nth_error_None in EE. lia. }
      destruct KF as [F KF]. destruct (Q k row F pic K1 KF K2) as (b & _ & [_ G] & U & _).
      destruct U as [U1 U2]; [intros l Hl; reflexivity|]. split; [exact U1|]. split; [exact U2|].
      intros i Hi. destruct (G i (v3 0 0 0) Hi) as (d & Hd & _ & S & _).
      { split; [intros _ l Hl; idx3 Hl; reflexivity|]. intros NU. exfalso. apply NU. intros l Hl. reflexivity. }
      exists d. split; [exact Hd|]. intros l Hl. destruct (S l Hl) as [-> _]. unfold vadd. idx3 Hl; cbn; ring.
Qed.

(** With a periodic box: the copies to the sides are drawn; in a cubic box the four
    diagonal ones are not. *)
Example C84_copies (f : flow) b (L : R) : 0 < L -> unstrained f -> (forall l, (l < 3)%nat -> f_tr f l - f_bl f l = L) -> carried_basis f b ->
  seen f b (v3 L 0 0) /\ seen f b (v3 0 0 (- L)) /\ seen f b (v3 0 0 0) /\ ~ seen f b (v3 L 0 L).
Proof.
  intros HL U HB C.
  assert (NU : ~ unbounded_domain f) by (intros N; specialize (N 0%nat ltac:(lia)); specialize (HB 0%nat ltac:(lia)); lra).
  assert (Eb : forall k l, (k < 3)%nat -> (l < 3)%nat -> b k l = edges (vsub (f_tr f) (f_bl f)) k l).
  { intros k l Hk Hl. destruct (C k l Hk Hl) as (m & E & R). assert (VB : vsub (f_tr f) (f_bl f) l = L) by (apply HB, Hl). rewrite VB in E, R.
    assert (Z : cross (f_Ot f) (edges (vsub (f_tr f) (f_bl f)) k) l + rsum 3 (fun j => f_Et f l j * edges (vsub (f_tr f) (f_bl f)) k j) = 0).
    { destruct (U 0%nat ltac:(lia)) as [O0 _]. destruct (U 1%nat ltac:(lia)) as [O1 _]. destruct (U 2%nat ltac:(lia)) as [O2 _].
      destruct (U l Hl) as [_ EE]. cbn [rsum]. rewrite !EE by lia. idx3 Hl; unfold cross; cbn; rewrite ?O0, ?O1, ?O2; ring. }
    rewrite Z in E. rewrite E in R.
    assert (m = 0%Z); [|subst m; rewrite E; ring].
    assert (- (1) < IZR m < 1) as [M1 M2] by (split; nra).
    change (- (1)) with (IZR (-1)) in M1. apply lt_IZR in M1. apply lt_IZR in M2. lia. }
  assert (E0 : forall l, (l < 3)%nat -> b 0%nat l = v3 L 0 0 l).
  { intros l Hl. rewrite Eb by (exact Hl || lia). unfold edges. idx3 Hl; cbn; [apply HB; lia|reflexivity|reflexivity]. }
  assert (E2 : forall l, (l < 3)%nat -> b 2%nat l = v3 0 0 L l).
  { intros l Hl. rewrite Eb by (exact Hl || lia). unfold edges. idx3 Hl; cbn; [reflexivity|reflexivity|apply HB; lia]. }
  assert (V : vsub (f_tr f) (f_bl f) 0%nat * vsub (f_tr f) (f_bl f) 1%nat * vsub (f_tr f) (f_bl f) 2%nat = L ^ 3).
  { unfold vsub. rewrite !HB by lia. ring. }
  assert (S : forall a c X, small_step a -> small_step c -> (forall l, (l < 3)%nat -> X l = IZR a * v3 L 0 0 l + IZR c * v3 0 0 L l) ->
     norm X <= 14142 / 10000 * L -> seen f b X).
  { intros a c X Ha Hc EX N. split; [intros; contradiction|]. intros _. split.
    - exists a, c. split; [exact Ha|]. split; [exact Hc|]. intros l Hl. rewrite E0, E2 by exact Hl. apply EX, Hl.
    - exists L. split; [exact HL|]. split; [symmetry; exact V|exact N]. }
  assert (NL : forall x z, x ^ 2 + z ^ 2 <= (14142 / 10000 * L) ^ 2 -> norm (v3 x 0 z) <= 14142 / 10000 * L).
  { intros x z H. unfold norm. cbn [v3]. rewrite <- (sqrt_pow2 (14142 / 10000 * L)) by lra. apply sqrt_le_1_alt. lra. }
  split; [apply (S 1%Z 0%Z)|split; [apply (S 0%Z (-1)%Z)|split; [apply (S 0%Z 0%Z)|]]]; try (unfold small_step; tauto);
    try (intros l Hl; idx3 Hl; cbn; ring); try (apply NL; nra).
  intros [_ K]. destruct (K NU) as [_ (e & P & EE & N)]. rewrite V in EE. pose proof (cube_unique e L P HL EE). subst e.
  unfold norm in N. cbn [v3] in N. assert (Q : (14142 / 10000 * L) ^ 2 < L ^ 2 + 0 ^ 2 + L ^ 2) by nra.
  pose proof (sqrt_lt_1_alt _ _ (conj (pow2_ge_0 (14142 / 10000 * L)) Q)) as Q'. clear Q. rename Q' into Q. rewrite sqrt_pow2 in Q by lra. lra.
Qed.

(** Finding: only some of the frames shown, or a first frame given.  Picture [k]
    shows the positions of row [k * every + start], but the forces of row [k]. *)
Theorem C84_every : forall Ns s fs every start stop flow_at (fl : nat -> flow) n,
  (0 < every)%nat -> (1 < n)%nat ->
  n = (if Nat.eqb stop 0 then List.length s / every else (stop - start) / every)%nat ->
  (start <= stop \/ stop = 0)%nat ->
  ((n - 1) * every + start < List.length s)%nat -> (n - 1 <= List.length fs)%nat ->
  (forall k, (k < n)%nat -> flow_at (INR (k * every + start)) = Ok (fl k) /\ proper_box (fl k)) ->
  exists pics, video Ns 0 s fs (Z.of_nat every) (Z.of_nat start) (Z.of_nat stop) flow_at = Ok pics /\ List.length pics = n /\
    forall k row F pic, (S k < n)%nat -> nth_error s (k * every + start) = Some row -> nth_error fs k = Some F -> nth_error pics k = Some pic ->
      picture_of Ns row (n_Fa F) (fl k) pic.
Proof.
  intros Ns s fs every start stop flow_at fl n HE HN Hn Hst Hs Hf HF.
  destruct (video_shown Ns s fs every start (Z.of_nat stop) flow_at fl n) as (pics & E & L & Q).
  - exact HE.
  - exact HN.
  - unfold video_length. destruct (Z.eqb_spec (Z.of_nat every) 0); [lia|]. rewrite Hn. f_equal.
    destruct (Nat.eqb_spec stop 0) as [S|S]; destruct (Z.eqb_spec (Z.of_nat stop) 0); try lia.
    + rewrite Nat2Z.inj_div. reflexivity.
    + rewrite Nat2Z.inj_div, Nat2Z.inj_sub by lia. reflexivity.
  - intros k Hk. split; [nia|]. split; [|apply HF, Hk]. unfold force_row. destruct (Nat.eqb_spec (S k) n); lia.
  - exists pics. split; [exact E|]. split; [exact L|]. intros k row F pic Hk A B C. apply (Q k row F pic A); [|exact C].
    unfold force_row. destruct (Nat.eqb_spec (S k) n); [lia|exact B].
Qed.
Print Assumptions C84_every.

(** One sphere pushed harder and harder: every second frame shown, the second
    picture should be fully red and is not. *)
Theorem C84_every_refuted : exists s fs pics row F pic d, List.length s = S (List.length fs) /\
  video 1 0 s fs 2 0 0 (fun _ => Ok default_flow) = Ok pics /\
  nth_error s 2 = Some row /\ nth_error fs 2 = Some F /\ norm (n_Fa F 0%nat) = 1 /\ nth_error pics 1 = Some pic /\
  pic_discs pic = [d] /\ (forall l, (l < 3)%nat -> d_centre d l = n_pos row 0%nat l) /\ d_red d = 1 / 2.
Proof.
  set (row := fun x => mkSnap (fun _ => v3 x 0 0) (fun _ _ => v3 x 0 0) (fun _ => v3 0 0 0)).
  set (frc := fun x => mkFsnap (fun _ => v3 x 0 0) (fun _ => v3 0 0 0) (fun _ => v3 0 0 0) (fun _ => mzero) (fun _ => 0)).
  set (s := map row [0; 1; 2; 3; 4; 5; 6]). set (fs := map frc [0; 1 / 2; 1; 1; 1; 1]).
  assert (NF : forall x, 0 <= x -> norm (v3 x 0 0) = x).
  { intros x Hx. unfold norm. cbn [v3]. replace (x ^ 2 + 0 ^ 2 + 0 ^ 2) with (x ^ 2) by ring. apply sqrt_pow2, Hx. }
  destruct (C84_every 1 s fs 2 0 0 (fun _ => Ok default_flow) (fun _ => default_flow) 3) as (pics & E & L & Q); try (cbn; lia).
  - intros k _. split; [reflexivity|]. left. intros l Hl. reflexivity.
  - destruct (nth_error pics 1) as [pic|] eqn:EP; [|apply nth_error_None in EP; lia].
    destruct (Q 1%nat (row 2) (frc (1 / 2)) pic ltac:(lia) eq_refl eq_refl EP) as (b & _ & [G _] & U & _).
    destruct U as [U1 U2]; [intros l Hl; reflexivity|]. destruct (pic_discs pic) as [|d [|d' r]] eqn:ED; try discriminate.
    destruct (G d (or_introl eq_refl)) as (i & X & Hi & [HX _] & SH). destruct SH as (_ & S1 & S2).
    exists s, fs, pics, (row 2), (frc 1), pic, d. repeat (split; [first [reflexivity|exact E|apply NF; lra|exact EP|exact ED]|]).
    split.
    + intros l Hl. destruct (S1 l Hl) as [-> _]. unfold vadd. rewrite HX; [cbn; ring|intros k Hk; reflexivity|exact Hl].
    + rewrite S2. cbn [n_Fa frc]. rewrite NF by lra. apply Rmin_right. lra.
Qed.
Print Assumptions C84_every_refuted.

Lemma frames_ok Ns Nd s fs every start flow_at n m j pics :
  frames_from Ns Nd s fs every start flow_at n (seq j m) = Ok pics ->
  forall k, (j <= k < j + m)%nat -> exists pic, video_frame Ns Nd s fs every start flow_at n (Z.of_nat k) = Ok pic.
Proof.
  revert j pics. induction m as [|m IH]; intros j pics E k Hk; [lia|]. cbn [seq frames_from] in E.
  destruct (video_frame _ _ _ _ _ _ _ _ (Z.of_nat j)) as [p|e] eqn:EP; [|discriminate]. cbn [bind] in E.
  destruct (frames_from _ _ _ _ _ _ _ _ (seq (S j) m)) as [q|e] eqn:EQ; [|discriminate].
  destruct (Nat.eq_dec k j) as [->|]; [exists p; exact EP|]. apply (IH (S j) q EQ). lia.
Qed.

(** Finding: a first frame can only be given together with a last one. *)
Theorem C84_start_refuted : forall Ns Nd s fs start flow_at pics,
  (0 < start)%nat -> (0 < List.length s)%nat -> video Ns Nd s fs 1 (Z.of_nat start) 0 flow_at <> Ok pics.
Proof.
  intros Ns Nd s fs start flow_at pics HS HL E. unfold video, video_length in E. cbn [Z.eqb bind] in E. rewrite Z.div_1_r, Nat2Z.id in E.
  destruct (frames_ok _ _ _ _ _ _ _ _ _ _ _ E (List.length s - 1)%nat ltac:(lia)) as [pic EP]. unfold video_frame in EP.
  replace (Z.of_nat (List.length s - 1) * 1 + Z.of_nat start)%Z with (Z.of_nat (List.length s - 1 + start)) in EP by lia.
  rewrite row_over in EP by lia. discriminate.
Qed.
Print Assumptions C84_start_refuted.

(** Finding: no video of a file with dumbbells. *)
Theorem C84_dumbbells_refuted : forall Ns Nd s fs flow_at f,
  (0 < Nd)%nat -> (0 < List.length fs)%nat -> List.length s = S (List.length fs) -> flow_at 0 = Ok f ->
  video Ns Nd s fs 1 0 0 flow_at = Raise TypeError.
Proof.
  intros Ns Nd s fs flow_at f HD HF HL Hf. unfold video, video_length. cbn [Z.eqb bind]. rewrite Z.div_1_r, Nat2Z.id.
  destruct s as [|r0 s]; [discriminate|]. destruct fs as [|f0 fs]; [cbn in HF; lia|].
  apply (frames_first _ _ _ _ _ _ _ _ _ 0); [cbn; lia|intros k Hk; lia|].
  apply (frame_dumbbells _ _ _ _ _ _ _ _ _ r0 f0 f HD); [reflexivity| |exact Hf].
  cbn in HL. injection HL as HL. destruct s as [|r1 s]; [cbn in HL; discriminate|]. 
  destruct (Z.eqb_spec (Z.of_nat 0) (Z.of_nat (List.length (r0 :: r1 :: s)) - 1)) as [K|K]; [cbn [List.length] in K; lia|reflexivity].
Qed.
Print Assumptions C84_dumbbells_refuted.

(** Finding: no video of a run with repulsion (input 4). *)
Theorem C84_repulsion_refuted : forall ts P M d1 d2 d3 setup Ns0 Nd0 q Ns Nd s fs,
  ~ In "-"%char ts -> (0 <= setup_number P)%Z -> input_number P = 4%Z -> (0 <= num_frames P)%Z ->
  normal_timestep (timestep P) -> (exists n, timestep P = TInt n) \/ / 10000 <= denotes (timestep P) ->
  setup (setup_number P) = Ok (Ns0, Nd0, q) -> (0 < Ns0 + Nd0)%nat ->
  (0 < List.length fs)%nat -> List.length s = S (List.length fs) ->
  make_video (file_name ts P M d1 d2 d3) setup Ns Nd s fs 1 0 0 = Raise TypeError.
Proof.
  intros ts P M d1 d2 d3 setup Ns0 Nd0 q Ns Nd s fs T HS HI HF HT HL Hset HN Hf Hs.
  unfold make_video. rewrite <- (app_nil_r (file_name _ _ _ _ _ _)). rewrite C84_name by (assumption || lia). cbn [bind]. rewrite Hset. cbn [bind].
  rewrite HI. unfold video, video_length. cbn [Z.eqb bind]. rewrite Z.div_1_r, Nat2Z.id.
  apply (frames_first _ _ _ _ _ _ _ _ _ 0); [lia|intros k Hk; lia|]. unfold video_frame.
  destruct s as [|r0 s]; [discriminate|]. destruct fs as [|f0 fs]; [cbn in Hf; lia|].
  replace (py_row (r0 :: s) (Z.of_nat 0 * 1 + 0)) with (Ok r0) by reflexivity. cbn [bind].
  destruct (Z.eqb_spec (Z.of_nat 0) (Z.of_nat (List.length (r0 :: s)) - 1)) as [K|K]; [cbn [List.length] in K, Hs; lia|].
  replace (py_row (f0 :: fs) (Z.of_nat 0)) with (Ok f0) by reflexivity. cbn [bind].
  rewrite flow_repulsion by exact HN. reflexivity.
Qed.
Print Assumptions C84_repulsion_refuted.

(** Finding: in simple shear (flow along x, gradient along z) the red box is not
    the periodic one.  Its upright edges stay upright, although the copies above
    are displaced along x, and its level edges are tilted instead. *)
Definition sheared (L a : R) : flow :=
  mkFlow (v3 0 0 0) (v3 0 0 0) (v3 0 0 0) (v3 0 (a / 2) 0) (literal_xz (a / 2)) (v3 0 0 0) (v3 L L L) 1.
Theorem C84_box_refuted : forall L a c1 c2 c3 c4, 0 < L -> 0 < rmod (a * L) L ->
  video_box (sheared L a) = (c1, c2, c3, c4) ->
  (forall l, (l < 3)%nat -> c2 l - c1 l = v3 0 0 L l /\ c4 l - c1 l = v3 L 0 (rmod (a * L) L) l) /\
  (exists b, carried_basis (sheared L a) b /\ (forall l, (l < 3)%nat -> b 2%nat l = v3 (rmod (a * L) L) 0 L l) /\
     ~ in_lattice b (vsub c2 c1) /\ ~ in_lattice b (vsub c4 c1)).
Proof.
  intros L a c1 c2 c3 c4 HL HR E. unfold video_box in E. injection E as E1 E2 E3 E4. subst c1 c2 c3 c4.
  assert (EB : forall k l, (k < 3)%nat -> (l < 3)%nat -> video_basis (sheared L a) k l =
     (if Nat.eqb k 2 then v3 (rmod (a * L) L) 0 L l else if Nat.eqb k l then L else 0)).
  { intros k l Hk Hl. unfold video_basis, shear_basis_vectors, sheared, literal_xz, diag3, cross, vsub. cbn [f_Ot f_Et f_tr f_bl rsum].
    idx3 Hk; idx3 Hl; cbn;
      match goal with |- context [rmod ?x ?y] => first [replace x with 0 by field | replace x with (a * L) by field] end; replace (L - 0) with L by ring; rewrite ?rmod_0; ring. }
  assert (EC : forall c l, (l < 3)%nat -> corner (sheared L a) c l = (if Nat.eqb l 2 then rmod (a * L) L * (c 0%nat / L) + c 2%nat else c l)).
  { intros c l Hl. unfold corner, mvec. cbn [rsum]. rewrite !EB by (exact Hl || lia). unfold sheared, vsub; cbn [f_tr f_bl].
    idx3 Hl; cbn; field; lra. }
  assert (PB : proper_box (sheared L a)) by (right; intros l Hl; idx3 Hl; cbn; exact HL).
  assert (NU : ~ unbounded_domain (sheared L a)) by (intros N; specialize (N 0%nat ltac:(lia)); cbn in N; lra).
  assert (D : forall l, (l < 3)%nat -> corner (sheared L a) (v3 0 0 L) l - corner (sheared L a) (v3 0 0 0) l = v3 0 0 L l /\
                corner (sheared L a) (v3 L 0 0) l - corner (sheared L a) (v3 0 0 0) l = v3 L 0 (rmod (a * L) L) l).
  { intros l Hl. rewrite !EC by exact Hl. idx3 Hl; cbn; split; field; lra. }
  split; [exact D|]. exists (video_basis (sheared L a)). split; [apply basis_carried; assumption|].
  split; [intros l Hl; rewrite EB by (exact Hl || lia); reflexivity|].
  pose proof (rmod_range (a * L) L HL) as RR. set (c := rmod (a * L) L) in *.
  assert (BT : forall m : Z, ~ 0 < IZR m < 1).
  { intros m [M1 M2]. apply lt_IZR in M1. apply lt_IZR in M2. lia. }
  split; intros (m & Hm).
  - destruct (D 0%nat ltac:(lia)) as [D0 _]. destruct (D 2%nat ltac:(lia)) as [D2 _].
    pose proof (Hm 0%nat ltac:(lia)) as M0. pose proof (Hm 2%nat ltac:(lia)) as M2. unfold vsub in M0, M2. cbn [f_bl f_tr sheared v3] in M0, M2.
    rewrite D0 in M0. rewrite D2 in M2. cbn [rsum] in M0, M2. rewrite !EB in M0, M2 by lia. cbn in M0, M2.
    assert (E2 : IZR (m 2%nat) = 1) by nra. rewrite E2 in M0. apply (BT (- m 0%nat)%Z). rewrite opp_IZR. split; nra.
  - destruct (D 2%nat ltac:(lia)) as [_ D2]. pose proof (Hm 2%nat ltac:(lia)) as M2. unfold vsub in M2. cbn [f_bl f_tr sheared v3] in M2.
    rewrite D2 in M2. cbn [rsum] in M2. rewrite !EB in M2 by lia. cbn in M2. fold c in M2. apply (BT (m 2%nat)). split; nra.
Qed.
Print Assumptions C84_box_refuted.
Example C84_box_example : 0 < rmod (/ 4 * 8) 8.
Proof.
  replace (/ 4 * 8) with 2 by field. unfold rmod. replace (2 / 8) with (/ 4) by field.
  replace (Int_part (/ 4)) with 0%Z; [lra|]. apply Int_part_spec. lra.
Qed.

(** plot_positions.py: the spheres of one row with their forces, with orientation
    points of its own. *)
Theorem C84_plot : forall Ns s fs k row F,
  nth_error s k = Some row -> nth_error fs k = Some F ->
  exists discs, plot_positions Ns 0 s fs (Z.of_nat k) = Ok discs /\ List.length discs = Ns /\
    forall i, (i < Ns)%nat -> exists d, nth_error discs i = Some d /\
      shows d (n_pos row i) (vadd (n_pos row i) (v3 1 0 0)) (vadd (n_pos row i) (v3 0 0 1)) (n_Fa F i).
Proof.
  intros Ns s fs k row F A B. unfold plot_positions. rewrite (row_nat _ _ _ A). cbn [bind]. rewrite (row_nat _ _ _ B). cbn [bind].
  set (rot := add_sphere_rotations _ _ _).
  pose proof (discs_free Ns (mkSnap (n_pos row) rot (n_dx row)) (n_Fa F)) as DF. cbn [n_pos n_rot] in DF.
  destruct (Nat.ltb_spec 0 Ns) as [L|L]; cbn [bind]; change (Nat.ltb 0 0) with false; cbv iota.
  - eexists. split; [reflexivity|]. rewrite DF. rewrite map_length, seq_length. split; [reflexivity|].
    intros i Hi. rewrite nth_error_map. rewrite (nth_error_nth' _ 0%nat) by (rewrite seq_length; exact Hi). rewrite seq_nth by exact Hi.
    eexists. split; [reflexivity|]. split; [reflexivity|]. split; [|apply red_min].
    intros l Hl. cbn [d_centre d_end1 d_end2]. unfold rot, add_sphere_rotations, vadd. cbn [Nat.add]. split; [reflexivity|]. split; ring.
  - exists []. split; [reflexivity|]. split; [simpl; lia|]. intros i Hi. lia.
Qed.
Print Assumptions C84_plot.

(** Finding: the last row of positions, which has no forces, cannot be plotted,
    nor can any row with dumbbells. *)
Theorem C84_plot_refuted : forall Ns Nd s fs,
  List.length s = S (List.length fs) ->
  ((0 < Ns)%nat -> plot_positions Ns Nd s fs (Z.of_nat (List.length fs)) = Raise IndexError) /\
  ((0 < Nd)%nat -> forall k, (k < List.length fs)%nat -> plot_positions Ns Nd s fs (Z.of_nat k) = Raise TypeError).
Proof.
  intros Ns Nd s fs HL. split.
  - intros HN. unfold plot_positions. destruct (nth_error s (List.length fs)) as [row|] eqn:E; [|apply nth_error_None in E; lia].
    rewrite (row_nat _ _ _ E). cbn [bind]. destruct (Nat.ltb_spec 0 Ns); [|lia]. rewrite (row_over fs (List.length fs)) by lia. reflexivity.
  - intros HN k Hk. unfold plot_positions. destruct (nth_error s k) as [row|] eqn:E; [|apply nth_error_None in E; lia].
    destruct (nth_error fs k) as [F|] eqn:EF; [|apply nth_error_None in EF; lia].
    rewrite (row_nat _ _ _ E). cbn [bind]. rewrite (row_nat _ _ _ EF). cbn [bind]. destruct (Nat.ltb_spec 0 Nd); [|lia].
    destruct (Nat.ltb 0 Ns); reflexivity.
Qed.
Print Assumptions C84_plot_refuted.
