From Coq Require Import Reals List Arith Bool Lia Lra.
From Verif Require Import Base Model_Mob Model_Close Model_Step Model_Graphics.
Import ListNotations.
Local Open Scope R_scope.

Lemma norm_sq v : norm v ^ 2 = dot3 v v.
Proof. unfold norm, dot3. rewrite pow2_sqrt by nra. ring. Qed.
Lemma norm_nonneg v : 0 <= norm v.
Proof. apply sqrt_pos. Qed.

Definition det3 (M : mat) : R :=
  M 0%nat 0%nat * (M 1%nat 1%nat * M 2%nat 2%nat - M 1%nat 2%nat * M 2%nat 1%nat)
  - M 0%nat 1%nat * (M 1%nat 0%nat * M 2%nat 2%nat - M 1%nat 2%nat * M 2%nat 0%nat)
  + M 0%nat 2%nat * (M 1%nat 0%nat * M 2%nat 1%nat - M 1%nat 1%nat * M 2%nat 0%nat).

(** the matrix in terms of a unit axis, a cosine and a sine *)
Definition rot (e : vec) (c s : R) : mat := fun i j =>
  e i * e j + c * (delta i j - e i * e j) + s * v3 (v3 0 (e 2%nat) (- e 1%nat) j) (v3 (- e 2%nat) 0 (e 0%nat) j) (v3 (e 1%nat) (- e 0%nat) 0 j) i.

Section Rot.
Variables (e : vec) (c s : R).
Hypothesis He : dot3 e e = 1.
Hypothesis Hcs : c * c + s * s = 1.

Lemma He' : e 2%nat * e 2%nat = 1 - e 0%nat * e 0%nat - e 1%nat * e 1%nat.
Proof. unfold dot3 in He. lra. Qed.
Lemma Hs' : s * s = 1 - c * c.
Proof. lra. Qed.
Lemma He'' : e 2%nat ^ 2 = 1 - e 0%nat ^ 2 - e 1%nat ^ 2.
Proof. unfold dot3 in He. lra. Qed.
Lemma Hs'' : s ^ 2 = 1 - c ^ 2.
Proof. lra. Qed.

Lemma rot_orthogonal i j : (i < 3)%nat -> (j < 3)%nat ->
  rsum 3 (fun k => rot e c s k i * rot e c s k j) = delta i j /\ rsum 3 (fun k => rot e c s i k * rot e c s j k) = delta i j.
Proof.
  intros Hi Hj. pose proof He' as A. pose proof Hs' as B. unfold rot.
  idx3 Hi; idx3 Hj; cbn [rsum v3 delta Nat.eqb]; unfold delta; cbn [Nat.eqb]; split; ring [A B].
Qed.
Lemma rot_det : det3 (rot e c s) = 1.
Proof.
  pose proof He' as A. pose proof Hs' as B. unfold det3, rot. cbn [v3]. unfold delta. cbn [Nat.eqb]. ring [A B].
Qed.
Lemma rot_apply v i : (i < 3)%nat -> mvec 3 (rot e c s) v i = dot3 e v * e i + c * (v i - dot3 e v * e i) + s * cross v e i.
Proof. intros Hi. unfold mvec, rot, dot3, cross. idx3 Hi; cbn [rsum v3]; unfold delta; cbn [Nat.eqb]; ring. Qed.
End Rot.

Lemma dot3_scale_norm v : norm v <> 0 -> dot3 (fun i => v i / norm v) (fun i => v i / norm v) = 1.
Proof.
  intros H. transitivity (dot3 v v / norm v ^ 2); [unfold dot3; field; exact H|]. rewrite <- norm_sq. field. exact H.
Qed.
Lemma rotation_eq d : norm d <> 0 ->
  fst (rotation_matrix d) = rot (fun i => d i / norm d) (sqrt (1 - norm d ^ 2)) (norm d) /\ snd (rotation_matrix d) = (fun i => d i / norm d).
Proof.
  intros H. unfold rotation_matrix, Reqb. destruct (Req_EM_T (norm d) 0); [contradiction|]. split; reflexivity.
Qed.
Lemma cs_one d : norm d <= 1 -> sqrt (1 - norm d ^ 2) * sqrt (1 - norm d ^ 2) + norm d * norm d = 1.
Proof. intros H. pose proof (norm_nonneg d). rewrite sqrt_sqrt by nra. ring. Qed.

(** ** The plane of the circle *)
Lemma normal_unit elev azim : dot3 (normal elev azim) (normal elev azim) = 1.
Proof.
  unfold normal, dot3. cbn [v3]. set (t := from0topi _). set (p := azim * PI / 180).
  pose proof (sin2_cos2 t) as A. pose proof (sin2_cos2 p) as B. unfold Rsqr in *.
  transitivity (cos t * cos t * (sin p * sin p + cos p * cos p) + sin t * sin t); [ring|]. rewrite B. lra.
Qed.
Lemma unit_norm v : dot3 v v = 1 -> norm v = 1.
Proof. intros H. unfold norm. replace (_ + _ + _) with (dot3 v v) by (unfold dot3; ring). rewrite H. apply sqrt_1. Qed.
Lemma normal_up elev azim : -180 <= elev <= 180 -> 0 <= normal elev azim 2%nat.
Proof.
  intros H. pose proof PI_RGT_0 as P. unfold normal. cbn [v3]. unfold from0topi, Rltb.
  assert (L : - PI <= elev * PI / 180 <= PI) by (split; nra).
  destruct (Rlt_dec (elev * PI / 180) 0) as [N|N]; apply sin_ge_0; lra.
Qed.
Lemma normal_view elev azim : -180 <= elev <= 180 ->
  exists sg, (sg = 1 \/ sg = -1) /\ forall i, (i < 3)%nat ->
    normal elev azim i = sg * v3 (cos (elev * PI / 180) * cos (azim * PI / 180)) (cos (elev * PI / 180) * sin (azim * PI / 180)) (sin (elev * PI / 180)) i.
Proof.
  intros H. unfold normal, from0topi, Rltb. destruct (Rlt_dec _ 0).
  - exists (-1). split; [auto|]. rewrite neg_cos, neg_sin. intros i Hi. idx3 Hi; cbn [v3]; ring.
  - exists 1. split; [auto|]. intros i Hi. idx3 Hi; cbn [v3]; ring.
Qed.

Lemma point_image n x y : dot3 n n = 1 -> 0 <= n 2%nat ->
  let M := fst (rotation_matrix (cross n (v3 0 0 1))) in
  (forall i, (i < 3)%nat -> mvec 3 M (v3 0 0 1) i = n i) /\
  dot3 n (mvec 3 M (v3 x y 0)) = 0 /\ dot3 (mvec 3 M (v3 x y 0)) (mvec 3 M (v3 x y 0)) = x ^ 2 + y ^ 2.
Proof.
  intros Hn Hz M. unfold dot3 in Hn. set (d := cross n (v3 0 0 1)) in *.
  assert (d0 : d 0%nat = n 1%nat) by (unfold d, cross; cbn [v3]; ring).
  assert (d1 : d 1%nat = - n 0%nat) by (unfold d, cross; cbn [v3]; ring).
  assert (d2 : d 2%nat = 0) by (unfold d, cross; cbn [v3]; ring).
  pose proof (norm_sq d) as Hs. unfold dot3 in Hs. rewrite d0, d1, d2 in Hs.
  pose proof (norm_nonneg d) as Hp.
  destruct (Req_EM_T (norm d) 0) as [Z|Z].
  - assert (Mid : M = delta) by (unfold M, rotation_matrix, Reqb; destruct (Req_EM_T (norm d) 0); [reflexivity|contradiction]).
    rewrite Z in Hs. assert (n 0%nat = 0) by nra. assert (n 1%nat = 0) by nra. assert (n 2%nat = 1) by nra.
    rewrite Mid. split; [|split].
    + intros i Hi. unfold mvec. idx3 Hi; cbn [rsum v3]; unfold delta; cbn [Nat.eqb]; lra.
    + unfold dot3, mvec. cbn [rsum v3]. unfold delta. cbn [Nat.eqb]. nra.
    + unfold dot3, mvec. cbn [rsum v3]. unfold delta. cbn [Nat.eqb]. ring.
  - destruct (rotation_eq d Z) as [ME _]. fold M in ME.
    assert (Hc : sqrt (1 - norm d ^ 2) = n 2%nat).
    { rewrite <- (sqrt_square (n 2%nat) Hz). f_equal. nra. }
    rewrite Hc in ME. rewrite ME. set (e := fun i => d i / norm d) in *.
    assert (e2 : e 2%nat = 0) by (unfold e; rewrite d2; field; exact Z).
    assert (e0 : norm d * e 0%nat = n 1%nat) by (unfold e; rewrite d0; field; exact Z).
    assert (e1 : norm d * e 1%nat = - n 0%nat) by (unfold e; rewrite d1; field; exact Z).
    assert (He : dot3 e e = 1) by (apply dot3_scale_norm; exact Z). unfold dot3 in He. rewrite e2 in He.
    split; [|split].
    + intros i Hi. rewrite rot_apply by exact Hi. unfold dot3, cross. idx3 Hi; cbn [v3]; rewrite e2; lra.
    + unfold dot3. rewrite !rot_apply by lia. unfold dot3, cross. cbn [v3]. rewrite e2.
      set (a := e 0%nat) in *. set (b := e 1%nat) in *. set (s := norm d) in *.
      replace (n 0%nat) with (- (s * b)) by lra. replace (n 1%nat) with (s * a) by lra.
      assert (B : b * b = 1 - a * a) by lra. ring [B].
    + assert (Hcs : n 2%nat * n 2%nat + norm d * norm d = 1) by nra.
      unfold dot3. rewrite !rot_apply by lia. unfold dot3, cross. cbn [v3]. rewrite e2.
      set (a := e 0%nat) in *. set (b := e 1%nat) in *. set (s := norm d) in *.
      assert (B : b * b = 1 - a * a) by lra. assert (S2 : s * s = 1 - n 2%nat * n 2%nat) by lra. ring [B S2].
Qed.

(** ** Arrows *)
Definition shown (n : nat) (position f : nat -> vec) : list nat := filter (fun i => nonzero (f i) && visible (position i)) (seq 0 n).

Lemma nonzero_scale c v : c <> 0 -> nonzero (vscal c v) = nonzero v.
Proof.
  intros Hc. unfold nonzero, vscal, Reqb.
  repeat match goal with |- context [Req_EM_T (c * ?a) 0] =>
    destruct (Req_EM_T (c * a) 0) as [?E|?E]; destruct (Req_EM_T a 0) as [?E|?E];
      try (exfalso; match goal with H : c * a = 0 |- _ => apply Rmult_integral in H; tauto end);
      try (exfalso; match goal with H : c * a <> 0, H' : a = 0 |- _ => apply H; rewrite H'; ring end) end; reflexivity.
Qed.

Definition line_step (position : nat -> vec) (st : (nat -> vec) * list (vec * vec)) (i : nat) :=
  let '(f, lines) := st in
  if nonzero (f i) && visible (position i) then
    let f' := fun k => vscal 6 (f k) in (f', lines ++ [(position i, vadd (position i) (f' i))])
  else (f, lines).

(** after [m] arrows every force has been multiplied by 6^m *)
Definition lines_ok (position f : nat -> vec) (l : list nat) (st : (nat -> vec) * list (vec * vec)) : Prop :=
  (forall i, nonzero (fst st i) = nonzero (f i)) /\ (forall i j, fst st i j = 6 ^ length l * f i j) /\
  length (snd st) = length l /\
  forall k, (k < length l)%nat -> fst (nth k (snd st) (v3 0 0 0, v3 0 0 0)) = position (nth k l 0%nat) /\
    forall j, snd (nth k (snd st) (v3 0 0 0, v3 0 0 0)) j = position (nth k l 0%nat) j + 6 ^ (k + 1) * f (nth k l 0%nat) j.

Lemma lines_fold position f is : forall l st, lines_ok position f l st ->
  lines_ok position f (l ++ filter (fun i => nonzero (f i) && visible (position i)) is) (fold_left (line_step position) is st).
Proof.
  induction is as [|i is IH]; intros l st H; cbn [filter fold_left]; [rewrite app_nil_r; exact H|].
  assert (H' : lines_ok position f (if nonzero (f i) && visible (position i) then l ++ [i] else l) (line_step position st i)).
  { destruct st as [g lines]. destruct H as [N [V [L A]]]. cbn [fst snd] in *. unfold line_step. rewrite N.
    destruct (nonzero (f i) && visible (position i)); [|unfold lines_ok; cbn [fst snd]; auto].
    unfold lines_ok. cbn [fst snd]. split; [|split; [|split]].
    - intros k. rewrite nonzero_scale by lra. apply N.
    - intros k j. unfold vscal. rewrite V, app_length. cbn [length]. rewrite Nat.add_comm. cbn [pow Nat.add]. ring.
    - rewrite !app_length, L. reflexivity.
    - intros k H. rewrite app_length in H. cbn [length] in H. destruct (Nat.eq_dec k (length l)) as [->|Hk].
      + rewrite nth_middle. replace (nth (length l) (lines ++ _) _) with (position i, vadd (position i) (vscal 6 (g i))) by (rewrite <- L, nth_middle; reflexivity). cbn [fst snd]. split; [reflexivity|].
        intros j. unfold vadd, vscal. rewrite V, Nat.add_1_r. cbn [pow]. ring.
      + rewrite !app_nth1 by lia. apply A. lia. }
  specialize (IH _ _ H'). destruct (nonzero (f i) && visible (position i)); [|exact IH].
  rewrite <- app_assoc in IH. exact IH.
Qed.
Lemma force_lines_ok n position f : length (force_lines n position f) = length (shown n position f) /\
  forall k, (k < length (shown n position f))%nat -> fst (nth k (force_lines n position f) (v3 0 0 0, v3 0 0 0)) = position (nth k (shown n position f) 0%nat) /\
    forall j, snd (nth k (force_lines n position f) (v3 0 0 0, v3 0 0 0)) j
      = position (nth k (shown n position f) 0%nat) j + 6 ^ (k + 1) * f (nth k (shown n position f) 0%nat) j.
Proof.
  assert (H : lines_ok position f [] (f, [])).
  { unfold lines_ok. cbn [fst snd length pow]. split; [auto|]. split; [intros; ring|]. split; [reflexivity|lia]. }
  destruct (lines_fold position f (seq 0 n) [] (f, []) H) as [_ [_ [L A]]]. exact (conj L A).
Qed.
