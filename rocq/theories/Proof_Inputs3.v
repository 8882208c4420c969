(** What the example inputs prescribe. *)
From Coq Require Import Reals List Arith ZArith Bool Lia Lra Ranalysis5.
From Verif Require Import Base Py Model_Mob Model_Shear Model_Repulsion Model_Output Model_Frame Model_Inputs Spec_Inputs Spec_Repulsion.
Import ListNotations.
Local Open Scope R_scope.

Lemma rows_repeat {A} (v : A) n : rows_are (repeat (Some v) n) n v.
Proof.
  split; [apply repeat_length|]. intros k Hk. unfold row_is. rewrite (nth_error_nth' _ None) by (rewrite repeat_length; exact Hk).
  f_equal. revert k Hk. induction n as [|n IH]; intros [|k] Hk; cbn; try lia; [reflexivity|apply IH; lia].
Qed.
Lemma map_repeat' {A B} (f : A -> B) x n : map f (repeat x n) = repeat (f x) n.
Proof. induction n as [|n IH]; [reflexivity|]. cbn. rewrite IH. reflexivity. Qed.
Lemma rows_map_seq {A} (f : nat -> A) n k : (k < n)%nat -> row_is (map (fun i => Some (f i)) (seq 0 n)) k (f k).
Proof.
  intros Hk. unfold row_is. rewrite nth_error_map, (nth_error_nth' _ 0%nat) by (rewrite seq_length; exact Hk). rewrite seq_nth by exact Hk. reflexivity.
Qed.
Lemma set_row_ok {A} (l : list A) k x : (k < length l)%nat -> exists y, set_row l k x = Ok y /\ length y = length l /\
  forall m, nth_error y m = if Nat.eqb m k then Some x else nth_error l m.
Proof.
  intros Hk. unfold set_row. rewrite (proj2 (Nat.ltb_lt _ _) Hk). eexists. split; [reflexivity|].
  assert (HF : length (firstn k l) = k) by (apply firstn_length_le; lia). split.
  - rewrite app_length. cbn [length]. rewrite HF, skipn_length. lia.
  - intros m. destruct (Nat.eqb_spec m k) as [->|Ne].
    + rewrite nth_error_app2 by lia. rewrite HF, Nat.sub_diag. reflexivity.
    + destruct (Nat.lt_ge_cases m k) as [L|L].
      * rewrite nth_error_app1 by lia. rewrite <- (firstn_skipn k l) at 2. rewrite nth_error_app1 by lia. reflexivity.
      * rewrite nth_error_app2 by lia. rewrite HF. destruct (m - k)%nat as [|d] eqn:E; [lia|]. cbn [nth_error].
        rewrite <- (firstn_skipn (S k) l) at 2.
        rewrite nth_error_app2 by (rewrite firstn_length_le; lia). rewrite firstn_length_le by lia. f_equal. lia.
Qed.

(** ** Spring *)
Lemma norm_pos_sq (d : vec) : 0 < norm d -> norm d * norm d = d 0%nat ^ 2 + d 1%nat ^ 2 + d 2%nat ^ 2 /\ 0 < d 0%nat ^ 2 + d 1%nat ^ 2 + d 2%nat ^ 2.
Proof.
  intros H. assert (P : 0 <= d 0%nat ^ 2 + d 1%nat ^ 2 + d 2%nat ^ 2) by (pose proof (pow2_ge_0 (d 0%nat)); pose proof (pow2_ge_0 (d 1%nat)); pose proof (pow2_ge_0 (d 2%nat)); lra).
  assert (E : norm d * norm d = d 0%nat ^ 2 + d 1%nat ^ 2 + d 2%nat ^ 2) by (unfold norm; apply sqrt_sqrt; exact P).
  split; [exact E|]. rewrite <- E. apply Rmult_lt_0_compat; exact H.
Qed.
Lemma spring_row dx l : (l < 3)%nat -> nth l (spring_force dx) 0 = - (norm dx - 2) * (dx l / norm dx) \/ norm dx = 0.
Proof.
  intros Hl. destruct (Req_dec (norm dx) 0) as [H|H]; [right; exact H|left]. unfold spring_force, row.
  destruct l as [|[|[|l]]]; try lia; cbn [nth]; field; exact H.
Qed.
Lemma spring_gradient dx l : 0 < norm dx -> (l < 3)%nat ->
  derivable_pt_lim (fun t => spring_energy (shift dx l t)) 0 (- nth l (spring_force dx) 0).
Proof.
  intros HN Hl. destruct (norm_pos_sq dx HN) as [Es Ps]. destruct (spring_row dx l Hl) as [->|H0]; [|lra].
  set (S := dx 0%nat ^ 2 + dx 1%nat ^ 2 + dx 2%nat ^ 2) in *.
  assert (EN : forall t, norm (shift dx l t) = sqrt (S + 2 * dx l * t + t * t)).
  { intros t. unfold norm, shift, S. destruct l as [|[|[|l]]]; try lia; cbn [Nat.eqb]; f_equal; ring. }
  assert (DQ' : derivable_pt_lim (fun t => S + 2 * dx l * t + t * t) 0 (0 + 2 * dx l * 1 + (1 * 0 + 0 * 1))).
  {    apply (derivable_pt_lim_plus (fun t => S + 2 * dx l * t) (fun t => t * t)).
    - apply (derivable_pt_lim_plus (fun _ => S) (fun t => 2 * dx l * t)); [apply derivable_pt_lim_const|].
      apply (derivable_pt_lim_scal (fun t => t)). apply derivable_pt_lim_id.
    - apply (derivable_pt_lim_mult (fun t => t) (fun t => t) 0 1 1); apply derivable_pt_lim_id. }
  assert (DQ : derivable_pt_lim (fun t => S + 2 * dx l * t + t * t) 0 (2 * dx l)) by (replace (0 + 2 * dx l * 1 + (1 * 0 + 0 * 1)) with (2 * dx l) in DQ' by ring; exact DQ').
  assert (P0 : 0 < S + 2 * dx l * 0 + 0 * 0) by lra.
  pose proof (derivable_pt_lim_comp (fun t => S + 2 * dx l * t + t * t) sqrt 0 _ _ DQ (derivable_pt_lim_sqrt _ P0)) as DN.
  unfold comp in DN. replace (S + 2 * dx l * 0 + 0 * 0) with S in DN by ring.
  assert (ES : sqrt S = norm dx) by reflexivity. rewrite ES in DN.
  assert (DM : derivable_pt_lim (fun t => sqrt (S + 2 * dx l * t + t * t) - 2) 0 (/ (2 * norm dx) * (2 * dx l) - 0)).
  { apply (derivable_pt_lim_minus (fun t => sqrt (S + 2 * dx l * t + t * t)) (fun _ => 2)); [exact DN|apply derivable_pt_lim_const]. }
  pose proof (derivable_pt_lim_mult _ _ 0 _ _ DM DM) as DD. unfold mult_fct in DD.
  pose proof (derivable_pt_lim_scal _ (/ 2) 0 _ DD) as DE. unfold mult_real_fct in DE.
  replace (S + 2 * dx l * 0 + 0 * 0) with S in DE by ring. rewrite ES in DE.
  replace (- (- (norm dx - 2) * (dx l / norm dx))) with
    (/ 2 * ((/ (2 * norm dx) * (2 * dx l) - 0) * (norm dx - 2) + (norm dx - 2) * (/ (2 * norm dx) * (2 * dx l) - 0))) by (field; lra).
  intros eps He. destruct (DE eps He) as [del Hd]. exists del. intros h Hh Hh'. specialize (Hd h Hh Hh').
  unfold spring_energy. rewrite !EN. replace ((sqrt (S + 2 * dx l * (0 + h) + (0 + h) * (0 + h)) - 2) ^ 2 / 2) with
    (/ 2 * ((sqrt (S + 2 * dx l * (0 + h) + (0 + h) * (0 + h)) - 2) * (sqrt (S + 2 * dx l * (0 + h) + (0 + h) * (0 + h)) - 2))) by field.
  replace ((sqrt (S + 2 * dx l * 0 + 0 * 0) - 2) ^ 2 / 2) with (/ 2 * ((sqrt (S + 2 * dx l * 0 + 0 * 0) - 2) * (sqrt (S + 2 * dx l * 0 + 0 * 0) - 2))) by field.
  exact Hd.
Qed.
Lemma spring_size dx : 0 < norm dx -> norm (fun l => nth l (spring_force dx) 0) = Rabs (norm dx - 2).
Proof.
  intros HN. destruct (norm_pos_sq dx HN) as [Es Ps]. set (N := norm dx) in *. unfold norm, spring_force, row. cbn [nth]. fold N.
  replace ((- (1) * (dx 0%nat - 2 * dx 0%nat / N)) ^ 2 + (- (1) * (dx 1%nat - 2 * dx 1%nat / N)) ^ 2 + (- (1) * (dx 2%nat - 2 * dx 2%nat / N)) ^ 2)
    with ((N - 2) ^ 2).
  - rewrite <- sqrt_Rsqr_abs. unfold Rsqr. f_equal. ring.
  - replace ((N - 2) ^ 2) with ((1 - 2 / N) ^ 2 * (N * N)) by (field; lra). rewrite Es. field. lra.
Qed.
