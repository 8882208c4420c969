(** C59: names of checkpoint files and the search for one to continue. *)
From Coq Require Import Reals List Arith Bool Ascii String ZArith Lia Lra Permutation.
From Verif Require Import Py Model_Checkpoint Spec_Checkpoint Proof_Checkpoint Proof_Checkpoint2.
Import ListNotations.

(** A temporary file written by a run is recognised by another run exactly when
    the setup number, the input number, the number of frames and the timestep are
    the same; the rest of the name has no influence.  (So [invert_m_every] and the
    descriptions are not compared.) *)
Theorem C59_recognised ts P M d1 d2 d3 Q :
  ~ In "-"%char ts -> params_ok P ->
  exists b, matches Q (temp_path (file_name ts P M d1 d2 d3)) = Ok b /\
    (b = true <-> setup_number P = setup_number Q /\ input_number P = input_number Q /\ num_frames P = num_frames Q
                  /\ denotes (timestep P) = denotes (timestep Q)).
Proof. exact (matches_written ts P M d1 d2 d3 Q). Qed.
Print Assumptions C59_recognised.

(** A continued run writes to the files of the run it continues. *)
Theorem C59_continued_name f :
  ~ In "/"%char f -> ~ In "\"%char f -> ~ occurs (lit "_TEMP.npz") f -> continued_name (temp_path f) = f.
Proof. exact (continued f). Qed.
Print Assumptions C59_continued_name.

(** If all names can be read, the search ends with a usable file (recognised and
    not corrupt) and its number of frames if there is one, and with no file and
    frame 0 otherwise.  Among several it takes the first in alphabetical order. *)
Theorem C59_search Q frames listing :
  (forall p, In p listing -> exists b, matches Q p = Ok b) ->
  exists st, search Q frames listing = Ok st /\
    ((st = ([], 0%nat) /\ forall p, In p listing -> ~ usable Q frames p) \/
     (In (fst st) listing /\ matches Q (fst st) = Ok true /\ frames (fst st) = Some (snd st) /\
      forall p, In p listing -> usable Q frames p -> before (fst st) p)).
Proof.
  intros G. pose proof (sorted_perm listing) as SP.
  destruct (search_spec Q frames (sorted listing)) as [st [E H]].
  - intros p Hp. apply G, (Permutation_in p SP), Hp.
  - apply sorted_ordered.
  - exists st. split; [exact E|]. destruct H as [[A B]|[A [B [C D]]]].
    + left. split; [exact A|]. intros p Hp. apply B, (Permutation_in p (Permutation_sym SP)), Hp.
    + right. split; [apply (Permutation_in _ SP), A|]. split; [exact B|]. split; [exact C|].
      intros p Hp. apply D, (Permutation_in p (Permutation_sym SP)), Hp.
Qed.
Print Assumptions C59_search.

(** Finding: of several files to continue the search takes the oldest, although
    the list is sorted in reverse, because later matches overwrite earlier ones. *)
Theorem C59_latest_refuted Q frames listing ts P M d1 d2 d3 k ts' P' M' d1' d2' d3' :
  (forall p, In p listing -> exists b, matches Q p = Ok b) ->
  search Q frames listing = Ok (temp_path (file_name ts P M d1 d2 d3), k) ->
  List.length ts = List.length ts' ->
  In (temp_path (file_name ts' P' M' d1' d2' d3')) listing ->
  usable Q frames (temp_path (file_name ts' P' M' d1' d2' d3')) ->
  before ts ts'.
Proof.
  intros G E L I U. destruct (C59_search Q frames listing G) as [st [E' H]]. rewrite E in E'. injection E' as <-.
  destruct H as [[A _]|[_ [_ [_ B]]]]; [discriminate A|].
  specialize (B _ I U). cbn [fst] in B. unfold temp_path in B. apply before_prefix in B.
  unfold file_name in B. rewrite <- !app_assoc in B. exact (before_heads _ _ _ _ L B).
Qed.
Print Assumptions C59_latest_refuted.

(** Finding: one temporary file of a run with a negative setup number, as the test
    setups have, or one without dashes in its name, stops every later run. *)
Theorem C59_startup_refuted Q frames listing p :
  In p listing ->
  (exists ts P M d1 d2 d3, p = temp_path (file_name ts P M d1 d2 d3) /\ ~ In "-"%char ts /\ (setup_number P < 0)%Z)
  \/ ~ In "-"%char p ->
  exists e, search Q frames listing = Raise e.
Proof.
  intros I H.
  assert (E : exists e, matches Q p = Raise e).
  { destruct H as [[ts [P [M [d1 [d2 [d3 [-> [T N]]]]]]]]|H].
    - exists ValueError. apply negative_setup; assumption.
    - exists IndexError. unfold matches, parse_name.
      assert (S : split "-" p = [p]).
      { clear - H. induction p as [|a p IH]; [reflexivity|]. cbn [split].
        rewrite (proj2 (Ascii.eqb_neq a "-")) by (intro E; apply H; left; exact E).
        rewrite IH by (intro J; apply H; right; exact J). reflexivity. }
      rewrite S. reflexivity. }
  destruct E as [e E].
  destruct (search_raises Q frames (rev (sorted listing)) p e) as [e' R].
  - apply -> in_rev. apply (Permutation_in p (Permutation_sym (sorted_perm listing))), I.
  - exact E.
  - exists e'. apply R.
Qed.
Print Assumptions C59_startup_refuted.

(** Examples: two runs of setup 3 with timestep 1e-05 ... *)
Definition run_a : params := mkParams 3 2 100 (TFloat [1%nat] (-4)).
Definition path_1 := temp_path (file_name (lit "2611150645") run_a 1 [] [] (lit "slow")).
Definition path_2 := temp_path (file_name (lit "2611160700") run_a 5 [] [] []).
Example C59_example_names :
  path_1 = lit "output/2611150645-s3-i2-100fr-t1e-05-M1-slow_TEMP.npz" /\
  temp_path (file_name (lit "2611160700") (mkParams 3 2 100 (TFloat [2%nat; 5%nat] 0)) 1 [] [] [])
  = lit "output/2611160700-s3-i2-100fr-t0p25-M1_TEMP.npz" /\
  continued_name path_1 = lit "2611150645-s3-i2-100fr-t1e-05-M1-slow".
Proof. repeat split; vm_compute; reflexivity. Qed.
(** ... of which the older is continued, after 7 frames. *)
Lemma run_a_matches ts M d : ~ In "-"%char ts -> matches run_a (temp_path (file_name ts run_a M [] [] d)) = Ok true.
Proof.
  intros T. destruct (C59_recognised ts run_a M [] [] d run_a T) as [b [E B]].
  - repeat split; simpl; try lia; try discriminate. constructor; [lia|constructor].
  - rewrite E. f_equal. apply B. auto.
Qed.
Example C59_example_search : search run_a (fun _ => Some 7%nat) [path_1; path_2] = Ok (path_1, 7%nat).
Proof.
  assert (S : rev (sorted [path_1; path_2]) = [path_2; path_1]) by (vm_compute; reflexivity).
  unfold search. rewrite S. cbn [fold_left]. unfold search_step, path_1, path_2.
  rewrite !run_a_matches by (simpl; intuition discriminate). reflexivity.
Qed.
(** A file of test setup -1 is in the way of every run. *)
Example C59_example_startup : search run_a (fun _ => Some 7%nat)
  [path_1; temp_path (file_name (lit "2611150645") (mkParams (-1) (-1) 1 (TFloat [1%nat] 1)) 1 [] [] [])] = Raise ValueError.
Proof.
  match goal with |- search _ _ [?a; ?b] = _ => assert (S : rev (sorted [a; b]) = [a; b]) by (vm_compute; reflexivity) end.
  unfold search. rewrite S. cbn [fold_left]. unfold search_step at 2. unfold path_1.
  rewrite run_a_matches by (simpl; intuition discriminate). cbn [bind].
  unfold search_step. cbn [bind]. rewrite negative_setup; [reflexivity|simpl; unfold plain; simpl; intuition discriminate|simpl; lia].
Qed.
