(** C59: proofs about the names of checkpoint files. *)
From Coq Require Import Reals List Arith Bool Ascii String ZArith DecimalString DecimalZ DecimalPos Lia Lra.
From Verif Require Import Py Model_Checkpoint Spec_Checkpoint.
Import ListNotations.
Local Open Scope list_scope.

(** ** Integers *)
Lemma string_text s : string_of_list_ascii (lit s) = s.
Proof. apply string_of_list_ascii_of_string. Qed.

Lemma to_int_nonnil z : Z.to_int z <> Decimal.Pos Decimal.Nil /\ Z.to_int z <> Decimal.Neg Decimal.Nil.
Proof.
  destruct z as [|p|p]; simpl; split; intro E; try discriminate; injection E as E;
    apply (DecimalPos.Unsigned.to_uint_nonnil p E).
Qed.
Lemma int_str z : py_int (str_int z) = Ok z.
Proof.
  unfold py_int, str_int. rewrite string_text.
  destruct (to_int_nonnil z) as [A B]. rewrite (NilZero.isi _ A B), DecimalZ.of_to. reflexivity.
Qed.

Fixpoint lu (u : Decimal.uint) : list nat :=
  match u with
  | Decimal.Nil => []
  | Decimal.D0 u => 0 :: lu u | Decimal.D1 u => 1 :: lu u | Decimal.D2 u => 2 :: lu u
  | Decimal.D3 u => 3 :: lu u | Decimal.D4 u => 4 :: lu u | Decimal.D5 u => 5 :: lu u
  | Decimal.D6 u => 6 :: lu u | Decimal.D7 u => 7 :: lu u | Decimal.D8 u => 8 :: lu u
  | Decimal.D9 u => 9 :: lu u
  end%nat.
Lemma lu_text u : lit (NilEmpty.string_of_uint u) = map digit (lu u).
Proof. induction u; simpl; try reflexivity; rewrite <- IHu; reflexivity. Qed.
Lemma lu_digits u : Forall (fun d => (d < 10)%nat) (lu u).
Proof. induction u; simpl; constructor; try lia; assumption. Qed.

Definition stepf := (fun m d => m * 10 + Z.of_nat d)%Z.
Lemma lu_acc u : forall acc, Zpos (Pos.of_uint_acc u acc) = fold_left stepf (lu u) (Zpos acc).
Proof.
  induction u; intros acc; cbn [Pos.of_uint_acc lu fold_left]; try reflexivity; rewrite IHu; f_equal; unfold stepf;
    change (Z.of_nat 0) with 0%Z; lia.
Qed.
Lemma lu_num u : Z.of_N (Pos.of_uint u) = fold_left stepf (lu u) 0%Z.
Proof.
  induction u; cbn [Pos.of_uint lu fold_left]; try reflexivity; try exact IHu; simpl Z.of_N; rewrite lu_acc; reflexivity.
Qed.

Lemma str_digits z : (0 <= z)%Z -> exists ds, str_int z = map digit ds /\ decimal ds /\ num ds = z.
Proof.
  intros H. destruct (to_int_nonnil z) as [A _].
  assert (E : exists u, Z.to_int z = Decimal.Pos u) by (destruct z; [eexists; reflexivity|eexists; reflexivity|lia]).
  destruct E as [u E]. pose proof (DecimalZ.of_to z) as R. unfold str_int. rewrite E in *.
  assert (N : u <> Decimal.Nil) by (intro X; subst; apply A; reflexivity).
  exists (lu u). split; [|split].
  - transitivity (lit (NilEmpty.string_of_uint u)); [|apply lu_text].
    unfold NilZero.string_of_int, NilZero.string_of_uint. destruct u; try reflexivity. contradiction.
  - split; [destruct u; simpl; congruence|apply lu_digits].
  - rewrite <- R. cbn [Z.of_int]. unfold Z.of_uint. symmetry. apply lu_num.
Qed.

(** ** Characters *)
Lemma digit_code d : (d < 10)%nat -> nat_of_ascii (digit d) = (48 + d)%nat.
Proof. intros H. unfold digit. apply nat_ascii_embedding. lia. Qed.
Lemma digit_is d : (d < 10)%nat -> is_digit (digit d) = true.
Proof.
  intros H. unfold is_digit. rewrite digit_code by exact H. apply andb_true_intro. split; apply Nat.leb_le; lia.
Qed.
Lemma not_digit_neq a d : (d < 10)%nat -> is_digit a = false -> digit d <> a.
Proof. intros H A E. subst a. rewrite digit_is in A by exact H. discriminate. Qed.
Lemma digits_not ds a : Forall (fun d => (d < 10)%nat) ds -> is_digit a = false -> ~ In a (map digit ds).
Proof.
  intros F A I. apply in_map_iff in I. destruct I as [d [E D]].
  apply (not_digit_neq a d); [exact (proj1 (Forall_forall _ _) F d D)|exact A|exact E].
Qed.

Definition stops (s : text) : Prop := match s with [] => True | a :: _ => is_digit a = false end.
Lemma span_spec ds s : Forall (fun d => (d < 10)%nat) ds -> stops s -> span_digits (map digit ds ++ s) = (ds, s).
Proof.
  intros F S. induction F as [|d ds H F IH].
  - simpl. destruct s as [|a s]; [reflexivity|]. simpl in S. simpl. rewrite S. reflexivity.
  - cbn [map app span_digits]. rewrite digit_is by exact H. rewrite IH. rewrite digit_code by exact H.
    replace (48 + d - 48)%nat with d by lia. reflexivity.
Qed.

(** ** Values *)
Lemma fold_num ds : forall m, fold_left stepf ds m = (m * 10 ^ Z.of_nat (List.length ds) + num ds)%Z.
Proof.
  unfold num. fold stepf. induction ds as [|d ds IH]; intros m; [simpl; ring|].
  cbn [fold_left List.length]. rewrite IH, (IH (stepf 0 d)). unfold stepf. rewrite Nat2Z.inj_succ, Z.pow_succ_r by lia. ring.
Qed.
Lemma num_app a b : num (a ++ b) = (num a * 10 ^ Z.of_nat (List.length b) + num b)%Z.
Proof. unfold num at 1. rewrite fold_left_app. fold stepf. rewrite fold_num. reflexivity. Qed.
Lemma num_zeros k : num (repeat 0%nat k) = 0%Z.
Proof.
  induction k as [|k IH]; [reflexivity|]. change (repeat 0%nat (S k)) with ([0%nat] ++ repeat 0%nat k).
  rewrite num_app, IH. reflexivity.
Qed.
Lemma num_cons d ds : num (d :: ds) = (Z.of_nat d * 10 ^ Z.of_nat (List.length ds) + num ds)%Z.
Proof. change (d :: ds) with ([d] ++ ds). rewrite num_app. f_equal. Qed.

Lemma p10 : (10 <> 0)%R. Proof. lra. Qed.
Lemma pow_Z k : (0 <= k)%Z -> IZR (10 ^ k) = powerRZ 10 k.
Proof.
  intros H. rewrite <- (Z2Nat.id k) by exact H. rewrite <- pow_powerRZ, <- pow_IZR. reflexivity.
Qed.
Lemma fraction_num ds : fraction ds = (IZR (num ds) * powerRZ 10 (- Z.of_nat (List.length ds)))%R.
Proof.
  induction ds as [|d ds IH]; [simpl; unfold num; simpl; ring|].
  cbn [fraction List.length]. rewrite IH, num_cons, plus_IZR, mult_IZR, pow_Z by lia.
  rewrite Nat2Z.inj_succ. replace (- Z.succ (Z.of_nat (List.length ds)))%Z with (- Z.of_nat (List.length ds) + - (1))%Z by lia.
  rewrite powerRZ_add by lra. rewrite <- INR_IZR_INZ.
  replace (INR d) with (INR d * (powerRZ 10 (Z.of_nat (List.length ds)) * powerRZ 10 (- Z.of_nat (List.length ds))))%R at 1.
  2: { rewrite <- powerRZ_add by lra. replace (_ + _)%Z with 0%Z by lia. simpl. ring. }
  simpl (powerRZ 10 (- (1))). field.
Qed.
Lemma denotes_tvalue t : denotes t = tvalue t.
Proof.
  destruct t as [n|ds p]; [reflexivity|]. unfold denotes, tvalue. rewrite fraction_num, Rmult_assoc, <- powerRZ_add by lra.
  do 2 f_equal. lia.
Qed.

(** ** [float] of a printed timestep *)
Lemma zeros_digits z : zeros z = map digit (repeat 0%nat (Z.to_nat z)).
Proof. unfold zeros. induction (Z.to_nat z) as [|k IH]; [reflexivity|]. simpl. rewrite IH. reflexivity. Qed.
Lemma zeros_ok k : Forall (fun d => (d < 10)%nat) (repeat 0%nat k).
Proof. induction k; simpl; constructor; try lia; assumption. Qed.

Lemma float_point ip fp r e :
  Forall (fun d => (d < 10)%nat) ip -> Forall (fun d => (d < 10)%nat) fp -> ip <> [] -> stops r ->
  py_exponent r = Some e ->
  py_float (map digit ip ++ "."%char :: map digit fp ++ r)
  = Ok (IZR (num (ip ++ fp)) * powerRZ 10 (e - Z.of_nat (List.length fp)))%R.
Proof.
  intros I F N S E. unfold py_float. rewrite (span_spec ip) by (exact I || reflexivity).
  replace (Ascii.eqb "." ".") with true by reflexivity. rewrite (span_spec fp) by assumption. rewrite E.
  destruct (ip ++ fp) eqn:X; [|reflexivity]. apply app_eq_nil in X. destruct X; contradiction.
Qed.
Lemma float_whole ip r e :
  Forall (fun d => (d < 10)%nat) ip -> ip <> [] -> (match r with [] => True | a :: _ => is_digit a = false /\ a <> "."%char end) ->
  py_exponent r = Some e ->
  py_float (map digit ip ++ r) = Ok (IZR (num ip) * powerRZ 10 e)%R.
Proof.
  intros I N S E. unfold py_float. rewrite (span_spec ip); [|exact I|destruct r; [exact Logic.I|apply S]].
  assert (Z0 : (e - Z.of_nat (List.length (@nil nat)))%Z = e) by (simpl; lia).
  destruct r as [|a r].
  - rewrite E, app_nil_r. destruct ip; [contradiction|]. rewrite Z0. reflexivity.
  - destruct S as [_ S]. rewrite (proj2 (Ascii.eqb_neq a ".") S). rewrite E, app_nil_r.
    destruct ip; [contradiction|]. rewrite Z0. reflexivity.
Qed.

Lemma exponent_spec (sg : bool) ds : decimal ds ->
  py_exponent ("e"%char :: (if sg then "-"%char else "+"%char) :: map digit ds) = Some ((if sg then -1 else 1) * num ds)%Z.
Proof.
  intros [N F]. unfold py_exponent. replace (Ascii.eqb "e" "e" || Ascii.eqb "e" "E") with true by reflexivity.
  destruct sg.
  - replace (Ascii.eqb "-" "-") with true by reflexivity. rewrite <- (app_nil_r (map digit ds)).
    rewrite (span_spec ds []) by (exact F || exact Logic.I). destruct ds; [contradiction|reflexivity].
  - replace (Ascii.eqb "+" "-") with false by reflexivity. replace (Ascii.eqb "+" "+") with true by reflexivity.
    rewrite <- (app_nil_r (map digit ds)).
    rewrite (span_spec ds []) by (exact F || exact Logic.I). destruct ds; [contradiction|reflexivity].
Qed.

(** The exponent part of a printed float. *)
Definition expo (e : Z) : text :=
  let E := str_int (Z.abs e) in
  "e"%char :: (if (e <? 0)%Z then "-"%char else "+"%char) :: (if (List.length E <? 2)%nat then "0"%char :: E else E).
Lemma expo_shape e : exists ds, decimal ds /\ num ds = Z.abs e /\
  expo e = "e"%char :: (if (e <? 0)%Z then "-"%char else "+"%char) :: map digit ds.
Proof.
  destruct (str_digits (Z.abs e) ltac:(lia)) as [ds [A [B D]]]. unfold expo. rewrite A, map_length.
  destruct (List.length ds <? 2)%nat.
  - exists (0%nat :: ds). split; [|split].
    + split; [discriminate|]. constructor; [lia|apply B].
    + rewrite num_cons, D. simpl. lia.
    + reflexivity.
  - exists ds. auto.
Qed.
Lemma expo_value e : py_exponent (expo e) = Some e.
Proof.
  destruct (expo_shape e) as [ds [B [D ->]]].
  destruct (e <? 0)%Z eqn:S.
  - change (Some e) with (Some e). rewrite (exponent_spec true ds B), D. apply Z.ltb_lt in S. f_equal. lia.
  - rewrite (exponent_spec false ds B), D. apply Z.ltb_ge in S. f_equal. lia.
Qed.

Lemma float_repr t : tstep_ok t -> py_float (str_timestep t) = Ok (tvalue t).
Proof.
  destruct t as [n|ds p]; intros H.
  - simpl in H. cbn [str_timestep]. destruct (str_digits n H) as [ds [A [[N F] D]]].
    rewrite A, <- (app_nil_r (map digit ds)). rewrite (float_whole ds [] 0%Z F N Logic.I eq_refl). simpl. f_equal. rewrite D. ring.
  - destruct H as [N F]. cbn [str_timestep tvalue]. unfold repr_float.
    set (n := Z.of_nat (List.length ds)).
    destruct ((-4 <? p) && (p <=? 16))%Z.
    + destruct (p <=? 0)%Z eqn:P0; [|destruct (p <? n)%Z eqn:Pn].
      * apply Z.leb_le in P0. rewrite zeros_digits.
        change (["0"%char; "."%char] ++ map digit (repeat 0%nat (Z.to_nat (- p))) ++ map digit ds)
          with (map digit [0%nat] ++ "."%char :: (map digit (repeat 0%nat (Z.to_nat (- p))) ++ map digit ds)).
        rewrite <- map_app, <- (app_nil_r (map digit (_ ++ ds))).
        rewrite (float_point [0%nat] (repeat 0%nat (Z.to_nat (- p)) ++ ds) [] 0%Z); try reflexivity; try discriminate; try exact Logic.I.
        -- f_equal. f_equal.
           ++ f_equal. rewrite app_assoc, num_app. change ([0%nat] ++ repeat 0%nat (Z.to_nat (- p))) with (repeat 0%nat (S (Z.to_nat (- p)))).
              rewrite num_zeros. lia.
           ++ f_equal. rewrite app_length, repeat_length, Nat2Z.inj_add, Z2Nat.id by lia. unfold n. lia.
        -- constructor; [lia|constructor].
        -- apply Forall_app. split; [apply zeros_ok|exact F].
      * apply Z.leb_gt in P0. apply Z.ltb_lt in Pn. rewrite <- firstn_map, <- skipn_map || rewrite firstn_map, skipn_map.
        rewrite <- (app_nil_r (map digit (skipn _ ds))).
        rewrite (float_point (firstn (Z.to_nat p) ds) (skipn (Z.to_nat p) ds) [] 0%Z); try reflexivity; try exact Logic.I.
        -- f_equal. rewrite firstn_skipn. do 2 f_equal. rewrite skipn_length, Nat2Z.inj_sub by (unfold n in Pn; lia).
           rewrite Z2Nat.id by lia. unfold n. lia.
        -- rewrite <- (firstn_skipn (Z.to_nat p) ds) in F. apply Forall_app in F. apply F.
        -- rewrite <- (firstn_skipn (Z.to_nat p) ds) in F. apply Forall_app in F. apply F.
        -- destruct ds; [contradiction|]. destruct (Z.to_nat p) eqn:X; [lia|]. discriminate.
      * apply Z.leb_gt in P0. apply Z.ltb_ge in Pn. rewrite zeros_digits.
        change ["."%char; "0"%char] with ("."%char :: map digit [0%nat] ++ []).
        rewrite app_assoc, <- map_app.
        rewrite (float_point (ds ++ repeat 0%nat (Z.to_nat (p - n))) [0%nat] [] 0%Z); try reflexivity; try exact Logic.I.
        -- f_equal. rewrite !num_app, num_zeros. rewrite repeat_length, Z2Nat.id by lia.
           change (num [0%nat]) with 0%Z. rewrite !Z.add_0_r, !mult_IZR, !pow_Z by (simpl; lia).
           rewrite !Rmult_assoc, <- !powerRZ_add by lra. do 2 f_equal. simpl. unfold n. lia.
        -- apply Forall_app. split; [exact F|apply zeros_ok].
        -- constructor; [lia|constructor].
        -- destruct ds; [contradiction|discriminate].
    + fold (expo (p - 1)). destruct ds as [|d ds]; [contradiction|]. inversion F as [|? ? Hd Fd]; subst.
      cbn [map firstn skipn app].
      assert (V : tvalue (TFloat (d :: ds) p) = tvalue (TFloat (d :: ds) p)) by reflexivity.
      destruct (expo_shape (p - 1)) as [es [Be [De Ee]]].
      destruct ds as [|d2 ds].
      * cbn [map app]. change (digit d :: expo (p - 1)) with (map digit [d] ++ expo (p - 1)).
        rewrite (float_whole [d] (expo (p - 1)) (p - 1) F).
        -- f_equal.
        -- discriminate.
        -- rewrite Ee. split; [reflexivity|discriminate].
        -- apply expo_value.
      * match goal with |- py_float ?T = _ => change T with (map digit [d] ++ "."%char :: map digit (d2 :: ds) ++ expo (p - 1)) end.
        rewrite (float_point [d] (d2 :: ds) (expo (p - 1)) (p - 1)).
        -- f_equal. change ([d] ++ d2 :: ds) with (d :: d2 :: ds). do 2 f_equal. unfold n. cbn [List.length]. lia.
        -- constructor; [exact Hd|constructor].
        -- exact Fd.
        -- discriminate.
        -- rewrite Ee. reflexivity.
        -- apply expo_value.
Qed.
