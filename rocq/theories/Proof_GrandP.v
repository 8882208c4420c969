(** Facts about the grand resistance matrices. *)
From Coq Require Import Reals Arith Bool List Lia Lra.
From Verif Require Import Base Py Model_Layout Model_Minf Model_Grand Model_Close Model_R2B Model_MinfP Model_GrandP
  Spec_Layout Spec_Minf Spec_R2B Spec_MinfP Proof_Layout Proof_Minf3 Proof_R2B3 Proof_R2B4 Proof_MinfP4.
Local Open Scope R_scope.
Local Notation side p := (11 * num_spheres p + 6 * num_dumbbells p)%nat.

Lemma is_inv_scal n A B k : k <> 0 -> is_inv n A B -> is_inv n (mscal (/ k) A) (mscal k B).
Proof.
  intros Hk H i j Hi Hj. destruct (H i j Hi Hj) as [E1 E2]. unfold mmul, mscal in *. split.
  - rewrite (rsum_ext n _ (fun l => A i l * B l j)); [exact E1|]. intros l _. field. exact Hk.
  - rewrite (rsum_ext n _ (fun l => B i l * A l j)); [exact E2|]. intros l _. field. exact Hk.
Qed.
Lemma is_inv_ext n A A' B B' : (forall i j, (i < n)%nat -> (j < n)%nat -> A i j = A' i j) ->
  (forall i j, (i < n)%nat -> (j < n)%nat -> B i j = B' i j) -> is_inv n A B -> is_inv n A' B'.
Proof.
  intros HA HB H i j Hi Hj. destruct (H i j Hi Hj) as [E1 E2]. unfold mmul in *. split.
  - rewrite (rsum_ext n _ (fun l => A i l * B l j)); [exact E1|]. intros l Hl. rewrite HA, HB by assumption. reflexivity.
  - rewrite (rsum_ext n _ (fun l => B i l * A l j)); [exact E2|]. intros l Hl. rewrite HA, HB by assumption. reflexivity.
Qed.
Lemma is_inv_same n A A' B B' : (forall i j, (i < n)%nat -> (j < n)%nat -> A i j = A' i j) ->
  is_inv n A B -> is_inv n A' B' -> forall i j, (i < n)%nat -> (j < n)%nat -> B' i j = B i j.
Proof.
  intros HA HB HB'. apply (is_inv_unique n A'); [exact HB'|]. apply (is_inv_ext n A A' B B); auto.
Qed.
Lemma is_inv_perm n A B s : permutes n s -> is_inv n A B ->
  is_inv n (fun i j => A (s i) (s j)) (fun i j => B (s i) (s j)).
Proof.
  intros Hs H i j Hi Hj. destruct Hs as [S1 S2].
  destruct (H (s i) (s j) (S1 i Hi) (S1 j Hj)) as [E1 E2]. unfold mmul in *.
  assert (Hd : delta (s i) (s j) = delta i j).
  { unfold delta. destruct (Nat.eqb_spec i j) as [->|Hne]; [rewrite Nat.eqb_refl; reflexivity|].
    destruct (Nat.eqb_spec (s i) (s j)) as [E|_]; [|reflexivity]. exfalso. apply Hne. apply S2; assumption. }
  rewrite Hd in *. split.
  - rewrite (rsum_perm n s (fun l => A (s i) l * B l (s j))) by (split; assumption). exact E1.
  - rewrite (rsum_perm n s (fun l => B (s i) l * A l (s j))) by (split; assumption). exact E2.
Qed.

Lemma drag_sym p mu n : msym n (drag_Minfinity_inverse p mu).
Proof.
  intros i j _ _. unfold drag_Minfinity_inverse. f_equal.
  destruct (Nat.eqb_spec i j) as [->|H]; [rewrite Nat.eqb_refl; reflexivity|].
  destruct (Nat.eqb_spec j i) as [E|_]; [congruence|reflexivity].
Qed.

Lemma add_near_ok mo near mi g : add_near mo near mi = Ok g ->
  (mo = true /\ g = mi) \/ (mo = false /\ exists r, near = Some r /\ g = madd r mi).
Proof.
  unfold add_near. destruct mo; [intros E; inversion E; left; auto|].
  destruct near as [r|]; [|discriminate]. intros E. inversion E. right. split; [reflexivity|]. exists r. auto.
Qed.
Lemma add_near_sym n mo near mi g : (forall r, near = Some r -> msym n r) -> msym n mi ->
  add_near mo near mi = Ok g -> msym n g.
Proof.
  intros Hn Hm E. destruct (add_near_ok mo near mi g E) as [[_ ->]|[_ (r & Er & ->)]]; [exact Hm|].
  intros i j Hi Hj. unfold madd. rewrite (Hn r Er i j Hi Hj), (Hm i j Hi Hj). reflexivity.
Qed.

(** [n] entries of two results related by [f]. *)
Lemma add_near_rel n k mo near near' mi mi' g :
  (forall r, near = Some r -> exists r', near' = Some r' /\ forall i j, (i < n)%nat -> (j < n)%nat -> r' i j = k * r i j) ->
  (forall i j, (i < n)%nat -> (j < n)%nat -> mi' i j = k * mi i j) ->
  add_near mo near mi = Ok g ->
  exists g', add_near mo near' mi' = Ok g' /\ forall i j, (i < n)%nat -> (j < n)%nat -> g' i j = k * g i j.
Proof.
  intros Hn Hm E. destruct (add_near_ok mo near mi g E) as [[-> ->]|[-> (r & Er & ->)]].
  - exists mi'. split; [reflexivity|exact Hm].
  - destruct (Hn r Er) as (r' & Er' & H). rewrite Er'. exists (madd r' mi'). split; [reflexivity|].
    intros i j Hi Hj. unfold madd. rewrite H, Hm by assumption. ring.
Qed.

Section Free.
Variables (inv : nat -> mat -> mat) (sc : nat -> nat -> R -> nat -> R) (table : list R) (bb : bool) (p : posdata)
  (cf mu : R).
Let n := side p.
Lemma free_inv last reg vb dr mo G mi :
  grand_resistance_free inv sc table bb p last reg cf vb dr mo mu = Ok (G, mi) ->
  mi = Minfinity_inverse inv bb p mu dr reg last /\
  add_near mo (generate_R2Bexact_free sc table bb p cf mu) mi = Ok G /\ (vb && (dr || negb reg))%bool = false.
Proof.
  unfold grand_resistance_free, bind. destruct (add_near _ _ _) as [g|] eqn:E; [|discriminate].
  destruct (vb && (dr || negb reg))%bool; [discriminate|]. intros H. inversion H; subst. auto.
Qed.
Lemma free_sym last reg vb dr mo G mi :
  (dr = false -> reg = true -> is_inv n (generate_Minfinity bb p mu) (inv n (generate_Minfinity bb p mu))) ->
  (dr = false -> reg = false -> msym n last) ->
  grand_resistance_free inv sc table bb p last reg cf vb dr mo mu = Ok (G, mi) -> msym n G /\ msym n mi.
Proof.
  intros H1 H2 E. destruct (free_inv _ _ _ _ _ _ _ E) as (Em & EG & _).
  assert (Hm : msym n mi).
  { rewrite Em. unfold Minfinity_inverse. destruct dr; [apply drag_sym|]. destruct reg; [|apply H2; reflexivity].
    apply (is_inv_sym n (generate_Minfinity bb p mu)); [apply gen_sym|apply H1; reflexivity]. }
  split; [|exact Hm]. refine (add_near_sym n _ _ _ _ _ Hm EG). intros r Er. exact (gen_r2b_sym _ _ _ _ _ _ _ _ _ Er).
Qed.
Lemma free_translate last reg vb dr mo d :
  grand_resistance_free inv sc table bb (translate d p) last reg cf vb dr mo mu =
  grand_resistance_free inv sc table bb p last reg cf vb dr mo mu.
Proof.
  unfold grand_resistance_free, Minfinity_inverse. rewrite gen_translate, r2b_translate. reflexivity.
Qed.
Lemma free_viscosity k last last' reg vb dr mo G mi :
  k <> 0 ->
  (dr = false -> reg = true ->
    is_inv n (generate_Minfinity bb p mu) (inv n (generate_Minfinity bb p mu)) /\
    is_inv n (generate_Minfinity bb p (k * mu)) (inv n (generate_Minfinity bb p (k * mu)))) ->
  (forall i j, (i < n)%nat -> (j < n)%nat -> last' i j = k * last i j) ->
  grand_resistance_free inv sc table bb p last reg cf vb dr mo mu = Ok (G, mi) ->
  exists G' mi', grand_resistance_free inv sc table bb p last' reg cf vb dr mo (k * mu) = Ok (G', mi') /\
    forall i j, (i < n)%nat -> (j < n)%nat -> G' i j = k * G i j /\ mi' i j = k * mi i j.
Proof.
  intros Hk HI HL E. destruct (free_inv _ _ _ _ _ _ _ E) as (Em & EG & Ev).
  assert (Hm : forall i j, (i < n)%nat -> (j < n)%nat -> Minfinity_inverse inv bb p (k * mu) dr reg last' i j = k * mi i j).
  { intros i j Hi Hj. rewrite Em. unfold Minfinity_inverse. destruct dr; [unfold drag_Minfinity_inverse; ring|].
    destruct reg; [|apply HL; assumption]. destruct (HI eq_refl eq_refl) as [I1 I2].
    apply (is_inv_unique n (generate_Minfinity bb p (k * mu)) _ (mscal k (inv n (generate_Minfinity bb p mu))) I2); try assumption.
    refine (is_inv_ext n _ _ _ _ _ (fun _ _ _ _ => eq_refl) (is_inv_scal n _ _ k Hk I1)).
    intros r t Hr Ht. unfold mscal. symmetry. apply gen_mu; assumption. }
  assert (Hn : forall r, generate_R2Bexact_free sc table bb p cf mu = Some r ->
    exists r', generate_R2Bexact_free sc table bb p cf (k * mu) = Some r' /\
      forall i j, (i < n)%nat -> (j < n)%nat -> r' i j = k * r i j).
  { intros r Er. unfold generate_R2Bexact_free in *. rewrite r2b_viscosity, Er. exists (mscal k r). auto. }
  destruct (add_near_rel n k mo _ _ _ (Minfinity_inverse inv bb p (k * mu) dr reg last') _ Hn Hm EG)
    as (G' & EG' & HG').
  exists G', (Minfinity_inverse inv bb p (k * mu) dr reg last'). split.
  - unfold grand_resistance_free, bind. rewrite EG', Ev. reflexivity.
  - intros i j Hi Hj. auto.
Qed.
End Free.

Section Relabel.
Variables (p : posdata) (s t : nat -> nat).
Hypothesis Hs : permutes (num_spheres p) s.
Hypothesis Ht : permutes (num_dumbbells p) t.
Local Notation Ns := (num_spheres p).
Local Notation Nd := (num_dumbbells p).
Local Notation br := (bead_relabel s t Ns Nd).
(** The induced renumbering of the components. *)
Definition comp_relabel (r : nat) : nat :=
  if Nat.ltb r (3 * Ns) then (3 * br (r / 3) + r mod 3)%nat
  else if Nat.ltb r (6 * Ns) then (3 * Ns + 3 * br ((r - 3 * Ns) / 3) + (r - 3 * Ns) mod 3)%nat
  else if Nat.ltb r (11 * Ns) then (6 * Ns + 5 * br ((r - 6 * Ns) / 5) + (r - 6 * Ns) mod 5)%nat
  else (11 * Ns + 3 * (br (Ns + (r - 11 * Ns) / 3) - Ns) + (r - 11 * Ns) mod 3)%nat.
Lemma divmod_add w b i : (i < w)%nat -> ((w * b + i) / w = b /\ (w * b + i) mod w = i)%nat.
Proof.
  intros H. split.
  - symmetry. apply Nat.div_unique with i; [exact H|reflexivity].
  - symmetry. apply Nat.mod_unique with b; [exact H|reflexivity].
Qed.
Lemma comp_relabel_block k b i : kvalid Ns Nd k b -> (i < ksize k)%nat ->
  comp_relabel (kstart Ns k b + i) = (kstart Ns k (br b) + i)%nat.
Proof.
  intros V Hi. unfold comp_relabel. destruct k; cbn [kvalid ksize kstart] in *.
  - rewrite (proj2 (Nat.ltb_lt _ _)) by lia. destruct (divmod_add 3 b i Hi) as [-> ->]. reflexivity.
  - rewrite (proj2 (Nat.ltb_ge _ _)) by lia. rewrite (proj2 (Nat.ltb_lt _ _)) by lia.
    replace (3 * Ns + 3 * b + i - 3 * Ns)%nat with (3 * b + i)%nat by lia. destruct (divmod_add 3 b i Hi) as [-> ->]. reflexivity.
  - rewrite !(proj2 (Nat.ltb_ge _ _)) by lia. rewrite (proj2 (Nat.ltb_lt _ _)) by lia.
    replace (6 * Ns + 5 * b + i - 6 * Ns)%nat with (5 * b + i)%nat by lia. destruct (divmod_add 5 b i Hi) as [-> ->]. reflexivity.
  - rewrite !(proj2 (Nat.ltb_ge _ _)) by lia.
    replace (11 * Ns + 3 * (b - Ns) + i - 11 * Ns)%nat with (3 * (b - Ns) + i)%nat by lia.
    destruct (divmod_add 3 (b - Ns) i Hi) as [-> ->]. replace (Ns + (b - Ns))%nat with b by lia. reflexivity.
Qed.
Lemma comp_relabel_permutes : permutes (side p) comp_relabel.
Proof.
  split.
  - intros r Hr. destruct (block_cover Ns Nd r Hr) as (k & b & i & V & Hi & ->). rewrite comp_relabel_block by assumption.
    apply block_range; [|exact Hi]. apply (br_valid p s t); assumption.
  - intros r r' Hr Hr' E. destruct (block_cover Ns Nd r Hr) as (k & b & i & V & Hi & ->).
    destruct (block_cover Ns Nd r' Hr') as (k' & b' & i' & V' & Hi' & ->).
    rewrite !comp_relabel_block in E by assumption.
    apply (block_inj Ns Nd) in E; try assumption; try (apply (br_valid p s t); assumption). destruct E as (-> & E & ->).
    f_equal. f_equal. apply (br_inj p s t); try assumption; destruct k'; simpl in V, V'; lia.
Qed.
End Relabel.

(** Renumbering the particles. *)
Lemma free_relabel inv sc table bb p s t cf mu vb mo lst lst' G mi G' mi' :
  permutes (num_spheres p) s -> permutes (num_dumbbells p) t -> 0 < cf ->
  (forall b, (b < num_spheres p + 2 * num_dumbbells p)%nat -> 0 < bead_sizes p b) ->
  distinct_beads (num_spheres p + 2 * num_dumbbells p) (bead_positions p) (bead_sizes p) ->
  all_reciprocal sc table (bead_positions p) (bead_sizes p) (num_spheres p + 2 * num_dumbbells p) cf ->
  is_inv (side p) (generate_Minfinity bb p mu) (inv (side p) (generate_Minfinity bb p mu)) ->
  is_inv (side p) (generate_Minfinity bb (relabel s t p) mu) (inv (side p) (generate_Minfinity bb (relabel s t p) mu)) ->
  grand_resistance_free inv sc table bb p lst true cf vb false mo mu = Ok (G, mi) ->
  grand_resistance_free inv sc table bb (relabel s t p) lst' true cf vb false mo mu = Ok (G', mi') ->
  forall r c, (r < side p)%nat -> (c < side p)%nat ->
    G' r c = G (comp_relabel p s t r) (comp_relabel p s t c).
Proof.
  intros Hs Ht Hcf Hpos HD HR HI HI' E E' r c Hr Hc.
  destruct (free_inv _ _ _ _ _ _ _ _ _ _ _ _ _ _ E) as (Em & EG & _).
  destruct (free_inv _ _ _ _ _ _ _ _ _ _ _ _ _ _ E') as (Em' & EG' & _).
  pose proof (comp_relabel_permutes p s t Hs Ht) as HP.
  assert (HM : forall i j, (i < side p)%nat -> (j < side p)%nat -> generate_Minfinity bb (relabel s t p) mu i j =
     generate_Minfinity bb p mu (comp_relabel p s t i) (comp_relabel p s t j)).
  { intros i j Hi Hj. destruct (block_cover _ _ i Hi) as (k & b & x & V & Hx & ->).
    destruct (block_cover _ _ j Hj) as (k' & b' & x' & V' & Hx' & ->). rewrite !comp_relabel_block by assumption.
    apply gen_relabel; assumption. }
  assert (Hm : mi' r c = mi (comp_relabel p s t r) (comp_relabel p s t c)).
  { rewrite Em, Em'. cbn [Minfinity_inverse num_spheres num_dumbbells relabel].
    apply (is_inv_unique (side p) _ _ (fun i j => inv (side p) (generate_Minfinity bb p mu) (comp_relabel p s t i) (comp_relabel p s t j)) HI'); try assumption.
    refine (is_inv_ext _ _ _ _ _ _ (fun _ _ _ _ => eq_refl) (is_inv_perm _ _ _ _ HP HI)).
    intros i j Hi Hj. symmetry. apply HM; assumption. }
  destruct (add_near_ok _ _ _ _ EG) as [[-> ->]|[-> (g & Eg & ->)]];
  destruct (add_near_ok _ _ _ _ EG') as [[X ->]|[X (g' & Eg' & ->)]]; try discriminate; [exact Hm|].
  unfold madd. rewrite Hm. f_equal.
  destruct (block_cover _ _ r Hr) as (k & b & x & V & Hx & ->).
  destruct (block_cover _ _ c Hc) as (k' & b' & x' & V' & Hx' & ->). rewrite !comp_relabel_block by assumption.
  exact (gen_free_relabel sc table bb p cf mu s t g g' Hcf Hs Ht Hpos HR Eg Eg' k b k' b' x x' V V' Hx Hx').
Qed.

Section Periodic.
Variables (inv : nat -> mat -> mat) (inv3 : mat -> mat) (sc : nat -> nat -> R -> nat -> R) (table : list R) (h : nat)
  (bb : bool) (p : posdata) (bl tr : vec) (cf mu : R) (Ot : vec) (Et : mat) (st : nat -> nat -> R).
Let n := side p.
Local Notation MP := (generate_Minfinity_periodic h bb p bl tr mu Ot Et st).
Local Notation near := (generate_R2Bexact_periodic inv3 sc table bb p cf mu (vsub tr bl) Ot Et).
Lemma periodic_drag_raises last reg mo : (0 < num_spheres p + num_dumbbells p)%nat ->
  grand_resistance_periodic inv inv3 sc table h bb p last bl tr reg cf true mo mu Ot Et st = Raise IndexError.
Proof.
  intros H. unfold grand_resistance_periodic. destruct (Nat.eqb_spec (num_spheres p + num_dumbbells p) 0); [lia|reflexivity].
Qed.
Lemma periodic_inv last reg mo G mi :
  grand_resistance_periodic inv inv3 sc table h bb p last bl tr reg cf false mo mu Ot Et st = Ok (G, mi) ->
  mi = (if reg then inv n MP else last) /\ add_near mo near mi = Ok G.
Proof.
  unfold grand_resistance_periodic, bind. destruct reg; (destruct (add_near _ _ _) eqn:E; [|discriminate]); intros H;
  inversion H; subst; auto.
Qed.
Lemma periodic_sym last reg mo G mi :
  (reg = true -> is_inv n MP (inv n MP)) -> (reg = false -> msym n last) ->
  grand_resistance_periodic inv inv3 sc table h bb p last bl tr reg cf false mo mu Ot Et st = Ok (G, mi) ->
  msym n G /\ msym n mi.
Proof.
  intros H1 H2 E. destruct (periodic_inv _ _ _ _ _ E) as (Em & EG).
  assert (Hm : msym n mi).
  { rewrite Em. destruct reg; [|apply H2; reflexivity].
    apply (is_inv_sym n MP); [apply genP_sym|apply H1; reflexivity]. }
  split; [|exact Hm]. refine (add_near_sym n _ _ _ _ _ Hm EG). intros r Er. exact (gen_r2b_sym _ _ _ _ _ _ _ _ _ Er).
Qed.
Lemma periodic_translate d last reg mo G mi :
  is_inv 3 (diag3 (vsub tr bl)) (inv3 (diag3 (vsub tr bl))) ->
  (reg = true -> is_inv n MP (inv n MP) /\
     let M' := generate_Minfinity_periodic h bb (translate d p) bl tr mu Ot Et st in is_inv n M' (inv n M')) ->
  grand_resistance_periodic inv inv3 sc table h bb p last bl tr reg cf false mo mu Ot Et st = Ok (G, mi) ->
  exists G' mi', grand_resistance_periodic inv inv3 sc table h bb (translate d p) last bl tr reg cf false mo mu Ot Et st = Ok (G', mi') /\
    forall i j, (i < n)%nat -> (j < n)%nat -> G' i j = G i j /\ mi' i j = mi i j.
Proof.
  intros H3 HI E. destruct (periodic_inv _ _ _ _ _ E) as (Em & EG).
  pose (mi' := if reg then inv n (generate_Minfinity_periodic h bb (translate d p) bl tr mu Ot Et st) else last).
  assert (Hm : forall i j, (i < n)%nat -> (j < n)%nat -> mi' i j = 1 * mi i j).
  { intros i j Hi Hj. rewrite Em, Rmult_1_l. unfold mi'. destruct reg; [|reflexivity]. destruct (HI eq_refl) as [I1 I2].
    refine (is_inv_same n _ _ _ _ _ I1 I2 i j Hi Hj). intros r t Hr Ht. symmetry. apply genP_translate; assumption. }
  assert (Hn : forall r, near = Some r ->
    exists r', generate_R2Bexact_periodic inv3 sc table bb (translate d p) cf mu (vsub tr bl) Ot Et = Some r' /\
      forall i j, (i < n)%nat -> (j < n)%nat -> r' i j = 1 * r i j).
  { intros r Er. rewrite r2b_translate_periodic by exact H3. exists r. split; [exact Er|]. intros. ring. }
  destruct (add_near_rel n 1 mo _ _ _ mi' _ Hn Hm EG) as (G' & EG' & HG').
  exists G', mi'. split.
  - unfold grand_resistance_periodic, bind. cbn [num_spheres num_dumbbells translate] in *. fold n.
    unfold mi' in EG'. destruct reg; rewrite EG'; reflexivity.
  - intros i j Hi Hj. rewrite HG', Hm by assumption. split; ring.
Qed.
Lemma periodic_viscosity k last last' reg mo G mi :
  k <> 0 ->
  (reg = true -> is_inv n MP (inv n MP) /\
     let M' := generate_Minfinity_periodic h bb p bl tr (k * mu) Ot Et st in is_inv n M' (inv n M')) ->
  (forall i j, (i < n)%nat -> (j < n)%nat -> last' i j = k * last i j) ->
  grand_resistance_periodic inv inv3 sc table h bb p last bl tr reg cf false mo mu Ot Et st = Ok (G, mi) ->
  exists G' mi', grand_resistance_periodic inv inv3 sc table h bb p last' bl tr reg cf false mo (k * mu) Ot Et st = Ok (G', mi') /\
    forall i j, (i < n)%nat -> (j < n)%nat -> G' i j = k * G i j /\ mi' i j = k * mi i j.
Proof.
  intros Hk HI HL E. destruct (periodic_inv _ _ _ _ _ E) as (Em & EG).
  pose (mi' := if reg then inv n (generate_Minfinity_periodic h bb p bl tr (k * mu) Ot Et st) else last').
  assert (Hm : forall i j, (i < n)%nat -> (j < n)%nat -> mi' i j = k * mi i j).
  { intros i j Hi Hj. rewrite Em. unfold mi'. destruct reg; [|apply HL; assumption]. destruct (HI eq_refl) as [I1 I2]. cbv zeta in I2.
    apply (is_inv_unique n _ _ (mscal k (inv n MP)) I2); try assumption.
    refine (is_inv_ext n _ _ _ _ _ (fun _ _ _ _ => eq_refl) (is_inv_scal n _ _ k Hk I1)).
    intros r t Hr Ht. unfold mscal. symmetry. apply genP_mu; assumption. }
  assert (Hn : forall r, near = Some r ->
    exists r', generate_R2Bexact_periodic inv3 sc table bb p cf (k * mu) (vsub tr bl) Ot Et = Some r' /\
      forall i j, (i < n)%nat -> (j < n)%nat -> r' i j = k * r i j).
  { intros r Er. unfold generate_R2Bexact_periodic in *. rewrite r2b_viscosity, Er. exists (mscal k r). auto. }
  destruct (add_near_rel n k mo _ _ _ mi' _ Hn Hm EG) as (G' & EG' & HG').
  exists G', mi'. split.
  - unfold grand_resistance_periodic, bind. fold n. unfold mi' in EG'. destruct reg; rewrite EG'; reflexivity.
  - intros i j Hi Hj. auto.
Qed.
End Periodic.
