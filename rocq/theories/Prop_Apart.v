(** C102: the near field of particles that stay apart. *)
From Coq Require Import Reals List Arith ZArith Bool Lia Lra FunctionalExtensionality.
From Verif Require Import Base Py Model_Mob Model_Layout Model_Minf Model_Grand Model_Close Model_R2B Model_GrandP Model_Step
  Model_Shear Model_Output Model_Frame Model_Inputs Model_Sim Spec_Output Spec_Step Spec_Frame Spec_Posdef Spec_Run
  Spec_Turn Spec_Push Spec_Tow Spec_Alone Spec_Drag Spec_Apart
  Proof_Posdef Proof_Posdef2 Spec_Runs Proof_Run Proof_Apart Prop_Alone Prop_Drag.
From Verif Require Proof_Step.
Import ListNotations.
Local Open Scope R_scope.

Lemma rest_same inv inv3 solve sc table h stale Ns Nd fm ex bb cf g input p0 :
  (forall b, (b < Ns + 2 * Nd)%nat -> 0 < radii_of Ns Nd p0 b) -> In 1 table ->
  (forall p t i f, input p t = Ok (i, f) -> unbounded f) ->
  forall p, radii_kept p0 p -> beyond Ns Nd (radii_of Ns Nd p0) cf (snap Ns p) -> forall t v mi,
    solve_rest inv inv3 solve sc table h stale Ns Nd fm ex bb true cf g input p t v mi =
    solve_rest inv inv3 solve sc table h stale Ns Nd fm ex bb false cf g input p t v mi.
Proof.
  intros Ha H1 HU p [K1 K2] HB t v mi. unfold solve_rest. destruct (input p t) as [[i f]|e] eqn:EI; [|reflexivity]. cbn [bind].
  pose proof (proj2 (free_unbounded f) (HU p t i f EI)) as FS. rewrite FS.
  assert (E : grand_resistance_free inv sc table bb (posdata_of Ns Nd p) mi false cf false false true (f_mu f) =
              grand_resistance_free inv sc table bb (posdata_of Ns Nd p) mi false cf false false false (f_mu f)); [|rewrite E; reflexivity].
  unfold grand_resistance_free, add_near. cbn [andb orb negb]. rewrite far_near.
  - cbn [bind]. assert (madd mzero (Minfinity_inverse inv bb (posdata_of Ns Nd p) (f_mu f) false false mi) = Minfinity_inverse inv bb (posdata_of Ns Nd p) (f_mu f) false false mi) as ->; [|reflexivity].
    apply functional_extensionality; intros a. apply functional_extensionality; intros b. unfold madd, mzero. ring.
  - intros b Hb. specialize (Ha b Hb). unfold bead_sizes, radii_of in *. cbn [posdata_of num_spheres num_dumbbells sphere_sizes dumbbell_sizes]. rewrite K1, K2. exact Ha.
  - exact H1.
  - intros a b Hab. specialize (HB a b Hab). cbn [posdata_of num_spheres num_dumbbells] in Hab.
    assert (SZ : forall c, bead_sizes (posdata_of Ns Nd p) c = radii_of Ns Nd p0 c) by (intros c; unfold bead_sizes, radii_of; cbn [posdata_of num_spheres num_dumbbells sphere_sizes dumbbell_sizes]; rewrite K1, K2; reflexivity).
    rewrite !SZ. replace (norm _) with (norm (vsub (saved_bead Ns Nd (snap Ns p) a) (saved_bead Ns Nd (snap Ns p) b))); [exact HB|].
    assert (X : forall c l, (c < Ns + 2 * Nd)%nat -> saved_bead Ns Nd (snap Ns p) c l = bead_positions (posdata_of Ns Nd p) c l).
    { intros c l Hc. unfold saved_bead, bead_positions, snap, append_rows. cbn [n_pos n_dx posdata_of num_spheres num_dumbbells sphere_positions dumbbell_positions dumbbell_deltax].
      destruct (Nat.ltb_spec c Ns); [reflexivity|]. destruct (Nat.ltb_spec c (Ns + Nd)); [unfold vsub, vscal; field|].
      destruct (Nat.ltb_spec (c - Nd) Ns); [lia|]. replace (c - Nd - Ns)%nat with (c - Ns - Nd)%nat by lia. unfold vadd, vscal. field. }
    unfold norm, vsub. rewrite !X by lia. reflexivity.
Qed.

(** If the file of a run in unbounded fluid shows that no two spheres or beads
    came closer than the near field reaches, the run with the near field switched
    off, or on, writes the same file.  Nothing is assumed of the numerical
    routines. *)
Theorem C102_same :
  forall inv inv3 solve sc table h stale Ns Nd fm extract bb minf_only cutoff_factor g input p0 s fs,
    g_scheme g = euler \/ g_scheme g = ab2 -> g_save_pos g = 1%nat -> g_save_after g = 0%nat -> g_start g = 0%nat ->
    (forall b, (b < Ns + 2 * Nd)%nat -> 0 < radii_of Ns Nd p0 b) -> In 1 table ->
    (forall p t i f, input p t = Ok (i, f) -> unbounded f) ->
    full_simulation inv inv3 solve sc table h stale Ns Nd fm extract bb minf_only cutoff_factor g input p0 = Ok (Some (s, fs)) ->
    (forall x, In x s -> beyond Ns Nd (radii_of Ns Nd p0) cutoff_factor x) ->
    full_simulation inv inv3 solve sc table h stale Ns Nd fm extract bb (negb minf_only) cutoff_factor g input p0 = Ok (Some (s, fs)).
Proof.
  intros inv inv3 solve sc table h stale Ns Nd fm ex bb mo cf g input p0 s fs Hsch HS HA H0 Ha H1 HU E HB. unfold full_simulation in *.
  refine (simulate_same inv3 Ns Nd _ _ _ g p0 (beyond Ns Nd (radii_of Ns Nd p0) cf) _ Hsch HS HA H0 (s, fs) (conj eq_refl eq_refl) E HB).
  intros p K B t v mi. pose proof (rest_same inv inv3 solve sc table h stale Ns Nd fm ex bb cf g input p0 Ha H1 HU p K B t v mi) as R.
  destruct mo; [exact R|symmetry; exact R].
Qed.
Print Assumptions C102_same.

(** A layer of spheres, all at one height and far enough apart, in the constant or
    oscillating shear, with the drag matrix: they move alike, so the near field
    never acts and C101_shear holds with it. *)
Theorem C102_layer :
  forall inv inv3 solve sc table h stale Ns bb cutoff_factor g oscillating p0,
    let input := fun p t => input_ftsuoe (shear_input oscillating) fte Ns 0 p t (g_dt g) in
    inverts_posdef inv -> solves_posdef solve -> solves_shape solve -> (0 < Ns)%nat -> In 1 table ->
    usable g 0 -> g_scheme g <> rk4 -> g_explosion g = false -> g_use_drag g = true -> no_box_g g -> g_save_pos g = 1%nat ->
    (forall j, (j < Ns)%nat -> 0 < c_ssizes p0 j) -> (forall j, (j < Ns)%nat -> c_spos p0 j 2%nat = c_spos p0 0%nat 2%nat) ->
    (forall i j, (i < j < Ns)%nat -> cutoff_factor * (c_ssizes p0 i + c_ssizes p0 j) <= norm (vsub (c_spos p0 i) (c_spos p0 j))) ->
    exists s fs, (forall minf_only, full_simulation inv inv3 solve sc table h stale Ns 0 fte false bb minf_only cutoff_factor g input p0 = Ok (Some (s, fs))) /\
      s <> [] /\
      (forall x, In x s -> exists strain, forall j l, (j < Ns)%nat -> (l < 3)%nat ->
         n_pos x j l = c_spos p0 j l + v3 (strain * (c_spos p0 0%nat 2%nat - still_height oscillating)) 0 0 l) /\
      forall x j l, (j < Ns)%nat -> (l < 3)%nat ->
         n_pos (last s x) j l = c_spos p0 j l + v3 (strain_summed g (shear_rate oscillating) (g_num_frames g) * (c_spos p0 0%nat 2%nat - still_height oscillating)) 0 0 l.
Proof.
  intros inv inv3 solve sc table h stale Ns bb cf g osc p0 input Hi Hs Hsh HN H1 HU Hr He Hd Hb HS HR HZ HF.
  destruct (C101_shear inv inv3 solve sc table h stale Ns 0 bb cf g osc p0 Hi Hs Hsh HN HU Hr He Hd Hb HR ltac:(intros; lia)) as (s & fs & E & pos & frc & P0 & PM & _ & PS & _).
  fold input in E. exists s, fs.
  pose proof HU as (SC & U1 & U2 & U3 & U4 & U5 & U6 & U7).
  assert (PL : forall m j l, (m <= g_num_frames g)%nat -> (j < Ns)%nat -> (l < 3)%nat -> n_pos (snap Ns (pos m)) j l = c_spos p0 j l + v3 (strain_summed g (shear_rate osc) m * (c_spos p0 0%nat 2%nat - still_height osc)) 0 0 l).
  { intros m j l Hm Hj Hl. destruct (PM m Hm) as [C _]. specialize (C j l ltac:(lia) Hl). cbv zeta in C. unfold centre_of in C. unfold snap, append_rows. cbn [n_pos].
    destruct (Nat.ltb_spec j Ns); [|lia]. rewrite C, (HZ j Hj). idx3 Hl; cbn [v3]; rewrite ?(HZ j Hj); ring. }
  assert (IN : forall x, In x s -> exists m, (m <= g_num_frames g)%nat /\ x = snap Ns (pos m)).
  { intros x Hx. rewrite PS in Hx. apply in_app_or in Hx. destruct Hx as [Hx|Hx].
    - apply in_map_iff in Hx. destruct Hx as (m & <- & Hm). unfold due_frames in Hm. apply filter_In in Hm. destruct Hm as [Hm _]. apply in_seq in Hm. exists m. split; [lia|reflexivity].
    - destruct (save_due _ _ _); [|destruct Hx]. destruct Hx as [<-|[]]. exists (g_num_frames g). split; [lia|reflexivity]. }
  assert (BY : forall x, In x s -> beyond Ns 0 (radii_of Ns 0 p0) cf x).
  { intros x Hx i j Hij. destruct (IN x Hx) as (m & Hm & ->). specialize (HF i j ltac:(lia)). unfold radii_of, saved_bead.
    destruct (Nat.ltb_spec i Ns); [|lia]. destruct (Nat.ltb_spec j Ns); [|lia].
    replace (norm _) with (norm (vsub (c_spos p0 i) (c_spos p0 j))); [exact HF|]. unfold norm, vsub. rewrite !PL by lia. cbn [v3]. f_equal. ring. }
  split; [|split; [|split]].
  - intros mo. destruct mo; [exact E|].
    refine (C102_same inv inv3 solve sc table h stale Ns 0 fte false bb true cf g input p0 s fs _ HS U7 U2 _ H1 _ E BY).
    + destruct SC as [C|[C|[C _]]]; [left; exact C|contradiction|right; exact C].
    + intros b Hb'. unfold radii_of. destruct (Nat.ltb_spec b Ns); [apply HR; assumption|lia].
    + intros p t i f EI. destruct (shear_all osc Ns 0 p t (g_dt g)) as (Ot & Et & X). cbv zeta in X. unfold input in EI. rewrite EI in X. apply ok_pair in X. destruct X as [_ ->]. intros l Hl. reflexivity.
  - rewrite PS. assert (SD : save_due (g_save_pos g) 0 (g_num_frames g - 1) = true) by (unfold save_due; rewrite HS, Nat.mod_1_r; reflexivity).
    rewrite SD. intros X. apply app_eq_nil in X. destruct X as [_ X]. discriminate X.
  - intros x Hx. destruct (IN x Hx) as (m & Hm & ->). eexists. intros j l Hj Hl. apply PL; assumption.
  - intros x. assert (SD : save_due (g_save_pos g) 0 (g_num_frames g - 1) = true) by (unfold save_due; rewrite HS, Nat.mod_1_r; reflexivity).
    rewrite PS, SD, last_last. intros j l Hj Hl. apply PL; (assumption || lia).
Qed.
Print Assumptions C102_layer.

(** Two spheres of radii 1 and 3, 20 apart: the near field is on, though the table
    has no scalars for this pair. *)
Definition layer : config :=
  mkConfig (fun j => if Nat.eqb j 0 then 1 else 3) (fun j => if Nat.eqb j 0 then v3 0 0 4 else v3 20 0 4) (fun _ _ => v3 0 0 0) (fun _ => 1) (fun _ => v3 0 0 0) (fun _ => v3 0 0 0).
Example C102_example sc :
  exists s fs, full_simulation pinv Proof_Step.inv3 psolve sc [1] 0 (fun _ _ => 0) 2 0 fte false true false 2 (drag_settings euler)
      (fun p t => input_ftsuoe 7 fte 2 0 p t 1) layer = Ok (Some (s, fs)) /\
    n_pos (last s (snap 2 layer)) 0%nat 0%nat = 32 /\ n_pos (last s (snap 2 layer)) 1%nat 0%nat = 52.
Proof.
  assert (SH : solves_shape psolve) by (intros n A b _; unfold psolve; rewrite map_length, seq_length; reflexivity).
  assert (UE : usable (drag_settings euler) 0) by (repeat split; try (left; reflexivity); cbn; lia).
  destruct (C102_layer pinv Proof_Step.inv3 psolve sc [1] 0 (fun _ _ => 0) 2 true 2 (drag_settings euler) false layer pinv_ok psolve_ok SH
      ltac:(lia) ltac:(left; reflexivity) UE ltac:(discriminate) eq_refl eq_refl ltac:(intros l Hl; reflexivity) eq_refl) as (s & fs & E & _ & _ & L).
  - intros j Hj. destruct j as [|j]; cbn; lra.
  - intros j Hj. destruct j as [|[|j]]; [reflexivity|reflexivity|lia].
  - intros i j Hij. assert (i = 0%nat) as -> by lia. assert (j = 1%nat) as -> by lia. unfold norm, vsub. cbn.
    replace (_ + _ + _) with (20 ^ 2) by ring. rewrite sqrt_pow2; lra.
  - exists s, fs. split; [exact (E false)|].
    assert (S8 : strain_summed (drag_settings euler) (shear_rate false) 8 = 8) by (unfold strain_summed; cbn; ring).
    split; [rewrite (L (snap 2 layer) 0%nat 0%nat ltac:(lia) ltac:(lia))|rewrite (L (snap 2 layer) 1%nat 0%nat ltac:(lia) ltac:(lia))];
      change (g_num_frames (drag_settings euler)) with 8%nat; rewrite S8; cbn; lra.
Qed.
