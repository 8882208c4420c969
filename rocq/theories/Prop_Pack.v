(** Properties C01-C04. *)
From Coq Require Import Reals List Arith Lra Lia.
From Verif Require Import Base Py Model_Pack Spec_Pack Proof_Pack.
Import ListNotations.
Local Open Scope R_scope.

(** C01: uncondense undoes condense on every list of symmetric traceless
    tensors, and condense_and_flatten is the concatenation of condense. *)
Theorem C01_uncondense_condense :
  forall (n : nat) (s : list (list (list R))),
    shaped_st n s ->
    exists c, condense s n = Ok c /\ uncondense c n = Ok s /\
              condense_and_flatten s n = Ok (concat c).
Proof. exact condense_uncondense_roundtrip. Qed.
Print Assumptions C01_uncondense_condense.

Example C01_example :
  shaped_st 2 [ [[1;2;3];[2;4;5];[3;5;-(4)-1]] ; [[0;1;0];[1;0;0];[0;0;0]] ].
Proof.
  split; [reflexivity|]. intros t [<-|[<-|[]]].
  - apply form_sym_traceless.
  - split; [split; [reflexivity|]|split].
    + intros r [<-|[<-|[<-|[]]]]; reflexivity.
    + intros i j Hi Hj; idx3 Hi; idx3 Hj; reflexivity.
    + unfold ent; simpl; lra.
Qed.

(** C02: uncondense always gives symmetric traceless tensors and condense
    undoes it, for every (n,5) array. *)
Theorem C02_condense_uncondense :
  forall (n : nat) (c : list (list R)),
    shaped n 5 c ->
    exists s, uncondense c n = Ok s /\ shaped_st n s /\ condense s n = Ok c.
Proof. exact uncondense_condense_roundtrip. Qed.
Print Assumptions C02_condense_uncondense.

Example C02_example : shaped 1 5 [[1;2;3;4;5]].
Proof. split; [reflexivity|]. intros r [<-|[]]; reflexivity. Qed.

(** C03: the dot product of the packed force and velocity vectors is the power
    F.U + T.O + S:E + Fb.Ub + DFb.HalfDUb. *)
Theorem C03_packed_dot_is_power :
  forall Ns Nd f t s fb dfb u o e ub hdu,
    shaped Ns 3 f -> shaped Ns 3 t -> shaped_st Ns s -> shaped Nd 3 fb -> shaped Nd 3 dfb ->
    shaped Ns 3 u -> shaped Ns 3 o -> shaped_st Ns e -> shaped Nd 3 ub -> shaped Nd 3 hdu ->
    exists v w,
      construct_force_vector_from_fts Ns Nd f t s fb dfb = Ok v /\
      construct_force_vector_from_fts Ns Nd u o e ub hdu = Ok w /\
      ldot v w = rowdot f u + rowdot t o + sumddot s e + rowdot fb ub + rowdot dfb hdu.
Proof. exact construct_power. Qed.
Print Assumptions C03_packed_dot_is_power.

(** C04: unpacking a packed vector returns exactly what was packed, and the
    length is 11 Ns + 6 Nd, including Ns = 0 or Nd = 0. *)
Theorem C04_pack_unpack :
  forall Ns Nd f t s fb dfb,
    shaped Ns 3 f -> shaped Ns 3 t -> shaped_st Ns s -> shaped Nd 3 fb -> shaped Nd 3 dfb ->
    exists v, construct_force_vector_from_fts Ns Nd f t s fb dfb = Ok v
              /\ length v = (11 * Ns + 6 * Nd)%nat
              /\ deconstruct_velocity_vector_for_fts Ns Nd v = Ok (f, t, s, fb, dfb).
Proof. exact pack_unpack. Qed.
Print Assumptions C04_pack_unpack.

(** C04, error branch: a vector that is too short is rejected. *)
Theorem C04_short_vector_rejected :
  forall Ns Nd v, (length v < 11 * Ns + 6 * Nd)%nat ->
    exists e, deconstruct_velocity_vector_for_fts Ns Nd v = Raise e.
Proof. exact deconstruct_wrong_length. Qed.
Print Assumptions C04_short_vector_rejected.

Example C03_C04_example :
  shaped 1 3 [[1;2;3]] /\ shaped 2 3 [[1;0;0];[0;1;1]] /\
  shaped_st 1 [ [[1;2;3];[2;4;5];[3;5;-(4)-1]] ].
Proof.
  split; [|split].
  - split; [reflexivity|]. intros r [<-|[]]; reflexivity.
  - split; [reflexivity|]. intros r [<-|[<-|[]]]; reflexivity.
  - split; [reflexivity|]. intros r [<-|[]]. apply form_sym_traceless.
Qed.
