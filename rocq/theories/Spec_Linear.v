(** Superposition: combinations of inputs and answers, and the power of the
    forces of one answer along the motion of another. *)
From Coq Require Import Reals List Arith Bool.
From Verif Require Import Base Py Model_Output Model_Frame Model_Inputs Spec_Pack Spec_Run Spec_Turn.
Import ListNotations.
Local Open Scope R_scope.

Section Combine.
(** Everything of the third is [al] times the first plus [be] times the second. *)
Variables al be : R.
Definition vec_comb (u v w : vec) : Prop := forall l, (l < 3)%nat -> w l = al * u l + be * v l.
Definition mat_comb (A B C : mat) : Prop := forall a b, (a < 3)%nat -> (b < 3)%nat -> C a b = al * A a b + be * B a b.

(** Three lists of inputs; the placeholders are in the same places. *)
Definition lists_comb {A} (rel : A -> A -> A -> Prop) (l1 l2 l : list (option A)) : Prop :=
  forall j, match nth_error l1 j, nth_error l2 j, nth_error l j with
            | Some (Some x), Some (Some y), Some (Some z) => rel x y z
            | Some None, Some None, Some None => True
            | None, None, None => True
            | _, _, _ => False
            end.
Definition rows_comb := lists_comb (fun x y z => vec_comb (row_vec x) (row_vec y) (row_vec z)).
Definition tensors_comb := lists_comb (fun x y z => mat_comb (tensor_mat x) (tensor_mat y) (tensor_mat z)).
Definition inputs_comb (i1 i2 i : inputs) : Prop :=
  rows_comb (i_Fa i1) (i_Fa i2) (i_Fa i) /\ rows_comb (i_Ta i1) (i_Ta i2) (i_Ta i) /\ tensors_comb (i_Sa i1) (i_Sa i2) (i_Sa i) /\
  rows_comb (i_Fb i1) (i_Fb i2) (i_Fb i) /\ rows_comb (i_DFb i1) (i_DFb i2) (i_DFb i) /\
  rows_comb (i_Ua i1) (i_Ua i2) (i_Ua i) /\ tensors_comb (i_Ea i1) (i_Ea i2) (i_Ea i) /\
  rows_comb (i_Ub i1) (i_Ub i2) (i_Ub i) /\ rows_comb (i_HalfDUb i1) (i_HalfDUb i2) (i_HalfDUb i).

Variables Ns Nd : nat.
Definition outputs_comb (o1 o2 o : outputs) : Prop :=
  (forall j, (j < Ns)%nat ->
     vec_comb (rowof (Model_Output.o_Fa o1) j) (rowof (Model_Output.o_Fa o2) j) (rowof (Model_Output.o_Fa o) j) /\
     vec_comb (rowof (o_Ta o1) j) (rowof (o_Ta o2) j) (rowof (o_Ta o) j) /\
     mat_comb (matof (Model_Output.o_Sa o1) j) (matof (Model_Output.o_Sa o2) j) (matof (Model_Output.o_Sa o) j) /\
     vec_comb (rowof (Model_Output.o_Ua o1) j) (rowof (Model_Output.o_Ua o2) j) (rowof (Model_Output.o_Ua o) j) /\
     vec_comb (rowof (Model_Output.o_Oa o1) j) (rowof (Model_Output.o_Oa o2) j) (rowof (Model_Output.o_Oa o) j) /\
     mat_comb (matof (Model_Output.o_Ea o1) j) (matof (Model_Output.o_Ea o2) j) (matof (Model_Output.o_Ea o) j)) /\
  (forall d, (d < Nd)%nat ->
     vec_comb (rowof (Model_Output.o_Fb o1) d) (rowof (Model_Output.o_Fb o2) d) (rowof (Model_Output.o_Fb o) d) /\
     vec_comb (rowof (Model_Output.o_DFb o1) d) (rowof (Model_Output.o_DFb o2) d) (rowof (Model_Output.o_DFb o) d) /\
     vec_comb (rowof (Model_Output.o_Ub o1) d) (rowof (Model_Output.o_Ub o2) d) (rowof (Model_Output.o_Ub o) d) /\
     vec_comb (rowof (Model_Output.o_HalfDUb o1) d) (rowof (Model_Output.o_HalfDUb o2) d) (rowof (Model_Output.o_HalfDUb o) d)).

(** Background flows of one centre, and one viscosity; no periodic box. *)
Definition flow_comb (f1 f2 f : flow) : Prop :=
  vec_comb (f_U f1) (f_U f2) (f_U f) /\ vec_comb (f_O f1) (f_O f2) (f_O f) /\
  (forall l, (l < 3)%nat -> f_centre f1 l = f_centre f l /\ f_centre f2 l = f_centre f l) /\
  f_mu f1 = f_mu f /\ f_mu f2 = f_mu f /\ unbounded f1 /\ unbounded f2 /\ unbounded f.

(** What particles are displaced from [s] to [s1], [s2], [s'], and the forces. *)
Definition displaced_comb (s s1 s2 s' : snapshot) : Prop :=
  (forall j, (j < Ns + Nd)%nat -> vec_comb (vsub (n_pos s1 j) (n_pos s j)) (vsub (n_pos s2 j) (n_pos s j)) (vsub (n_pos s' j) (n_pos s j))) /\
  (forall d, (d < Nd)%nat -> vec_comb (vsub (n_dx s1 d) (n_dx s d)) (vsub (n_dx s2 d) (n_dx s d)) (vsub (n_dx s' d) (n_dx s d))).
Definition forces_comb (f1 f2 f : fsnapshot) : Prop :=
  (forall j, (j < Ns)%nat -> vec_comb (n_Fa f1 j) (n_Fa f2 j) (n_Fa f j) /\ mat_comb (n_Sa f1 j) (n_Sa f2 j) (n_Sa f j)) /\
  (forall d, (d < Nd)%nat -> vec_comb (n_Fb f1 d) (n_Fb f2 d) (n_Fb f d) /\ vec_comb (n_DFb f1 d) (n_DFb f2 d) (n_DFb f d)).
End Combine.

(** Power of the forces, torques and stresslets of [o] along the motion of [o']
    (for dumbbells F1 . u1 + F2 . u2, as in Spec_Work). *)
Definition contraction (A B : mat) : R := rsum 3 (fun k => rsum 3 (fun l => A k l * B k l)).
Definition power_of_on (Ns Nd : nat) (o o' : outputs) : R :=
  rsum Ns (fun j => dot3 (rowof (Model_Output.o_Fa o) j) (rowof (Model_Output.o_Ua o') j) +
                    dot3 (rowof (o_Ta o) j) (rowof (Model_Output.o_Oa o') j) +
                    contraction (matof (Model_Output.o_Sa o) j) (matof (Model_Output.o_Ea o') j)) +
  rsum Nd (fun d => dot3 (rowof (Model_Output.o_Fb o) d) (rowof (Model_Output.o_Ub o') d) +
                    dot3 (rowof (Model_Output.o_DFb o) d) (rowof (Model_Output.o_HalfDUb o') d)).

(** Inputs for the form fte: forces [F] on the spheres, nothing else, no strain. *)
Definition pushes (Ns Nd : nat) (F : nat -> vec) : inputs :=
  let zero3 := [0; 0; 0] in
  mkInputs (map (fun m => Some [F m 0%nat; F m 1%nat; F m 2%nat]) (seq 0 Ns)) (repeat (Some zero3) Ns) (repeat None Ns)
    (repeat (Some zero3) Nd) (repeat (Some zero3) Nd) (repeat None Ns) (repeat None Ns) (repeat (Some [zero3; zero3; zero3]) Ns) (repeat None Nd) (repeat None Nd).
Definition only_on (j : nat) (F : nat -> vec) : Prop := forall m l, m <> j -> (l < 3)%nat -> F m l = 0.

(** Inputs [i1], [i2], [i] and flows that the three input functions give at
    the start and that combine. *)
Definition combined_start (al be : R) (input1 input2 input : config -> R -> res (inputs * flow)) (p0 : config) : Prop :=
  exists i1 f1 i2 f2 i f, input1 p0 0 = Ok (i1, f1) /\ input2 p0 0 = Ok (i2, f2) /\ input p0 0 = Ok (i, f) /\
    inputs_comb al be i1 i2 i /\ flow_comb al be f1 f2 f /\
    (given_st (i_Sa i1) /\ given_st (i_Ea i1)) /\ (given_st (i_Sa i2) /\ given_st (i_Ea i2)) /\ (given_st (i_Sa i) /\ given_st (i_Ea i)).
