(** Model of the names of checkpoint files.
    Sources: run_simulation.py 655, 776-792 (the name of the output files),
    setups/positions.py 193-243 (the search for a file to continue).
    Texts are lists of characters.  A timestep is given by its shortest decimal
    digits; floating-point numbers are the reals they denote.  [int] and [float]
    accept further spellings (blanks, underscores, a leading '+', 'inf'), which
    are treated as errors here; the names written by the program have none.  Not
    modelled: the separator '\' of Windows in what [glob] returns, and the content
    of the files except for the number of frames. *)
From Coq Require Import Reals List Arith Bool Ascii String ZArith DecimalString DecimalZ.
From Verif Require Import Py.
Import ListNotations.
Local Open Scope list_scope.

Definition text := list ascii.
Definition lit (s : string) : text := list_ascii_of_string s.
Local Open Scope char_scope.

(** ** python's string functions *)
(** [s.split(c)] *)
Fixpoint split (c : ascii) (s : text) : list text :=
  match s with
  | [] => [[]]
  | a :: r => if Ascii.eqb a c then [] :: split c r
              else match split c r with [] => [[a]] | w :: ws => (a :: w) :: ws end
  end.

(** [s.replace(c, d)] for characters *)
Definition replace_char (c d : ascii) (s : text) : text := map (fun a => if Ascii.eqb a c then d else a) s.

Fixpoint prefixb (p s : text) : bool :=
  match p, s with
  | [], _ => true
  | a :: p', b :: s' => Ascii.eqb a b && prefixb p' s'
  | _, _ => false
  end.
(** [s.replace(p, "")]; [skip] characters remain of an occurrence *)
Fixpoint remove_from (p : text) (skip : nat) (s : text) : text :=
  match s with
  | [] => []
  | a :: r => match skip with
              | S k => remove_from p k r
              | O => if prefixb p s then remove_from p (List.length p - 1) r else a :: remove_from p 0 r
              end
  end.
Definition remove_all (p s : text) : text := remove_from p 0 s.

(** [str] and [int] of integers *)
Definition str_int (z : Z) : text := lit (NilZero.string_of_int (Z.to_int z)).
Definition py_int (s : text) : res Z :=
  match NilZero.int_of_string (string_of_list_ascii s) with
  | Some d => Ok (Z.of_int d)
  | None => Raise ValueError
  end.

(** ** Timesteps *)
(** An integer, or the float 0.d1d2...dn * 10^decpt *)
Inductive tstep := TInt (n : Z) | TFloat (digits : list nat) (decpt : Z).

Definition digit (d : nat) : ascii := ascii_of_nat (48 + d).
Definition zeros (z : Z) : text := repeat "0"%char (Z.to_nat z).
(** [str(x)] of a float: python's repr, positional for exponents from -4 to 16 *)
Definition repr_float (ds : list nat) (decpt : Z) : text :=
  let D := map digit ds in
  let n := Z.of_nat (List.length ds) in
  if ((-4 <? decpt) && (decpt <=? 16))%Z then
    if (decpt <=? 0)%Z then ["0"; "."] ++ zeros (- decpt) ++ D
    else if (decpt <? n)%Z then firstn (Z.to_nat decpt) D ++ "." :: skipn (Z.to_nat decpt) D
    else D ++ zeros (decpt - n) ++ [".";"0"]
  else
    let e := (decpt - 1)%Z in
    let E := str_int (Z.abs e) in
    firstn 1 D ++ (match skipn 1 D with [] => [] | f => "." :: f end)
    ++ "e" :: (if (e <? 0)%Z then "-" else "+") :: (if (List.length E <? 2)%nat then "0" :: E else E).
Definition str_timestep (t : tstep) : text :=
  match t with TInt n => str_int n | TFloat ds p => repr_float ds p end.

(** [float] of an unsigned decimal text: the longest run of digits, an optional
    fraction, an optional exponent; at least one digit before the exponent *)
Definition is_digit (a : ascii) : bool := (48 <=? nat_of_ascii a)%nat && (nat_of_ascii a <=? 57)%nat.
Fixpoint span_digits (s : text) : list nat * text :=
  match s with
  | [] => ([], [])
  | a :: r => if is_digit a then let (ds, t) := span_digits r in ((nat_of_ascii a - 48)%nat :: ds, t) else ([], s)
  end.
Definition num (ds : list nat) : Z := fold_left (fun m d => m * 10 + Z.of_nat d)%Z ds 0%Z.
Definition py_exponent (s : text) : option Z :=
  match s with
  | [] => Some 0%Z
  | e :: r =>
    if Ascii.eqb e "e" || Ascii.eqb e "E" then
      let '(sg, r') := match r with
                       | c :: r1 => if Ascii.eqb c "-" then ((-1)%Z, r1) else if Ascii.eqb c "+" then (1%Z, r1) else (1%Z, r)
                       | [] => (1%Z, r)
                       end in
      match span_digits r' with
      | ([], _) => None
      | (ds, []) => Some (sg * num ds)%Z
      | _ => None
      end
    else None
  end.
Definition py_float (s : text) : res R :=
  let (ip, r) := span_digits s in
  let (fp, r) := match r with c :: r1 => if Ascii.eqb c "." then span_digits r1 else ([], r) | [] => ([], r) end in
  match ip ++ fp, py_exponent r with
  | [], _ => Raise ValueError
  | _, None => Raise ValueError
  | ds, Some e => Ok (IZR (num ds) * powerRZ 10 (e - Z.of_nat (List.length fp)))%R
  end.

(** ** The name of the output files *)
Record params := mkParams { setup_number : Z; input_number : Z; num_frames : Z; timestep : tstep }.

(** 777-779: a description gets a dash in front *)
Definition dashed (d : text) : text := match d with [] => [] | _ => "-" :: d end.

(** 781-790.  [timestamp] is [time.strftime("%y%m%d%H%M")]. *)
Definition file_name (timestamp : text) (P : params) (invert_m_every : Z) (setup_description input_description desc : text) : text :=
  timestamp ++ lit "-s" ++ str_int (setup_number P) ++ lit "-i" ++ str_int (input_number P)
  ++ lit "-" ++ str_int (num_frames P) ++ lit "fr"
  ++ lit "-t" ++ replace_char "." "p" (str_timestep (timestep P))
  ++ lit "-M" ++ str_int invert_m_every
  ++ dashed setup_description ++ dashed input_description ++ dashed desc.

(** 655, with [output_folder] and [legion_random_id] of 78-79; numpy appends the
    extension *)
Definition temp_path (name : text) : text := lit "output/" ++ name ++ lit "_TEMP.npz".

(** 792: the name used by a continued run *)
Definition continued_name (path : text) : text :=
  remove_all (lit "_TEMP.npz") (remove_all (lit "output/") (remove_all (lit "output\") path)).

(** ** The search, setups/positions.py *)
Definition item (l : list text) (k : nat) : res text :=
  match nth_error l k with Some w => Ok w | None => Raise IndexError end.
Definition last_char (w : text) : res ascii :=
  match rev w with a :: _ => Ok a | [] => Raise IndexError end.

(** 201-208 *)
Definition parse_name (path : text) : res (Z * Z * Z * R) :=
  let l := split "-" path in
  do w1 <- item l 1 ;; do s <- py_int (skipn 1 w1) ;;
  do w2 <- item l 2 ;; do i <- py_int (skipn 1 w2) ;;
  do w3 <- item l 3 ;; do f <- py_int (firstn (List.length w3 - 2) w3) ;;
  do w4 <- item l 4 ;; do c <- last_char w4 ;;
  do raw <- (if Ascii.eqb c "e" then do w5 <- item l 5 ;; Ok (skipn 1 w4 ++ "-" :: w5) else Ok (skipn 1 w4)) ;;
  do t <- py_float (replace_char "p" "." raw) ;;
  Ok (s, i, f, t).

(** The value of a timestep *)
Definition tvalue (t : tstep) : R :=
  match t with
  | TInt n => IZR n
  | TFloat ds p => (IZR (num ds) * powerRZ 10 (p - Z.of_nat (List.length ds)))%R
  end.

(** 209-212 *)
Definition matches (Q : params) (path : text) : res bool :=
  do x <- parse_name path ;;
  let '(s, i, f, t) := x in
  Ok ((s =? setup_number Q)%Z && (i =? input_number Q)%Z && (f =? num_frames Q)%Z
      && if Req_EM_T t (tvalue (timestep Q)) then true else false).

(** [sorted]: by the codes of the characters *)
Fixpoint text_leb (a b : text) : bool :=
  match a, b with
  | [], _ => true
  | _ :: _, [] => false
  | x :: a', y :: b' =>
    if (nat_of_ascii x <? nat_of_ascii y)%nat then true
    else if (nat_of_ascii x =? nat_of_ascii y)%nat then text_leb a' b' else false
  end.
Fixpoint insert (a : text) (l : list text) : list text :=
  match l with [] => [a] | b :: r => if text_leb a b then a :: l else b :: insert a r end.
Definition sorted (l : list text) : list text := fold_right insert [] l.

(** 193-243: [checkpoint_filename] and [checkpoint_start_from_frame].  [frames]
    gives the number of frames in a file, [None] for a corrupt one. *)
Definition search_step (Q : params) (frames : text -> option nat) (acc : res (text * nat)) (path : text) : res (text * nat) :=
  do st <- acc ;;
  do m <- matches Q path ;;
  Ok (if m then match frames path with Some k => (path, k) | None => st end else st).
Definition search (Q : params) (frames : text -> option nat) (listing : list text) : res (text * nat) :=
  fold_left (search_step Q frames) (rev (sorted listing)) (Ok ([], 0%nat)).
