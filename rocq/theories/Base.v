(** Base vocabulary shared by all the models: Python results with exceptions as
    values, strings, Python's stable sort, [bisect_left].  No proofs here. *)
From Coq Require Export String Ascii.
From Coq Require Export List Arith ZArith NArith Bool Lia Permutation Sorted.
From Coq Require Import DecimalString.
Export ListNotations.
Open Scope list_scope.

(** Python exceptions that the modelled code can raise
    (/repo/src/subgroups/exceptions.py:9-35 and the builtin ones). *)
Inductive exn :=
| TypeError | ValueError | KeyError | IndexError | AttributeError | ZeroDivisionError
| ParameterNotFoundError | SubgroupParameterNotFoundError
| InconsistentMethodParametersError | DatasetAttributeTypeError
| DuplicateFpTreeNodeError | VerticalListSizeError
| RuntimeError
| IndexingError         (* pandas.errors.IndexingError *)
| Unmodelled            (* the input is outside the modelled fragment of Python *)
| OutOfFuel.            (* recursion fuel of the model exhausted: excluded by theorems *)

(** The result of a Python call: a value or a raised exception. *)
Inductive res (A : Type) := Ok (a : A) | Err (e : exn).
Arguments Ok {A} a.
Arguments Err {A} e.

Definition bind {A B} (m : res A) (f : A -> res B) : res B :=
  match m with Ok a => f a | Err e => Err e end.
Notation "'do' x <- m ; f" := (bind m (fun x => f)) (at level 200, x pattern, m at level 100, f at level 200).

(** Left-to-right evaluation of a Python loop/comprehension that can raise. *)
Fixpoint map_res {A B} (f : A -> res B) (l : list A) : res (list B) :=
  match l with
  | [] => Ok []
  | x :: xs => do y <- f x; do ys <- map_res f xs; Ok (y :: ys)
  end.
Fixpoint fold_res {A S} (f : S -> A -> res S) (l : list A) (s : S) : res S :=
  match l with
  | [] => Ok s
  | x :: xs => do s' <- f s x; fold_res f xs s'
  end.

(** Python's [list.sort()] / [sorted()] : a stable sort that only uses [<].
    Modelled as insertion sort (timsort and insertion sort agree whenever [<] is a
    strict weak order, the only case in which Python specifies the result). *)
Fixpoint insert_by {A} (ltb : A -> A -> bool) (x : A) (l : list A) : list A :=
  match l with
  | [] => [x]
  | y :: ys => if ltb y x then y :: insert_by ltb x ys else x :: y :: ys
  end.
Fixpoint sort_by {A} (ltb : A -> A -> bool) (l : list A) : list A :=
  match l with
  | [] => []
  | x :: xs => insert_by ltb x (sort_by ltb xs)
  end.

(** Python's [bisect.bisect_left(a, x)]: [while lo < hi: mid = (lo+hi)//2;
    if a[mid] < x: lo = mid+1 else: hi = mid].  Fuel = number of halvings; [length a]
    is always enough. *)
Fixpoint bisect_loop {A} (ltb : A -> A -> bool) (a : list A) (x : A) (fuel lo hi : nat) : nat :=
  match fuel with
  | O => lo
  | S fuel' =>
      if lo <? hi then
        let mid := (lo + hi) / 2 in
        match nth_error a mid with
        | None => lo
        | Some y => if ltb y x then bisect_loop ltb a x fuel' (S mid) hi
                    else bisect_loop ltb a x fuel' lo mid
        end
      else lo
  end.
Definition bisect_left {A} (ltb : A -> A -> bool) (a : list A) (x : A) : nat :=
  bisect_loop ltb a x (S (length a)) 0 (length a).

(** [list.insert(i, x)] and [list.pop(i)] for 0 <= i. *)
Definition list_insert {A} (i : nat) (x : A) (l : list A) : list A := firstn i l ++ x :: skipn i l.
Definition list_pop {A} (i : nat) (l : list A) : list A := firstn i l ++ skipn (S i) l.

(** * Strings *)
Open Scope string_scope.

(** One-character separator: [s.split(c, 1)] as an option (None: no occurrence). *)
Fixpoint split1 (c : ascii) (s : string) : option (string * string) :=
  match s with
  | EmptyString => None
  | String d s' =>
      if Ascii.eqb c d then Some (EmptyString, s')
      else match split1 c s' with
           | Some (l, r) => Some (String d l, r)
           | None => None
           end
  end.

(** [s.split(sep)] for a non-empty separator: leftmost, non-overlapping.
    [skip] counts the characters of a matched separator still to be consumed. *)
Fixpoint split_aux (sep : string) (skip : nat) (cur s : string) : list string :=
  match s with
  | EmptyString => [cur]
  | String c s' =>
      match skip with
      | S k => split_aux sep k cur s'
      | O => if String.prefix sep s then cur :: split_aux sep (String.length sep - 1) "" s'
             else split_aux sep 0 (cur ++ String c EmptyString) s'
      end
  end.
Definition py_split (sep s : string) : list string := split_aux sep 0 "" s.

(** [sep in s] *)
Fixpoint contains (sep s : string) : bool :=
  String.prefix sep s ||
  match s with EmptyString => false | String _ s' => contains sep s' end.

(** [s[k:]] and [s[1:-1]] *)
Fixpoint drop_str (k : nat) (s : string) : string :=
  match k, s with
  | O, _ => s
  | S k', String _ s' => drop_str k' s'
  | S _, EmptyString => EmptyString
  end.
Definition strip_ends (s : string) : string := String.substring 1 (String.length s - 2) s.
Definition first_char (s : string) : option ascii :=
  match s with EmptyString => None | String c _ => Some c end.
Fixpoint last_char (s : string) : option ascii :=
  match s with
  | EmptyString => None
  | String c s' => match s' with EmptyString => Some c | _ => last_char s' end
  end.
Fixpoint has_char (c : ascii) (s : string) : bool :=
  match s with EmptyString => false | String d s' => Ascii.eqb c d || has_char c s' end.

(** * Numbers to text and back *)
Definition is_ws (c : ascii) : bool :=
  let n := N_of_ascii c in (N.eqb n 32 || (N.leb 9 n && N.leb n 13))%N.
Definition is_digit (c : ascii) : bool :=
  let n := N_of_ascii c in (N.leb 48 n && N.leb n 57)%N.
Fixpoint lstrip (s : string) : string :=
  match s with
  | EmptyString => EmptyString
  | String c s' => if is_ws c then lstrip s' else s
  end.
Fixpoint rstrip (s : string) : string :=
  match s with
  | EmptyString => EmptyString
  | String c s' =>
      match rstrip s' with
      | EmptyString => if is_ws c then EmptyString else String c EmptyString
      | t => String c t
      end
  end.
Definition py_strip (s : string) : string := rstrip (lstrip s).

(** [str(z)] for an int. *)
Definition str_of_Z (z : Z) : string := NilZero.string_of_int (Z.to_int z).
(** decimal digits of a natural number *)
Definition str_of_N (n : N) : string := NilZero.string_of_uint (N.to_uint n).

Definition digits_value (s : string) : option N :=
  match s with
  | EmptyString => None
  | _ => match NilEmpty.uint_of_string s with
         | Some u => Some (N.of_uint u)
         | None => None
         end
  end.
(** Underscores are allowed between digits by [int()]. *)
Fixpoint strip_underscores (prev_digit : bool) (s : string) : option string :=
  match s with
  | EmptyString => if prev_digit then Some EmptyString else None
  | String c s' =>
      if is_digit c then option_map (String c) (strip_underscores true s')
      else if Ascii.eqb c "_" then (if prev_digit then strip_underscores false s' else None)
      else None
  end.
Definition split_sign (s : string) : bool * string :=   (* (negative?, rest) *)
  match s with
  | String c s' => if Ascii.eqb c "-" then (true, s')
                   else if Ascii.eqb c "+" then (false, s') else (false, s)
  | EmptyString => (false, s)
  end.
Definition apply_sign (neg : bool) (n : N) : Z := if neg then (- Z.of_N n)%Z else Z.of_N n.
(** Python's [int(text)]; [None] is a ValueError. *)
Definition py_int (s : string) : option Z :=
  let '(neg, t) := split_sign (py_strip s) in
  match strip_underscores false t with
  | Some ds => option_map (apply_sign neg) (digits_value ds)
  | None => None
  end.

(** Decimal floats [m / 10^e].  Canonical: [1 <= e] and no superfluous trailing zero. *)
Fixpoint canon_float (m : Z) (e : nat) : Z * nat :=
  match e with
  | O => ((m * 10)%Z, 1)
  | S O => (m, 1)
  | S e' => if (m mod 10 =? 0)%Z then canon_float (m / 10)%Z e' else (m, e)
  end.
Fixpoint zeros (k : nat) : string :=
  match k with O => EmptyString | S k' => String "0" (zeros k') end.
Fixpoint take_str (k : nat) (s : string) : string :=
  match k, s with
  | S k', String c s' => String c (take_str k' s')
  | _, _ => EmptyString
  end.
(** [str(x)] (= [repr]) for a float whose repr has no exponent. *)
Definition str_of_float (m : Z) (e : nat) : string :=
  let ds := str_of_N (Z.abs_N m) in
  let ds := zeros (S e - String.length ds) ++ ds in
  let k := String.length ds - e in
  (if (m <? 0)%Z then "-" else "") ++ take_str k ds ++ "." ++ drop_str k ds.
(** Does [t] look like [sign? digits]? *)
Definition is_exponent (t : string) : bool :=
  let '(_, u) := split_sign t in match digits_value u with Some _ => true | None => false end.
Definition parse_mantissa (t : string) : option (N * nat) :=
  match split1 "." t with
  | Some (ip, fp) => option_map (fun n => (n, String.length fp)) (digits_value (ip ++ fp))
  | None => option_map (fun n => (n, 0)) (digits_value t)
  end.
(** Python's [float(text)], used only when the text contains a dot.
    Exponent notation and underscores are outside the model ([Unmodelled]);
    [-0.0] is identified with [0.0]; decimals are exact (no rounding to binary64). *)
Definition py_float (s : string) : res (Z * nat) :=
  let '(neg, t) := split_sign (py_strip s) in
  match parse_mantissa t with
  | Some (n, e) => Ok (canon_float (apply_sign neg n) e)
  | None =>
      match split1 "e" t, split1 "E" t with
      | Some (l, r), _ | None, Some (l, r) =>
          match parse_mantissa l, is_exponent r with
          | Some _, true => Err Unmodelled
          | _, _ => if has_char "_" t then Err Unmodelled else Err ValueError
          end
      | None, None => if has_char "_" t then Err Unmodelled else Err ValueError
      end
  end.
