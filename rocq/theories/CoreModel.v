(** Model of /repo/src/subgroups/core/ (operator.py, selector.py, pattern.py,
    subgroup.py) and utils/dataframe_filters.py. *)
From Verif Require Export Base.
Open Scope string_scope.
Open Scope list_scope.
Open Scope nat_scope.

(** * Values *)
(** Values of selectors and of dataframe cells: Python str, int and float.
    [VFloat m e] is the float m/10^e (see Base.v; NaN, inf and floats whose repr uses an
    exponent are not modelled; bool is excluded, as in selector.py:34). *)
Inductive value := VStr (s : string) | VInt (z : Z) | VFloat (m : Z) (e : nat).

Definition is_str (v : value) : bool := match v with VStr _ => true | _ => false end.
Definition p10 (e : nat) : Z := (10 ^ Z.of_nat e)%Z.
(** A number as mantissa and scale. *)
Definition num_of (v : value) : option (Z * nat) :=
  match v with VStr _ => None | VInt z => Some (z, 0) | VFloat m e => Some (m, e) end.

(** Python's [v == w] on str/int/float. *)
Definition py_eq (v w : value) : bool :=
  match v, w with
  | VStr a, VStr b => String.eqb a b
  | VStr _, _ | _, VStr _ => false
  | _, _ => match num_of v, num_of w with
            | Some (m, e), Some (m', e') => (m * p10 e' =? m' * p10 e)%Z
            | _, _ => false
            end
  end.
(** Python's [v < w]; TypeError between str and a number. *)
Definition py_lt (v w : value) : res bool :=
  match v, w with
  | VStr a, VStr b => Ok (String.ltb a b)
  | VStr _, _ | _, VStr _ => Err TypeError
  | _, _ => match num_of v, num_of w with
            | Some (m, e), Some (m', e') => Ok (m * p10 e' <? m' * p10 e)%Z
            | _, _ => Err TypeError
            end
  end.
(** Python's [v <= w]. *)
Definition py_le (v w : value) : res bool :=
  match v, w with
  | VStr a, VStr b => Ok (String.leb a b)
  | VStr _, _ | _, VStr _ => Err TypeError
  | _, _ => match num_of v, num_of w with
            | Some (m, e), Some (m', e') => Ok (m * p10 e' <=? m' * p10 e)%Z
            | _, _ => Err TypeError
            end
  end.
(** Python's [str(v)]. *)
Definition py_str (v : value) : string :=
  match v with VStr s => s | VInt z => str_of_Z z | VFloat m e => str_of_float m e end.

(** * core/operator.py *)
(** operator.py:16-25, enum Operator. *)
Inductive operator := EQUAL | NOT_EQUAL | LESS | GREATER | LESS_OR_EQUAL | GREATER_OR_EQUAL.
(** operator.py:20-25, the enum's [.value]. *)
Definition op_value (o : operator) : nat :=
  match o with EQUAL => 1 | NOT_EQUAL => 2 | LESS => 3 | GREATER => 4
             | LESS_OR_EQUAL => 5 | GREATER_OR_EQUAL => 6 end.
(** operator.py:77-105, comparison methods (on [.value]). *)
Definition op_eq (a b : operator) : bool := op_value a =? op_value b.
Definition op_ne (a b : operator) : bool := negb (op_value a =? op_value b).
Definition op_lt (a b : operator) : bool := op_value a <? op_value b.
Definition op_gt (a b : operator) : bool := op_value b <? op_value a.
Definition op_le (a b : operator) : bool := op_value a <=? op_value b.
Definition op_ge (a b : operator) : bool := op_value b <=? op_value a.
(** operator.py:27-51, [evaluate] on two scalars. *)
Definition op_evaluate (o : operator) (l r : value) : res bool :=
  match o with
  | EQUAL => Ok (py_eq l r)
  | NOT_EQUAL => Ok (negb (py_eq l r))
  | LESS => py_lt l r
  | GREATER => py_lt r l
  | LESS_OR_EQUAL => py_le l r
  | GREATER_OR_EQUAL => py_le r l
  end.
(** operator.py:27-51, [evaluate] of a pandas Series against a scalar: elementwise, a
    TypeError of any element is raised.  (pandas decides by dtype; on an empty Series the
    model returns the empty Series.) *)
Definition op_evaluate_series (o : operator) (col : list value) (r : value) : res (list bool) :=
  map_res (fun x => op_evaluate o x r) col.
(** operator.py:107-121, [__str__]. *)
Definition op_str (o : operator) : string :=
  match o with EQUAL => "=" | NOT_EQUAL => "!=" | LESS => "<" | GREATER => ">"
             | LESS_OR_EQUAL => "<=" | GREATER_OR_EQUAL => ">=" end.
(** operator.py:54-75, [generate_from_str]. *)
Definition op_parse (s : string) : res operator :=
  if String.eqb s "=" then Ok EQUAL
  else if String.eqb s "!=" then Ok NOT_EQUAL
  else if String.eqb s "<" then Ok LESS
  else if String.eqb s ">" then Ok GREATER
  else if String.eqb s "<=" then Ok LESS_OR_EQUAL
  else if String.eqb s ">=" then Ok GREATER_OR_EQUAL
  else Err AttributeError.

(** * core/selector.py *)
(** selector.py:24, the three slots. *)
Record selector := Sel { s_attr : string; s_op : operator; s_val : value }.

(** selector.py:29-37, the constructor's checks (type checks are Gallina typing). *)
Definition mk_selector (a : string) (o : operator) (v : value) : res selector :=
  if is_str v && op_ne o EQUAL && op_ne o NOT_EQUAL then Err ValueError
  else Ok (Sel a o v).

(** selector.py:183-188, [__str__]; the same text is the pool key, selector.py:42-45. *)
Definition quoted (v : value) : string :=
  match v with VStr s => ("'" ++ s ++ "'")%string | _ => py_str v end.
Definition sel_str (s : selector) : string :=
  (s_attr s ++ " " ++ op_str (s_op s) ++ " " ++ quoted (s_val s))%string.
Definition pool_key (a : string) (o : operator) (v : value) : string :=
  (a ++ " " ++ op_str o ++ " " ++ quoted v)%string.

(** selector.py:27, 42-54: the pool.  An object is an identity plus its slots.  The
    WeakValueDictionary is an association list key -> object; an object whose last
    reference disappears leaves the dictionary ([EvCollect]). *)
Record obj := Obj { o_id : nat; o_sel : selector }.
Record pool := Pool { p_next : nat; p_dict : list (string * obj) }.
Definition empty_pool : pool := Pool 0 [].
Fixpoint dict_get (k : string) (d : list (string * obj)) : option obj :=
  match d with
  | [] => None
  | (k', o) :: d' => if String.eqb k k' then Some o else dict_get k d'
  end.
(** selector.py:29-54, [Selector.__new__]. *)
Definition selector_new (p : pool) (a : string) (o : operator) (v : value) : pool * res obj :=
  match mk_selector a o v with
  | Err e => (p, Err e)
  | Ok s =>
      let key := pool_key a o v in
      match dict_get key (p_dict p) with
      | Some ob => (p, Ok ob)
      | None => let ob := Obj (p_next p) s in
                (Pool (S (p_next p)) ((key, ob) :: p_dict p), Ok ob)
      end
  end.
(** A garbage collection of the object [i] (weakref semantics of WeakValueDictionary). *)
Definition selector_collect (p : pool) (i : nat) : pool :=
  Pool (p_next p) (filter (fun kv => negb (o_id (snd kv) =? i)) (p_dict p)).

(** selector.py:69-81, [match] on a scalar. *)
Definition sel_match (s : selector) (a : string) (v : value) : res bool :=
  if String.eqb a (s_attr s) then op_evaluate (s_op s) v (s_val s) else Ok false.
(** selector.py:69-81, [match] on a Series: Python's [and] returns the plain [False] ([inl]) when the
    names differ and the Series of the comparison ([inr]) otherwise. *)
Definition sel_match_series (s : selector) (a : string) (col : list value) : res (bool + list bool) :=
  if String.eqb a (s_attr s) then do m <- op_evaluate_series (s_op s) col (s_val s); Ok (inr m) else Ok (inl false).

(** selector.py:106-109 [__eq__], 111-114 [__ne__]. *)
Definition sel_eq (s t : selector) : bool :=
  String.eqb (s_attr s) (s_attr t) && op_eq (s_op s) (s_op t) && py_eq (s_val s) (s_val t).
Definition sel_ne (s t : selector) : bool :=
  negb (String.eqb (s_attr s) (s_attr t)) || op_ne (s_op s) (s_op t) || negb (py_eq (s_val s) (s_val t)).
(** [try: return v < w / except TypeError: return str(v) < str(w)] *)
Definition try_or_str (r : res bool) (alt : bool) : bool :=
  match r with Ok b => b | Err _ => alt end.
(** selector.py:116-130 [__lt__]. *)
Definition sel_lt (s t : selector) : bool :=
  if negb (String.eqb (s_attr s) (s_attr t)) then String.ltb (s_attr s) (s_attr t)
  else if op_ne (s_op s) (s_op t) then op_lt (s_op s) (s_op t)
  else if negb (py_eq (s_val s) (s_val t)) then
    try_or_str (py_lt (s_val s) (s_val t)) (String.ltb (py_str (s_val s)) (py_str (s_val t)))
  else false.
(** selector.py:132-146 [__gt__]. *)
Definition sel_gt (s t : selector) : bool :=
  if negb (String.eqb (s_attr s) (s_attr t)) then String.ltb (s_attr t) (s_attr s)
  else if op_ne (s_op s) (s_op t) then op_gt (s_op s) (s_op t)
  else if negb (py_eq (s_val s) (s_val t)) then
    try_or_str (py_lt (s_val t) (s_val s)) (String.ltb (py_str (s_val t)) (py_str (s_val s)))
  else false.
(** selector.py:148-162 [__le__]. *)
Definition sel_le (s t : selector) : bool :=
  if negb (String.eqb (s_attr s) (s_attr t)) then String.leb (s_attr s) (s_attr t)
  else if op_ne (s_op s) (s_op t) then op_le (s_op s) (s_op t)
  else if negb (py_eq (s_val s) (s_val t)) then
    try_or_str (py_le (s_val s) (s_val t)) (String.leb (py_str (s_val s)) (py_str (s_val t)))
  else true.
(** selector.py:164-178 [__ge__]. *)
Definition sel_ge (s t : selector) : bool :=
  if negb (String.eqb (s_attr s) (s_attr t)) then String.leb (s_attr t) (s_attr s)
  else if op_ne (s_op s) (s_op t) then op_ge (s_op s) (s_op t)
  else if negb (py_eq (s_val s) (s_val t)) then
    try_or_str (py_le (s_val t) (s_val s)) (String.leb (py_str (s_val t)) (py_str (s_val s)))
  else true.

(** selector.py:84-104, [generate_from_str].  [split(" ", 2)] gives 1, 2 or 3 parts;
    indexing a missing part raises IndexError, after the operator was parsed. *)
Definition sel_parse (t : string) : res selector :=
  match split1 " " t with
  | None => Err IndexError                               (* input_str_split[1] *)
  | Some (a, rest) =>
      let '(optxt, third) :=
        match split1 " " rest with
        | None => (rest, None)
        | Some (o, v) => (o, Some v)
        end in
      do o <- op_parse optxt;
      match third with
      | None => Err IndexError                           (* input_str_split[2] *)
      | Some v =>
          match first_char v, last_char v with
          | Some c, Some d =>
              if (Ascii.eqb c "'" && Ascii.eqb d "'") || (Ascii.eqb c """" && Ascii.eqb d """")
              then mk_selector a o (VStr (strip_ends v))
              else if has_char "." v then
                match py_float v with
                | Ok (m, e) => mk_selector a o (VFloat m e)
                | Err ValueError => mk_selector a o (VStr v)
                | Err e => Err e
                end
              else match py_int v with
                   | Some z => mk_selector a o (VInt z)
                   | None => mk_selector a o (VStr v)
                   end
          | _, _ => Err IndexError                       (* input_str_split[2][0] *)
          end
      end
  end.

(** selector.py:190-191, [__hash__]: the hash of the text.  [h] is Python's (per-process
    randomised) string hash. *)
Definition sel_hash (h : string -> Z) (s : selector) : Z := h (sel_str s).

(** * core/pattern.py *)
(** pattern.py:22, a pattern is its list of selectors. *)
Definition pattern := list selector.

(** pattern.py:33-36: keep an element when it differs from the last one kept. *)
Fixpoint dedup_consecutive (last : option selector) (l : list selector) : list selector :=
  match l with
  | [] => []
  | e :: l' =>
      if match last with None => true | Some x => sel_ne x e end
      then e :: dedup_consecutive (Some e) l'
      else dedup_consecutive last l'
  end.
(** pattern.py:24-36, [__init__]. *)
Definition pattern_init (l : list selector) : pattern :=
  dedup_consecutive None (sort_by sel_lt l).
(** pattern.py:38-50, [add_selector]. *)
Definition add_selector (p : pattern) (s : selector) : pattern :=
  let i := bisect_left sel_lt p s in
  match nth_error p i with
  | None => p ++ [s]
  | Some x => if sel_ne x s then list_insert i s p else p
  end.
(** pattern.py:52-62, [remove_selector]. *)
Definition remove_selector (p : pattern) (s : selector) : pattern :=
  let i := bisect_left sel_lt p s in
  match nth_error p i with
  | None => p
  | Some x => if sel_eq x s then list_pop i p else p
  end.
(** Python list indices: -len <= i < len. *)
Definition py_index {A} (l : list A) (i : Z) : option nat :=
  if (0 <=? i)%Z then (if (i <? Z.of_nat (length l))%Z then Some (Z.to_nat i) else None)
  else if (0 <=? i + Z.of_nat (length l))%Z then Some (Z.to_nat (i + Z.of_nat (length l))) else None.
(** pattern.py:64-71, [remove_selector_by_index]. *)
Definition remove_by_index (p : pattern) (i : Z) : res pattern :=
  match py_index p i with Some k => Ok (list_pop k p) | None => Err IndexError end.
(** pattern.py:73-80, [get_selector]. *)
Definition get_selector (p : pattern) (i : Z) : res selector :=
  match py_index p i with
  | Some k => match nth_error p k with Some s => Ok s | None => Err IndexError end
  | None => Err IndexError
  end.
(** pattern.py:183-190, [__contains__]. *)
Definition pattern_contains (p : pattern) (s : selector) : bool :=
  match p with
  | [] => false
  | _ => match nth_error p (bisect_left sel_lt p s) with
         | Some x => sel_eq x s
         | None => false
         end
  end.
(** pattern.py:82-90 [copy] (same selectors), 180-181 [__len__], 192-193 [__iter__]. *)
Definition pattern_copy (p : pattern) : pattern := p.
Definition pattern_len (p : pattern) : nat := length p.

(** pattern.py:148-156 [__eq__] and 158-166 [__ne__]. *)
Fixpoint pattern_eq_loop (p q : pattern) : bool :=
  match p, q with
  | x :: p', y :: q' => if sel_ne x y then false else pattern_eq_loop p' q'
  | _, _ => true
  end.
Definition pattern_eq (p q : pattern) : bool :=
  if negb (length p =? length q) then false else pattern_eq_loop p q.
Fixpoint pattern_ne_loop (p q : pattern) : bool :=
  match p, q with
  | x :: p', y :: q' => if sel_ne x y then true else pattern_ne_loop p' q'
  | _, _ => false
  end.
Definition pattern_ne (p q : pattern) : bool :=
  if negb (length p =? length q) then true else pattern_ne_loop p q.

(** pattern.py:168-178, [__str__]. *)
Fixpoint pattern_str_loop (p : pattern) : string :=
  match p with
  | [] => ""
  | [s] => (sel_str s ++ "]")%string
  | s :: p' => (sel_str s ++ ", " ++ pattern_str_loop p')%string
  end.
Definition pattern_str (p : pattern) : string :=
  match p with [] => "[]" | _ => ("[" ++ pattern_str_loop p)%string end.
(** pattern.py:130-146, [generate_from_str]. *)
Definition pattern_parse (t : string) : res pattern :=
  if String.eqb t "[]" then Ok (pattern_init [])
  else do l <- map_res sel_parse (py_split ", " (strip_ends t)); Ok (pattern_init l).

(** pattern.py:121-122: Python sets of selectors; an element is in the set when some member
    has the same hash and compares equal. *)
Definition in_pyset (h : string -> Z) (x : selector) (l : list selector) : bool :=
  existsb (fun y => (sel_hash h y =? sel_hash h x)%Z && sel_eq y x) l.
Fixpoint pyset_of (h : string -> Z) (l : list selector) (acc : list selector) : list selector :=
  match l with
  | [] => acc
  | x :: l' => pyset_of h l' (if in_pyset h x acc then acc else acc ++ [x])
  end.
Definition pyset_subset (h : string -> Z) (a b : list selector) : bool :=
  forallb (fun x => in_pyset h x b) a.
(** pattern.py:112-127, [is_refinement]. *)
Definition pattern_is_refinement (h : string -> Z) (self cand : pattern) (itself : bool) : bool :=
  let a := pyset_of h self [] in
  let b := pyset_of h cand [] in
  if length b <? length a then false
  else if (length a =? length b) && pyset_subset h a b then itself
  else pyset_subset h a b.

(** * pandas DataFrame *)
(** A DataFrame with the default RangeIndex: named columns, all of length [df_n]. *)
Record dataframe := DF { df_n : nat; df_cols : list (string * list value) }.
Fixpoint col_get (cols : list (string * list value)) (a : string) : option (list value) :=
  match cols with
  | [] => None
  | (b, c) :: cols' => if String.eqb a b then Some c else col_get cols' a
  end.
(** [df[name]] *)
Definition df_col (df : dataframe) (a : string) : res (list value) :=
  match col_get (df_cols df) a with Some c => Ok c | None => Err KeyError end.
(** [a & b] on two boolean Series with the same index. *)
Definition series_and (a b : list bool) : list bool :=
  map (fun xy => andb (fst xy) (snd xy)) (combine a b).
Definition any_true (a : list bool) : bool := existsb (fun b => b) a.

(** pattern.py:104-110 and dataframe_filters.py:23-32, the common loop. *)
Fixpoint contained_loop (df : dataframe) (acc : list bool) (l : list selector) : res (list bool) :=
  if any_true acc then
    match l with
    | [] => Ok acc
    | s :: l' =>
        do col <- df_col df (s_attr s);
        do m <- op_evaluate_series (s_op s) col (s_val s);
        contained_loop df (series_and acc m) l'
    end
  else Ok acc.
(** pattern.py:92-110, [is_contained]. *)
Definition is_contained (p : pattern) (df : dataframe) : res (list bool) :=
  contained_loop df (repeat true (df_n df)) p.
(** [df[mask]] *)
Fixpoint mask_list {A} (m : list bool) (l : list A) : list A :=
  match m, l with
  | b :: m', x :: l' => if b then x :: mask_list m' l' else mask_list m' l'
  | _, _ => []
  end.
Definition df_mask (m : list bool) (df : dataframe) : dataframe :=
  DF (length (filter (fun b => b) m)) (map (fun c => (fst c, mask_list m (snd c))) (df_cols df)).
(** [df[series]] for a Series built from [Series([True] * len(df))], dataframe_filters.py:33.  For a DataFrame without rows
    that Series is [Series([])], of dtype object: pandas takes an empty object key for a list of column names and returns
    a DataFrame with the same rows (none) and no column. *)
Definition df_getitem (m : list bool) (df : dataframe) : dataframe :=
  match m with [] => DF (df_n df) [] | _ :: _ => df_mask m df end.
(** utils/dataframe_filters.py:12-33. *)
Definition filter_by_list_of_selectors (df : dataframe) (l : list selector) : res dataframe :=
  do m <- contained_loop df (repeat true (df_n df)) l; Ok (df_getitem m df).

(** * core/subgroup.py *)
Record subgroup := SG { g_desc : pattern; g_target : selector }.
(** subgroup.py:30-36, [copy]. *)
Definition subgroup_copy (g : subgroup) : subgroup := SG (pattern_copy (g_desc g)) (g_target g).
(** [df[df.columns.drop(name)]]; KeyError when the column does not exist. *)
Definition df_drop (df : dataframe) (a : string) : res dataframe :=
  match col_get (df_cols df) a with
  | None => Err KeyError
  | Some _ => Ok (DF (df_n df) (filter (fun c => negb (String.eqb a (fst c))) (df_cols df)))
  end.
(** subgroup.py:47-72, [filter]. *)
Definition subgroup_filter (g : subgroup) (df : dataframe) : res (list bool * list bool * list bool) :=
  do rest <- df_drop df (s_attr (g_target g));
  do tcol <- df_col df (s_attr (g_target g));
  do d <- is_contained (g_desc g) rest;
  do t <- op_evaluate_series (s_op (g_target g)) tcol (s_val (g_target g));
  Ok (series_and d t, series_and d (map negb t), t).
(** subgroup.py:74-81, [is_refinement]. *)
Definition subgroup_is_refinement (h : string -> Z) (self cand : subgroup) (itself : bool) : bool :=
  pattern_is_refinement h (g_desc self) (g_desc cand) itself && sel_eq (g_target self) (g_target cand).
(** subgroup.py:97-105, [__eq__], [__ne__]. *)
Definition subgroup_eq (g k : subgroup) : bool :=
  pattern_eq (g_desc g) (g_desc k) && sel_eq (g_target g) (g_target k).
Definition subgroup_ne (g k : subgroup) : bool :=
  pattern_ne (g_desc g) (g_desc k) || sel_ne (g_target g) (g_target k).
(** subgroup.py:107-108, [__str__]. *)
Definition subgroup_str (g : subgroup) : string :=
  ("Description: " ++ pattern_str (g_desc g) ++ ", Target: " ++ sel_str (g_target g))%string.
(** subgroup.py:84-95, [generate_from_str]. *)
Definition subgroup_parse (t : string) : res subgroup :=
  match py_split ", Target: " t with
  | d :: tg :: _ =>
      do target <- sel_parse tg;
      do desc <- pattern_parse (drop_str 13 d);
      Ok (SG desc target)
  | _ => Err IndexError
  end.
