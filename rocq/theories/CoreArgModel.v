(** The methods of core/operator.py, selector.py, pattern.py, subgroup.py and utils/dataframe_filters.py called with arguments of any
    Python type, and patterns built from lists of any objects.  CoreModel.v models the same methods on the arguments they are meant for. *)
From Verif Require Export CoreModel.
Open Scope string_scope.
Open Scope list_scope.
Open Scope nat_scope.

(** Python objects.  [OVal]: type exactly str, int or float; [OSel], [OPat], [OSub]: instances of Selector, Pattern (with the list it holds)
    and Subgroup or of subclasses; [OSeries], [OMask]: Series of values, of booleans; [OOther]: any other object (also instances of
    subclasses of str, int, float, list, Series, DataFrame, which the exact type tests refuse). *)
Inductive pobj := OVal (v : value) | OBool (b : bool) | ONone | OOp (o : operator) | OSel (s : selector) | OPat (l : list pobj)
| OSub (d : list pobj) (t : selector) | OSeries (l : list value) | OMask (l : list bool) | OFrame (f : dataframe)
| OList (l : list pobj) | OTuple (l : list pobj) | OOther (n : nat).
(** Objects whose own comparison methods or attributes are not modelled. *)
Definition opaque (x : pobj) : bool := match x with OSeries _ | OMask _ | OFrame _ | OOther _ => true | _ => false end.
(** int, float, str, with bool as an int. *)
Definition plain_value (x : pobj) : option value := match x with OVal v => Some v | OBool b => Some (VInt (if b then 1 else 0)) | _ => None end.
(** [x < y]: selector.py:116-129, operator.py:87-90 (the methods of the right operand are tried after NotImplemented), built-in types. *)
Definition obj_lt (x y : pobj) : res bool :=
  match x, y with
  | OSel s, OSel t => Ok (sel_lt s t)
  | OSel _, _ => Err TypeError
  | _, OSel _ => if opaque x then Err Unmodelled else Err TypeError
  | OOp a, OOp b => Ok (op_lt a b)
  | OOp _, _ => Err TypeError
  | OList _, OList _ | OTuple _, OTuple _ => Err Unmodelled
  | _, _ => if opaque x || opaque y then Err Unmodelled
            else match plain_value x, plain_value y with Some v, Some w => py_lt v w | _, _ => Err TypeError end
  end.
(** [x != y]: selector.py:111-114, operator.py:82-85. *)
Definition obj_ne (x y : pobj) : res bool :=
  match x, y with
  | OSel s, OSel t => Ok (sel_ne s t)
  | OSel _, _ => Err TypeError
  | _, OSel _ => if opaque x then Err Unmodelled else Err TypeError
  | OOp a, OOp b => Ok (op_ne a b)
  | _, _ => match plain_value x, plain_value y with Some v, Some w => Ok (negb (py_eq v w)) | _, _ => Err Unmodelled end
  end.
(** [x == y]: selector.py:106-109. *)
Definition obj_eq (x y : pobj) : res bool := match x, y with OSel s, OSel t => Ok (sel_eq s t) | _, _ => do b <- obj_ne x y; Ok (negb b) end.
(** [bool(x)] *)
Definition truth (x : pobj) : res bool :=
  match x with
  | OVal (VStr s) => Ok (negb (String.eqb s "")) | OVal v => Ok (negb (py_eq v (VInt 0))) | OBool b => Ok b | ONone => Ok false
  | OPat l | OList l | OTuple l => Ok (negb (length l =? 0))
  | OSeries _ | OMask _ | OFrame _ => Err ValueError
  | OOther _ => Err Unmodelled
  | OOp _ | OSel _ | OSub _ _ => Ok true
  end.

(** [list.sort] (as Base.sort_by) and [bisect_left] (as Base.bisect_left) when comparisons can raise.  CPython compares other pairs, but,
    as here, each element with at least one that is already in place. *)
Fixpoint insert_m (x : pobj) (l : list pobj) : res (list pobj) :=
  match l with
  | [] => Ok [x]
  | y :: ys => do b <- obj_lt y x; if b then do r <- insert_m x ys; Ok (y :: r) else Ok (x :: y :: ys)
  end.
Fixpoint sort_m (l : list pobj) : res (list pobj) := match l with [] => Ok [] | x :: xs => do r <- sort_m xs; insert_m x r end.
Fixpoint bisect_m_loop (a : list pobj) (x : pobj) (fuel lo hi : nat) : res nat :=
  match fuel with
  | O => Ok lo
  | S fuel' =>
      if lo <? hi then
        let mid := (lo + hi) / 2 in
        match nth_error a mid with
        | Some y => do b <- obj_lt y x; if b then bisect_m_loop a x fuel' (S mid) hi else bisect_m_loop a x fuel' lo mid
        | None => Ok lo
        end
      else Ok lo
  end.
Definition bisect_m (a : list pobj) (x : pobj) : res nat := bisect_m_loop a x (S (length a)) 0 (length a).
(** pattern.py:33-36. *)
Fixpoint dedup_m (last : option pobj) (l : list pobj) : res (list pobj) :=
  match l with
  | [] => Ok []
  | e :: l' =>
      do keep <- match last with None => Ok true | Some x => obj_ne x e end;
      if keep then do r <- dedup_m (Some e) l'; Ok (e :: r) else dedup_m last l'
  end.

(** [isinstance(x, Selector)] and the exact type tests. *)
Definition sel_of (x : pobj) : res selector := match x with OSel s => Ok s | _ => Err TypeError end.
Definition op_of (x : pobj) : res operator := match x with OOp o => Ok o | _ => Err TypeError end.
Definition str_of (x : pobj) : res string := match x with OVal (VStr s) => Ok s | _ => Err TypeError end.
Definition int_of (x : pobj) : res Z := match x with OVal (VInt z) => Ok z | _ => Err TypeError end.
Definition val_of (x : pobj) : res value := match x with OVal v => Ok v | _ => Err TypeError end.
Definition pat_of (x : pobj) : res (list pobj) := match x with OPat l => Ok l | _ => Err TypeError end.
Definition sub_of (x : pobj) : res (list pobj * selector) := match x with OSub d t => Ok (d, t) | _ => Err TypeError end.
Definition frame_of (x : pobj) : res dataframe := match x with OFrame f => Ok f | _ => Err TypeError end.
Definition list_of (x : pobj) : res (list pobj) := match x with OList l => Ok l | _ => Err TypeError end.

(** The six comparison methods. *)
Inductive cmp := CEq | CNe | CLt | CGt | CLe | CGe.
(** operator.py:77-105. *)
Definition op_compare (k : cmp) (a b : operator) : bool :=
  match k with CEq => op_eq a b | CNe => op_ne a b | CLt => op_lt a b | CGt => op_gt a b | CLe => op_le a b | CGe => op_ge a b end.
(** selector.py:106-181. *)
Definition sel_compare (k : cmp) (a b : selector) : bool :=
  match k with CEq => sel_eq a b | CNe => sel_ne a b | CLt => sel_lt a b | CGt => sel_gt a b | CLe => sel_le a b | CGe => sel_ge a b end.
(** operator.py:27-51, [evaluate]: two scalars, a Series and a scalar (elementwise, also from the left), two Series (default index: the
    lengths must agree). *)
Fixpoint pairwise (o : operator) (l r : list value) : res (list bool) :=
  match l, r with
  | [], [] => Ok []
  | x :: l', y :: r' => do b <- op_evaluate o x y; do bs <- pairwise o l' r'; Ok (b :: bs)
  | _, _ => Err ValueError
  end.
Definition evaluate_any (o : operator) (l r : pobj) : res pobj :=
  match l, r with
  | OVal v, OVal w => do b <- op_evaluate o v w; Ok (OBool b)
  | OSeries c, OVal w => do m <- op_evaluate_series o c w; Ok (OMask m)
  | OVal v, OSeries c => do m <- map_res (fun y => op_evaluate o v y) c; Ok (OMask m)
  | OSeries c, OSeries d => if length c =? length d then do m <- pairwise o c d; Ok (OMask m) else Err ValueError
  | OMask _, OVal _ | OMask _, OSeries _ | OMask _, OMask _ | OVal _, OMask _ | OSeries _, OMask _ => Err Unmodelled
  | _, _ => Err TypeError
  end.
(** selector.py:69-81, [match]: with other names the answer is the plain False, after the type tests. *)
Definition match_any (s : selector) (a v : pobj) : res pobj :=
  do n <- str_of a;
  match v with
  | OVal _ | OSeries _ => if String.eqb n (s_attr s) then evaluate_any (s_op s) v (OVal (s_val s)) else Ok (OBool false)
  | OMask _ => if String.eqb n (s_attr s) then Err Unmodelled else Ok (OBool false)
  | _ => Err TypeError
  end.
(** pattern.py:24-36. *)
Definition pattern_any (x : pobj) : res (list pobj) := do l <- list_of x; do s <- sort_m l; dedup_m None s.
(** pattern.py:38-50, 52-62, 64-71, 73-80, 183-190, on the list [l] of the pattern; the first component is the list afterwards. *)
Definition add_any (l : list pobj) (x : pobj) : res (list pobj) :=
  do _ <- sel_of x;
  do i <- bisect_m l x;
  match nth_error l i with
  | None => Ok (l ++ [x])
  | Some y => do b <- obj_ne y x; Ok (if b then list_insert i x l else l)
  end.
Definition remove_any (l : list pobj) (x : pobj) : res (list pobj) :=
  do _ <- sel_of x;
  do i <- bisect_m l x;
  match nth_error l i with
  | None => Ok l
  | Some y => do b <- obj_eq y x; Ok (if b then list_pop i l else l)
  end.
Definition contains_any (l : list pobj) (x : pobj) : res bool :=
  do _ <- sel_of x;
  match l with
  | [] => Ok false
  | _ => do i <- bisect_m l x; match nth_error l i with None => Ok false | Some y => obj_eq y x end
  end.
Definition remove_index_any (l : list pobj) (x : pobj) : res (list pobj) :=
  do i <- int_of x; match py_index l i with Some k => Ok (list_pop k l) | None => Err IndexError end.
Definition get_any (l : list pobj) (x : pobj) : res pobj :=
  do i <- int_of x; match py_index l i with Some k => match nth_error l k with Some y => Ok y | None => Err IndexError end | None => Err IndexError end.
(** pattern.py:104-110 and dataframe_filters.py:27-32: [current_selector.attribute_name] of an object that is not a selector. *)
Fixpoint contained_any (df : dataframe) (acc : list bool) (l : list pobj) : res (list bool) :=
  if any_true acc then
    match l with
    | [] => Ok acc
    | OSel s :: l' => do col <- df_col df (s_attr s); do m <- op_evaluate_series (s_op s) col (s_val s); contained_any df (series_and acc m) l'
    | x :: _ => if opaque x then Err Unmodelled else Err AttributeError
    end
  else Ok acc.
Definition is_contained_any (l : list pobj) (x : pobj) : res pobj :=
  do df <- frame_of x; do m <- contained_any df (repeat true (df_n df)) l; Ok (OMask m).
(** All the elements are selectors. *)
Fixpoint selectors_of (l : list pobj) : option (list selector) :=
  match l with
  | [] => Some []
  | OSel s :: l' => match selectors_of l' with Some r => Some (s :: r) | None => None end
  | _ :: _ => None
  end.
(** pattern.py:112-127: no test of the arguments; [refinement_of_itself] is returned as it is. [h]: the hash of strings. *)
Definition refinement_any (h : string -> Z) (l : list pobj) (x b : pobj) : res pobj :=
  match selectors_of l with
  | None => Err Unmodelled
  | Some p =>
      match x with
      | OPat m =>
          match selectors_of m with
          | None => Err Unmodelled
          | Some q =>
              let u := pyset_of h p [] in
              let w := pyset_of h q [] in
              if length w <? length u then Ok (OBool false)
              else if (length u =? length w) && pyset_subset h u w then Ok b
              else Ok (OBool (pyset_subset h u w))
          end
      | _ => if opaque x then Err Unmodelled else Err AttributeError
      end
  end.
(** pattern.py:148-166, the loops over the indices; the lengths are equal. *)
Fixpoint differ_any (l m : list pobj) : res bool :=
  match l, m with
  | x :: l', y :: m' => do b <- obj_ne x y; if b then Ok true else differ_any l' m'
  | _, _ => Ok false
  end.
Definition pattern_ne_any (l m : list pobj) : res bool := if negb (length l =? length m) then Ok true else differ_any l m.
Definition pattern_compare_any (k : cmp) (l : list pobj) (x : pobj) : res bool :=
  match k with
  | CEq => do m <- pat_of x; do b <- pattern_ne_any l m; Ok (negb b)
  | CNe => do m <- pat_of x; pattern_ne_any l m
  | _ => if opaque x then Err Unmodelled else Err TypeError
  end.
(** subgroup.py:22-28, 47-72, 74-81, 97-105. *)
Definition subgroup_any (d t : pobj) : res pobj := do l <- pat_of d; do s <- sel_of t; Ok (OSub l s).
Definition sub_filter_any (d : list pobj) (t : selector) (x : pobj) : res pobj :=
  do df <- frame_of x;
  do rest <- df_drop df (s_attr t);
  do tcol <- df_col df (s_attr t);
  do m <- contained_any rest (repeat true (df_n rest)) d;
  do tm <- op_evaluate_series (s_op t) tcol (s_val t);
  Ok (OTuple [OMask (series_and m tm); OMask (series_and m (map negb tm)); OMask tm]).
(** [A and B] returns [A] when it is false. *)
Definition sub_refinement_any (h : string -> Z) (d : list pobj) (t : selector) (x b : pobj) : res pobj :=
  match x with
  | OSub d' t' => do r <- refinement_any h d (OPat d') b; do c <- truth r; Ok (if c then OBool (sel_eq t t') else r)
  | _ => if opaque x then Err Unmodelled else Err AttributeError
  end.
Definition sub_compare_any (k : cmp) (d : list pobj) (t : selector) (x : pobj) : res bool :=
  match k with
  | CEq => do y <- sub_of x; do b <- pattern_ne_any d (fst y); Ok (negb b && sel_eq t (snd y))
  | CNe => do y <- sub_of x; do b <- pattern_ne_any d (fst y); Ok (b || sel_ne t (snd y))
  | _ => if opaque x then Err Unmodelled else Err TypeError
  end.

(** * Calls *)
Inductive call :=
| CEvaluate (o : operator) (l r : pobj) | COpParse (t : pobj) | COpCompare (k : cmp) (o : operator) (x : pobj)
| CSelector (a o v : pobj) | CMatch (s : selector) (a v : pobj) | CSelParse (t : pobj) | CSelCompare (k : cmp) (s : selector) (x : pobj)
| CPattern (x : pobj) | CPatParse (t : pobj)
| CAdd (x : pobj) | CRemove (x : pobj) | CRemoveIndex (i : pobj) | CGet (i : pobj) | CIn (x : pobj) | CContained (df : pobj)
| CRefinement (x b : pobj) | CPatCompare (k : cmp) (x : pobj)
| CSubgroup (d t : pobj) | CSubParse (t : pobj) | CSubFilter (d : list pobj) (t : selector) (df : pobj)
| CSubRefinement (d : list pobj) (t : selector) (x b : pobj) | CSubCompare (k : cmp) (d : list pobj) (t : selector) (x : pobj)
| CFilterBy (df l : pobj).
(** What the call can change: the selector pool, and the list of the pattern whose method is called.  (The selectors that the
    [generate_from_str] methods build on the way are not entered in the pool here: those that are not returned have left it when the call
    ends, C02.) *)
Record store := Store { w_pool : pool; w_self : list pobj }.
Definition keep (w : store) (r : res pobj) : store * res pobj := (w, r).
Definition update (w : store) (r : res (list pobj)) : store * res pobj :=
  match r with Ok l => (Store (w_pool w) l, Ok ONone) | Err e => (w, Err e) end.
Definition perform (h : string -> Z) (c : call) (w : store) : store * res pobj :=
  let self := w_self w in
  match c with
  | CEvaluate o l r => keep w (evaluate_any o l r)
  (* operator.py:53-75 *)
  | COpParse t => keep w (do s <- str_of t; do o <- op_parse s; Ok (OOp o))
  | COpCompare k o x => keep w (do p <- op_of x; Ok (OBool (op_compare k o p)))
  (* selector.py:29-54 *)
  | CSelector a o v =>
      match (do n <- str_of a; do p <- op_of o; do u <- val_of v; Ok (n, p, u)) with
      | Ok (n, p, u) => match selector_new (w_pool w) n p u with (q, Ok ob) => (Store q self, Ok (OSel (o_sel ob))) | (q, Err e) => (Store q self, Err e) end
      | Err e => (w, Err e)
      end
  | CMatch s a v => keep w (match_any s a v)
  | CSelParse t => keep w (do s <- str_of t; do x <- sel_parse s; Ok (OSel x))
  | CSelCompare k s x => keep w (do t <- sel_of x; Ok (OBool (sel_compare k s t)))
  | CPattern x => keep w (do l <- pattern_any x; Ok (OPat l))
  (* pattern.py:129-146 *)
  | CPatParse t => keep w (do s <- str_of t; do p <- pattern_parse s; Ok (OPat (map OSel p)))
  | CAdd x => update w (add_any self x)
  | CRemove x => update w (remove_any self x)
  | CRemoveIndex i => update w (remove_index_any self i)
  | CGet i => keep w (get_any self i)
  | CIn x => keep w (do b <- contains_any self x; Ok (OBool b))
  | CContained df => keep w (is_contained_any self df)
  | CRefinement x b => keep w (refinement_any h self x b)
  | CPatCompare k x => keep w (do b <- pattern_compare_any k self x; Ok (OBool b))
  | CSubgroup d t => keep w (subgroup_any d t)
  (* subgroup.py:83-95 *)
  | CSubParse t => keep w (do s <- str_of t; do g <- subgroup_parse s; Ok (OSub (map OSel (g_desc g)) (g_target g)))
  | CSubFilter d t df => keep w (sub_filter_any d t df)
  | CSubRefinement d t x b => keep w (sub_refinement_any h d t x b)
  | CSubCompare k d t x => keep w (do b <- sub_compare_any k d t x; Ok (OBool b))
  (* dataframe_filters.py:12-33 *)
  | CFilterBy df l => keep w (do f <- frame_of df; do sels <- list_of l; do m <- contained_any f (repeat true (df_n f)) sels; Ok (OFrame (df_getitem m f)))
  end.
