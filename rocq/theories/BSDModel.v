(** Model of /repo/src/subgroups/algorithms/subgroup_sets/bsd.py, cbsd.py, cpbsd.py and of
    /repo/src/subgroups/data_structures/bitset_bsd.py.
    As in SDMapModel, the quality measure and the optimistic estimate are parameters: any
    functions of (tp, fp, TP, FP) that return a value or raise.  [a > b] on values is
    [bc_lt b a], [a >= b] is [negb (bc_lt a b)], [a == b] is neither [a < b] nor [b < a] (no
    NaN).  A bitarray is a list of booleans.  min_support is an int. *)
From Verif Require Export SDMapModel.
Open Scope string_scope.
Open Scope list_scope.
Open Scope Z_scope.

(** * Bitarrays *)
(** bsd.py:356-369 *)
Definition cardinality (b : list bool) : Z := Z.of_nat (length (filter (fun x => x) b)).
(** bsd.py:371-390 *)
Definition logical_and (a b : list bool) : res (list bool) :=
  if (length a =? length b)%nat then Ok (map (fun p => fst p && snd p) (combine a b)) else Err TypeError.
(** Python's [b[-n:]]: for n = 0 it is the whole array. *)
Definition last_bits (n : nat) (b : list bool) : list bool :=
  match n with O => b | S _ => skipn (length b - n) b end.
Definition bit_at (b : list bool) (i : nat) : res bool :=
  match nth_error b i with Some x => Ok x | None => Err IndexError end.
(** The while loops of cbsd.py and cpbsd.py: is there an index in [i, i + n) with [p]? *)
Fixpoint any_index (p : nat -> res bool) (i n : nat) : res bool :=
  match n with
  | O => Ok false
  | S n' => do b <- p i; if b then Ok true else any_index p (S i) n'
  end.

(** * bitset_bsd.py *)
(** bitset_bsd.py:15-49, BitsetDictionary: the keys are the texts str(Pattern([selector])). *)
Notation bitsets := (list (string * list bool)).
Definition bit_key (s : selector) : string := pattern_str (pattern_init [s]).
Fixpoint str_assoc {B} (k : string) (d : list (string * B)) : option B :=
  match d with
  | [] => None
  | (k', v) :: d' => if String.eqb k' k then Some v else str_assoc k d'
  end.
Fixpoint str_set {B} (k : string) (v : B) (d : list (string * B)) : list (string * B) :=
  match d with
  | [] => [(k, v)]
  | (k', w) :: d' => if String.eqb k' k then (k', v) :: d' else (k', w) :: str_set k v d'
  end.
Definition bitset_get (d : bitsets) (s : selector) : res (list bool) :=
  match str_assoc (bit_key s) d with Some b => Ok b | None => Err KeyError end.
(** bitset_bsd.py:120-129, 184-192: the selectors of the text columns without the target;
    [unique()] gives the values in order of first occurrence. *)
Definition column_selectors (df : dataframe) (tcol : string) : list (selector * list value) :=
  flat_map (fun c => if forallb is_str (snd c) then map (fun v => (Sel (fst c) EQUAL v, snd c)) (distinct_values (snd c)) else [])
           (other_columns df tcol).
(** [(df_pos[column] == value).tolist()], bitset_bsd.py:143-145, for the rows selected by a mask. *)
Definition row_bits (mask : list bool) (col : list value) (v : value) : list bool :=
  map (fun w => py_eq w v) (mask_list mask col).
(** bitset_bsd.py:150-205, generate_set_of_frequent_selectors: stable sort by tp, descending. *)
Definition bsd_frequent (df : dataframe) (mask : list bool) (tcol : string) (min_support : Z) : list selector :=
  map fst (sort_by (fun x y => snd y <? snd x)
    (filter (fun p => min_support <=? snd p)
      (map (fun sc => (fst sc, cardinality (row_bits mask (snd sc) (s_val (fst sc))))) (column_selectors df tcol)))).
(** bitset_bsd.py:96-148, build_bitset, for the rows selected by the mask. *)
Definition build_bitset (df : dataframe) (mask : list bool) (tcol : string) (L : list selector) : bitsets :=
  fold_left (fun d sc => str_set (bit_key (fst sc)) (row_bits mask (snd sc) (s_val (fst sc))) d)
    (filter (fun sc => existsb (sel_eq (fst sc)) L) (column_selectors df tcol)) [].

(** * The algorithm object *)
(** bsd.py:46, cbsd.py:14, cpbsd.py:14: the three classes. *)
Inductive bsd_class := BSD | CBSD | CPBSD.
(** bsd.py:85-108: the attributes set by the constructor and never changed.  [bc_dummy] is
    the number -99999, [bc_is_float v] is [type(v) is float]. *)
Record bsd_config (V : Type) := BC {
  bc_class : bsd_class;
  bc_measure : Z -> Z -> Z -> Z -> res V; bc_oe : Z -> Z -> Z -> Z -> res V;
  bc_lt : V -> V -> bool; bc_dummy : V; bc_is_float : V -> bool;
  bc_min_support : Z; bc_num : Z; bc_max_depth : Z; bc_write : bool }.
Arguments BC {V}. Arguments bc_class {V}. Arguments bc_measure {V}. Arguments bc_oe {V}. Arguments bc_lt {V}. Arguments bc_dummy {V}.
Arguments bc_is_float {V}. Arguments bc_min_support {V}. Arguments bc_num {V}. Arguments bc_max_depth {V}. Arguments bc_write {V}.
(** An element of _k_subgroups: (quality, subgroup, bits, optimistic_estimate, (tp, fp)). *)
Record bsd_entry (V : Type) := BE { e_quality : V; e_pattern : pattern; e_bits : list bool; e_oe : V; e_tp : Z; e_fp : Z }.
Arguments BE {V}. Arguments e_quality {V}. Arguments e_pattern {V}. Arguments e_bits {V}. Arguments e_oe {V}. Arguments e_tp {V}. Arguments e_fp {V}.
(** The attributes that change and the content of the output file.  [bs_log] is not an
    attribute of the object: it records, for the theorems about "every point of the search",
    each description handed to _handle_individual_result and the list _k_subgroups after it. *)
Record bsd_state (V : Type) := BS {
  bs_k : list (bsd_entry V); bs_irrelevants : list (pattern * V * list bool);
  bs_visited : nat; bs_selected : nat; bs_unselected : nat; bs_pruned : nat;
  bs_TP : Z; bs_FP : Z; bs_file : option (list (record V)); bs_log : list (pattern * list (bsd_entry V)) }.
Arguments BS {V}. Arguments bs_k {V}. Arguments bs_irrelevants {V}. Arguments bs_visited {V}. Arguments bs_selected {V}. Arguments bs_unselected {V}.
Arguments bs_pruned {V}. Arguments bs_TP {V}. Arguments bs_FP {V}. Arguments bs_file {V}. Arguments bs_log {V}.

Section BSD.
  Context {V : Type}.
  Variable c : bsd_config V.
  Notation state := (bsd_state V).
  Notation entry := (bsd_entry V).
  (** bsd.py:92: the initial element. *)
  Definition dummy_entry : entry := BE (bc_dummy c) (pattern_init []) [] (bc_dummy c) 0 0.
  (** bsd.py:92-99, 109 *)
  Definition bsd_new : state := BS [dummy_entry] [] 0 0 0 0 0 0 None [].

  Definition set_k (st : state) (k : list entry) : state :=
    BS k (bs_irrelevants st) (bs_visited st) (bs_selected st) (bs_unselected st) (bs_pruned st) (bs_TP st) (bs_FP st) (bs_file st) (bs_log st).
  Definition add_irrelevants (st : state) (l : list (pattern * V * list bool)) : state :=
    BS (bs_k st) (bs_irrelevants st ++ l) (bs_visited st) (bs_selected st) (bs_unselected st) (bs_pruned st) (bs_TP st) (bs_FP st) (bs_file st) (bs_log st).
  Definition add_visited (st : state) : state :=
    BS (bs_k st) (bs_irrelevants st) (S (bs_visited st)) (bs_selected st) (bs_unselected st) (bs_pruned st) (bs_TP st) (bs_FP st) (bs_file st) (bs_log st).
  Definition add_unselected (n : nat) (st : state) : state :=
    BS (bs_k st) (bs_irrelevants st) (bs_visited st) (bs_selected st) (bs_unselected st + n) (bs_pruned st) (bs_TP st) (bs_FP st) (bs_file st) (bs_log st).
  Definition add_pruned (st : state) : state :=
    BS (bs_k st) (bs_irrelevants st) (bs_visited st) (bs_selected st) (bs_unselected st) (S (bs_pruned st)) (bs_TP st) (bs_FP st) (bs_file st) (bs_log st).
  Definition add_log (p : pattern) (st : state) : state :=
    BS (bs_k st) (bs_irrelevants st) (bs_visited st) (bs_selected st) (bs_unselected st) (bs_pruned st) (bs_TP st) (bs_FP st) (bs_file st) (bs_log st ++ [(p, bs_k st)]).

  Definition value_eq (a b : V) : bool := negb (bc_lt c a b) && negb (bc_lt c b a).
  Definition first_entry (k : list entry) : res entry := match k with e :: _ => Ok e | [] => Err IndexError end.
  Definition irrelevant_of (e : entry) : pattern * V * list bool := (e_pattern e, e_quality e, e_bits e).

  (** bsd.py:338-354: the loop of BSD._checkRel; [true]: relevant. *)
  Fixpoint bsd_relevant_to (k : list entry) (pos neg : list bool) : res bool :=
    match k with
    | [] => Ok true
    | e :: k' =>
        do a <- logical_and pos (firstn (length pos) (e_bits e));
        if cardinality a <? cardinality pos then bsd_relevant_to k' pos neg
        else
          do b <- logical_and neg (last_bits (length neg) (e_bits e));
          if cardinality b =? cardinality (last_bits (length neg) (e_bits e)) then Ok false
          else bsd_relevant_to k' pos neg
    end.
  (** cbsd.py:91-95, 133-138 with n = len(tuple[2]) and bits = all the bits; cpbsd.py:92-96,
      130-135 with n = len(ccurrPos) and bits = ccurrPos. *)
  Definition closed_length (old pos : list bool) : nat := match bc_class c with CPBSD => length pos | _ => length old end.
  Definition closed_bits (pos neg : list bool) : list bool := match bc_class c with CPBSD => pos | _ => pos ++ neg end.
  Definition not_within_new (old bits : list bool) (n : nat) : res bool :=
    any_index (fun i => do a <- bit_at old i; if a then do b <- bit_at bits i; Ok (negb b) else Ok false) 0 n.
  Definition not_within_old (old bits : list bool) (n : nat) : res bool :=
    any_index (fun i => do a <- bit_at old i; if a then Ok false else bit_at bits i) 0 n.
  (** cbsd.py:128-150, cpbsd.py:125-146: the loop of _checkRel.  [None]: not relevant; [Some
      (k, removed)]: relevant, with the remaining list and the removed element.  The element
      removed by list.remove is the one of the iteration: an equal one before it would have
      stopped the loop. *)
  Fixpoint closed_relevant_to (k : list entry) (pos neg : list bool) (q : V) (p : pattern)
    : res (option (list entry * list entry)) :=
    match k with
    | [] => Ok (Some ([], []))
    | e :: k' =>
        let next := do r <- closed_relevant_to k' pos neg q p;
                    Ok (match r with Some (l, x) => Some (e :: l, x) | None => None end) in
        if value_eq (e_quality e) q then
          do rel <- not_within_old (e_bits e) (closed_bits pos neg) (closed_length (e_bits e) pos);
          if rel then next
          else if (length p <? length (e_pattern e))%nat then Ok None
          else Ok (Some (k', [e]))
        else next
    end.
  (** bsd.py:312-354, cbsd.py:104-150, cpbsd.py:105-146, _checkRel. *)
  Definition check_rel (st : state) (pos neg : list bool) (q : V) (p : pattern) : res (bool * state) :=
    if negb (bc_is_float c q) then Err TypeError else
    do e0 <- first_entry (bs_k st);
    match e_pattern e0 with
    | [] => Ok (true, st)
    | _ :: _ =>
        match bc_class c with
        | BSD =>
            do r <- bsd_relevant_to (bs_k st) pos neg;
            Ok (r, if r then st else add_irrelevants st [(p, q, pos ++ neg)])
        | _ =>
            do r <- closed_relevant_to (bs_k st) pos neg q p;
            match r with
            | None => Ok (false, add_irrelevants st [(p, q, closed_bits pos neg)])
            | Some (k, x) => Ok (true, add_unselected (length x) (add_irrelevants (set_k st k) (map irrelevant_of x)))
            end
        end
    end.
  (** bsd.py:286-309: is the stored element still relevant after the insertion of [p]? *)
  Definition bsd_still_relevant (pos neg : list bool) (p : pattern) (e : entry) : res bool :=
    if pattern_eq (e_pattern e) p then Ok true else
    let tp := cardinality (firstn (length pos) (e_bits e)) in
    do a <- logical_and pos (firstn (length pos) (e_bits e));
    if cardinality a <? tp then Ok true else
    do b <- logical_and neg (last_bits (length neg) (e_bits e));
    Ok (negb (cardinality b =? cardinality neg)).
  (** cbsd.py:86-97, cpbsd.py:87-98 *)
  Definition closed_still_relevant (pos neg : list bool) (q : V) (p : pattern) (e : entry) : res bool :=
    if pattern_eq (e_pattern e) p || negb (value_eq (e_quality e) q) then Ok true
    else not_within_new (e_bits e) (closed_bits pos neg) (closed_length (e_bits e) pos).
  Definition still_relevant (pos neg : list bool) (q : V) (p : pattern) (e : entry) : res bool :=
    match bc_class c with BSD => bsd_still_relevant pos neg p e | _ => closed_still_relevant pos neg q p e end.
  (** The loop: the kept elements and the removed ones. *)
  Fixpoint split_relevant (f : entry -> res bool) (k : list entry) : res (list entry * list entry) :=
    match k with
    | [] => Ok ([], [])
    | e :: k' => do b <- f e; do r <- split_relevant f k';
                 Ok (if b then (e :: fst r, snd r) else (fst r, e :: snd r))
    end.
  (** bsd.py:266-310, cbsd.py:67-102, cpbsd.py:68-103, _checkRelevancies. *)
  Definition check_relevancies (st : state) (pos neg : list bool) (q : V) (p : pattern) : res state :=
    do e0 <- first_entry (bs_k st);
    let k := match e_pattern e0 with [] => tl (bs_k st) | _ :: _ => bs_k st end in
    do r <- split_relevant (still_relevant pos neg q p) k;
    Ok (add_unselected (length (snd r)) (add_irrelevants (set_k st (fst r)) (map irrelevant_of (snd r)))).

  (** [v > k[0][0]] in BSD, [v >= k[0][0]] in the other two. *)
  Definition passes (v worst : V) : bool :=
    match bc_class c with BSD => bc_lt c worst v | _ => negb (bc_lt c v worst) end.
  Definition not_full (k : list entry) : bool := Z.of_nat (length k) <? bc_num c.
  (** bsd.py:167-171, 251-255 *)
  Definition extend_pattern (selCond : pattern) (s : selector) : pattern :=
    match selCond with [] => pattern_init [s] | _ :: _ => add_selector (pattern_copy selCond) s end.
  (** bsd.py:174-184: the insertion of a relevant subgroup. *)
  Definition insert_entry (st : state) (e : entry) (pos neg : list bool) : res state :=
    let st := set_k st (sort_by (fun x y => bc_lt c (e_quality x) (e_quality y)) (bs_k st ++ [e])) in
    do st <- check_relevancies st pos neg (e_quality e) (e_pattern e);
    Ok (if bc_num c <? Z.of_nat (length (bs_k st)) then add_unselected 1 (set_k st (tl (bs_k st))) else st).
  (** bsd.py:144-193, cbsd.py:18-65, cpbsd.py:18-66, _handle_individual_result. *)
  Definition bsd_handle (st : state) (selCond : pattern) (s : selector) (oe q : V) (pos neg : list bool)
    (newSelRel : list (V * selector)) (tp fp : Z) : res (list (V * selector) * state) :=
    let st := add_visited st in
    let sg := extend_pattern selCond s in
    do w <- first_entry (bs_k st);
    if passes oe (e_quality w) || not_full (bs_k st) then
      do st <-
        (if passes q (e_quality w) || not_full (bs_k st) then
           do r <- check_rel st pos neg q sg;
           if fst r then insert_entry (snd r) (BE q sg (pos ++ neg) oe tp fp) pos neg
           else Ok (add_unselected 1 (snd r))
         else Ok (add_unselected 1 st));
      Ok (newSelRel ++ [(oe, s)], add_log sg st)
    else Ok (newSelRel, add_log sg (add_unselected 1 (add_pruned st))).

  (** bsd.py:217-240: one selector of the first loop of _BSD. *)
  Definition bsd_evaluate (dpos dneg : bitsets) (selCond : pattern) (cpos cneg : list bool)
    (acc : list (V * selector) * state) (s : selector) : res (list (V * selector) * state) :=
    let '(newSelRel, st) := acc in
    do bp <- bitset_get dpos s;
    do pos <- (match selCond with [] => Ok bp | _ :: _ => logical_and cpos bp end);
    do bn <- bitset_get dneg s;
    do neg <- (match selCond with [] => Ok bn | _ :: _ => logical_and cneg bn end);
    let tp := cardinality pos in
    let fp := cardinality neg in
    if tp + fp =? 0 then Ok (newSelRel, add_unselected 1 st)
    else
      do oe <- bc_oe c tp fp (bs_TP st) (bs_FP st);
      do q <- bc_measure c tp fp (bs_TP st) (bs_FP st);
      bsd_handle st selCond s oe q pos neg newSelRel tp fp.

  (** Comparison of the tuples (oe, selector), bsd.py:242. *)
  Definition pair_lt (a b : V * selector) : bool :=
    if value_eq (fst a) (fst b) then sel_lt (snd a) (snd b) else bc_lt c (fst a) (fst b).
  (** [list.remove(s)], bsd.py:257 *)
  Fixpoint remove_first (s : selector) (l : list selector) : res (list selector) :=
    match l with
    | [] => Err ValueError
    | x :: l' => if sel_eq x s then Ok l' else do r <- remove_first s l'; Ok (x :: r)
    end.
  (** bsd.py:195-264, _BSD.  The depth of the recursion is bounded by the number of
      selectors (fuel).  The list newSelRelAux is shared by the iterations. *)
  Fixpoint bsd_search (dpos dneg : bitsets) (fuel : nat) (selCond : pattern) (selRel : list selector)
    (cpos cneg : list bool) (depth : Z) (st : state) {struct fuel} : res state :=
    match fuel with
    | O => Err OutOfFuel
    | S f =>
        do r <- fold_res (bsd_evaluate dpos dneg selCond cpos cneg) selRel ([], st);
        let newSelRel := sort_by (fun x y => pair_lt y x) (fst r) in
        if depth <? bc_max_depth c then
          (fix loop (l : list (V * selector)) (aux : list selector) (st : state) {struct l} : res state :=
             match l with
             | [] => Ok st
             | x :: l' =>
                 do w <- first_entry (bs_k st);
                 if bc_lt c (e_quality w) (fst x) then
                   do aux <- remove_first (snd x) aux;
                   do bp <- bitset_get dpos (snd x);
                   do pos <- logical_and cpos bp;
                   do bn <- bitset_get dneg (snd x);
                   do neg <- logical_and cneg bn;
                   do st <- bsd_search dpos dneg f (extend_pattern selCond (snd x)) aux pos neg (depth + 1) st;
                   loop l' aux st
                 else loop l' aux (add_unselected 1 (add_pruned st))
             end) newSelRel (map snd newSelRel) (snd r)
        else Ok (snd r)
    end.

  (** bsd.py:447-466, _to_file *)
  Definition bsd_lines (tcol tval : string) (st : state) : list (record V) :=
    map (fun e => Rec (SG (e_pattern e) (Sel tcol EQUAL (VStr tval))) (e_quality e) (e_tp e) (e_fp e) (bs_TP st) (bs_FP st))
        (filter (fun e => negb (value_eq (e_quality e) (bc_dummy c))) (bs_k st)).
  (** bsd.py:392-445, fit.  The target is (column, str value). *)
  Definition bsd_fit (st : state) (df : dataframe) (tcol tval : string) : res state :=
    if negb (all_nominal df) then Err DatasetAttributeTypeError else
    do mask <- target_mask df tcol (VStr tval);
    let '(TP, FP) := population df mask in
    let st := BS (bs_k st) (bs_irrelevants st) (bs_visited st) (bs_selected st) (bs_unselected st) (bs_pruned st) TP FP (bs_file st) (bs_log st) in
    let L := bsd_frequent df mask tcol (bc_min_support c) in
    let dpos := build_bitset df mask tcol L in
    let dneg := build_bitset df (map negb mask) tcol L in
    do st <- bsd_search dpos dneg (S (length L)) (pattern_init []) L
               (repeat true (length (filter (fun b => b) mask))) (repeat true (length (filter negb mask))) 0 st;
    do e0 <- first_entry (bs_k st);
    let st := BS (bs_k st) (bs_irrelevants st) (bs_visited st)
                 (if value_eq (e_quality e0) (bc_dummy c) then length (bs_k st) - 1 else length (bs_k st))%nat
                 (bs_unselected st) (bs_pruned st) (bs_TP st) (bs_FP st) (bs_file st) (bs_log st) in
    Ok (if bc_write c
        then BS (bs_k st) (bs_irrelevants st) (bs_visited st) (bs_selected st) (bs_unselected st) (bs_pruned st) (bs_TP st) (bs_FP st)
                (Some (bsd_lines tcol tval st)) (bs_log st)
        else st).
End BSD.
