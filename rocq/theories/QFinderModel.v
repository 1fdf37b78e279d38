(** Model of algorithms/subgroup_sets/qfinder.py and data_structures/bitset_qfinder.py. *)
From Verif Require Export IDSDSpec.
From Coq Require Import QArith.
Open Scope string_scope.
Open Scope list_scope.
Open Scope nat_scope.

(** qfinder.py:54-110: the parameters.  [q_glm_or], [q_glm_p]: odds ratio and p-value of the generalized linear model of a target column
    on a boolean column (statsmodels), any functions here; [q_hash]: Python's hash of strings. *)
Record qconfig := QConfig { q_num : Z; q_cats : Z; q_max : Z; q_cov : Q; q_or : Q; q_p : Q; q_abs : Q; q_ratio : Q; q_delta : Q;
                            q_glm_or : list bool -> list bool -> xnum; q_glm_p : list bool -> list bool -> xnum; q_hash : string -> Z }.
(** qfinder.py:74-85. *)
Definition qconfig_ok (c : qconfig) : bool :=
  negb (q_cats c <? -1)%Z && (Qle_bool 0 (q_cov c) && Qle_bool (q_cov c) 1) && Qle_bool 0 (q_or c)
  && (Qle_bool 0 (q_p c) && Qle_bool (q_p c) 1) && Qle_bool 0 (q_abs c) && Qle_bool 0 (q_ratio c).
(** bitset_qfinder.py:85: a row of the DataFrame of credibility values. *)
Record qcred := QCred { qc_cov : xnum; qc_or : xnum; qc_p : xnum; qc_abs : xnum; qc_ratio : xnum; qc_adj : xnum }.

(** * Candidates *)
(** qfinder.py:156-177: the values of a column that make simple patterns ([nlargest(k)]: the first k of [value_counts]).  The last one,
    the new value for the rest, is only written into a local copy of the dataset (line 176), which nobody reads afterwards. *)
Definition q_values (cats : Z) (col : list value) : list value :=
  let n := length (distinct_values col) in
  if (Z.of_nat n <=? cats)%Z || (cats =? -1)%Z then distinct_values col
  else firstn (Z.to_nat (cats - 1)) (value_counts col) ++ [VStr (other_name (S n) (distinct_values col) "other")].
Definition q_selectors (cats : Z) (df : dataframe) (tcol : string) : list selector :=
  flat_map (fun ac => map (fun x => Sel (fst ac) EQUAL x) (q_values cats (snd ac))) (other_columns df tcol).
Definition same_columns (l : list selector) : bool := negb (length l =? length (nodup string_dec (map s_attr l))).
(** qfinder.py:129-194, _generate_candidate_patterns. *)
Definition q_candidates (c : qconfig) (df : dataframe) (tcol : string) : list pattern :=
  let simple := q_selectors (q_cats c) df tcol in
  let mx := if (q_max c =? -1)%Z then length (other_columns df tcol) else Z.to_nat (q_max c) in
  map (fun s => pattern_init [s]) simple ++
  flat_map (fun k => map (fun l => fold_left add_selector l (pattern_init [])) (filter (fun l => negb (same_columns l)) (combinations k simple))) (seq 2 (mx - 1)).

(** * Bitset *)
(** The dictionary pattern_matches (later the columns of a DataFrame): text of a pattern -> rows. *)
Definition bitset := list (string * list bool).
Fixpoint bit_set (d : bitset) (k : string) (a : list bool) : bitset :=
  match d with
  | [] => [(k, a)]
  | (k', b) :: d' => if String.eqb k' k then (k', a) :: d' else (k', b) :: bit_set d' k a
  end.
Fixpoint assoc {A} (d : list (string * A)) (k : string) : res A :=
  match d with
  | [] => Err KeyError
  | (k', a) :: d' => if String.eqb k' k then Ok a else assoc d' k
  end.
(** bitset_qfinder.py:38-43 (an empty pattern leaves [None]). *)
Definition q_mask (df : dataframe) (tcol : string) (s : selector) : res (list bool) :=
  match col_get (other_columns df tcol) (s_attr s) with
  | Some col => Ok (map (fun x => py_eq x (s_val s)) col)
  | None => Err KeyError
  end.
Definition q_entry (df : dataframe) (tcol : string) (p : pattern) : res (list bool) :=
  match p with
  | [] => Err AttributeError
  | s :: p' => do m <- q_mask df tcol s; fold_res (fun acc t => do m <- q_mask df tcol t; Ok (series_and acc m)) p' m
  end.
(** bitset_qfinder.py:26-47, generate_bitset. *)
Definition generate_bitset (df : dataframe) (tcol : string) (ps : list pattern) : res bitset :=
  fold_res (fun d p => do a <- q_entry df tcol p; Ok (if (zcount a =? 0)%Z then d else bit_set d (pattern_str p) a)) ps [].
(** bitset_qfinder.py:49-52, get_non_empty_patterns. *)
Definition non_empty_patterns (d : bitset) : res (list pattern) := map_res (fun ka => pattern_parse (fst ka)) d.
(** bitset_qfinder.py:83: a number times a positive integer. *)
Definition xtimes (a : xnum) (n : nat) : xnum := match a with XFin q => XFin (q * inject_Z (Z.of_nat n)) | _ => a end.
(** bitset_qfinder.py:54-84, compute_credibility_measures ([n]: TP + FP, the number of rows). *)
Definition q_measures (c : qconfig) (n : nat) (target : list bool) (d : bitset) : res (list (string * qcred)) :=
  do covs <- map_res (fun ka => zdiv (inject_Z (zcount (snd ka))) (inject_Z (Z.of_nat n))) d;
  let odds := map (fun ka => (fst ka, q_glm_or c target (snd ka))) d in
  do contribs <- map_res (fun ka => do p <- pattern_parse (fst ka); selector_contribution (fun q => assoc odds (pattern_str q)) None p) d;
  Ok (map (fun x => (fst (fst x), QCred (XFin (fst (snd x))) (q_glm_or c target (snd (fst x))) (q_glm_p c target (snd (fst x))) (fst (snd (snd x))) (snd (snd (snd x)))
                                 (xtimes (q_glm_p c target (snd (fst x))) (length d))))
          (combine d (combine covs contribs))).

(** * Ranking *)
(** qfinder.py:202-211, _handle_individual_result: the loop from criterion [i] with the current rank. *)
Fixpoint q_rank_loop (i rank : nat) (l : list bool) : nat :=
  match l with
  | [] => rank
  | b :: l' => if negb b && negb (i =? 3) then rank else q_rank_loop (S i) (if b then S i else rank) l'
  end.
(** qfinder.py:43-52, 233-237. *)
Definition q_criteria (c : qconfig) (r : qcred) : list bool :=
  [xle (XFin (q_cov c)) (qc_cov r); xle (XFin (q_or c)) (qc_or r); xle (qc_p r) (XFin (q_p c));
   xle (XFin (q_abs c)) (qc_abs r); xle (qc_ratio r) (XFin (q_ratio c)); xle (qc_adj r) (XFin (q_p c))].
Definition q_rank (c : qconfig) (r : qcred) : nat := q_rank_loop 0 0 (q_criteria c r).
(** A candidate with its credibility values. *)
Definition qentry := (pattern * qcred)%type.
Definition qp (e : qentry) : xnum := qc_p (snd e).
Definition qo (e : qentry) : xnum := qc_or (snd e).
(** qfinder.py:223-244, _rank_patterns (stable sorts). *)
Definition q_ranked (c : qconfig) (l : list qentry) : list qentry :=
  sort_by (fun x y => q_rank c (snd y) <? q_rank c (snd x)) (sort_by (fun x y => xlt (qp x) (qp y)) l).

(** * Selection *)
(** An odds ratio plus delta. *)
Definition xplus (a : xnum) (d : Q) : xnum := match a with XFin q => XFin (q + d) | _ => a end.
(** qfinder.py:213-221, _redundant. *)
Definition q_redundant (c : qconfig) (x y : qentry) : bool := redundant (q_hash c) (fst x) (fst y).
Definition longer (x y : qentry) : bool := length (fst y) <? length (fst x).
(** qfinder.py:266-272: [t] stops [x]. *)
Definition q_stops (c : qconfig) (x t : qentry) : bool :=
  q_redundant c x t && ((length (fst x) =? length (fst t)) || (longer x t && xle (qo x) (xplus (qo t) (q_delta c)))).
(** qfinder.py:277-279: [x] replaces [t]. *)
Definition q_replaces (c : qconfig) (x t : qentry) : bool :=
  q_redundant c x t && longer x t && xlt (xplus (qo t) (q_delta c)) (qo x) && xlt (qp x) (qp t).
(** qfinder.py:276-280: elements are removed from the list that is being iterated, so that the element after a removed one is not
    visited.  ([list.remove] removes the first equal pattern: the element itself, theorem C46_distinct.) *)
Fixpoint remove_iterating {A} (f : A -> bool) (l : list A) : list A :=
  match l with
  | [] => []
  | x :: l' => if f x then match l' with [] => [] | y :: l'' => y :: remove_iterating f l'' end else x :: remove_iterating f l'
  end.
(** qfinder.py:284-285: [max] returns the first element with the greatest key. *)
Fixpoint first_max (m : qentry) (l : list qentry) : qentry :=
  match l with
  | [] => m
  | x :: l' => first_max (if xlt (qp m) (qp x) then x else m) l'
  end.
Fixpoint remove_pattern (p : pattern) (l : list qentry) : list qentry :=
  match l with
  | [] => []
  | x :: l' => if pattern_eq (fst x) p then l' else x :: remove_pattern p l'
  end.
Definition drop_max (l : list qentry) : list qentry :=
  match l with [] => [] | x :: l' => remove_pattern (fst (first_max x l')) l end.
(** [max] of the p-values. *)
Definition max_p (l : list qentry) : res xnum :=
  match l with [] => Err ValueError | x :: l' => Ok (fold_left xmax (map qp l') (qp x)) end.
(** qfinder.py:261-285: one pattern; the boolean tells whether the loop goes on (no [break] at line 264). *)
Definition q_offer (c : qconfig) (top : list qentry) (x : qentry) : res (list qentry * bool) :=
  do worse <- (if (Z.of_nat (length top) =? q_num c)%Z then do m <- max_p top; Ok (xlt m (qp x)) else Ok false);
  if worse then Ok (top, false)
  else if existsb (q_stops c x) top then Ok (top, true)
  else
    let l := remove_iterating (q_replaces c x) top ++ [x] in
    Ok (if (q_num c <? Z.of_nat (length l))%Z then drop_max l else l, true).
Fixpoint q_group (c : qconfig) (top : list qentry) (l : list qentry) : res (list qentry) :=
  match l with
  | [] => Ok top
  | x :: l' => do r <- q_offer c top x; if snd r then q_group c (fst r) l' else Ok (fst r)
  end.
(** qfinder.py:253-260: the lengths in ascending order. *)
Definition q_lengths (l : list qentry) : list nat := sort_by Nat.ltb (nodup Nat.eq_dec (map (fun e => length (fst e)) l)).
(** qfinder.py:246-286, _select_top_k. *)
Definition q_select (c : qconfig) (ranked : list qentry) : res (list qentry) :=
  fold_res (fun top k => q_group c top (filter (fun e => length (fst e) =? k) ranked)) (q_lengths ranked) [].

(** * fit *)
(** The attributes after a fit: _candidate_patterns, _credibility_values, _top_patterns (what a fit that raises an exception leaves is
    not modelled). *)
Record qstate := QState { qs_candidates : list pattern; qs_cred : list (string * qcred); qs_top : list pattern }.
Definition with_cred (d : list (string * qcred)) (ps : list pattern) : res (list qentry) :=
  map_res (fun p => do r <- assoc d (pattern_str p); Ok (p, r)) ps.
(** qfinder.py:288-313, fit (without the file).  The target is (column, str value). *)
Definition qfinder_fit (c : qconfig) (df : dataframe) (tcol tval : string) : res qstate :=
  if negb (all_nominal df) then Err DatasetAttributeTypeError
  else
    do target <- target_mask df tcol (VStr tval);
    do bits <- generate_bitset df tcol (q_candidates c df tcol);
    do ps <- non_empty_patterns bits;
    do cred <- q_measures c (df_n df) target bits;
    do es <- with_cred cred ps;
    do top <- q_select c (q_ranked c es);
    Ok (QState ps cred (map fst top)).
(** qfinder.py:112-119. *)
Definition q_selected (st : qstate) : Z := Z.of_nat (length (qs_top st)).
Definition q_unselected (st : qstate) : Z := (Z.of_nat (length (qs_candidates st)) - Z.of_nat (length (qs_top st)))%Z.
Definition q_visited (st : qstate) : Z := Z.of_nat (length (qs_candidates st)).
(** qfinder.py:315-342, test_subgroups (without the file). *)
Definition q_test (c : qconfig) (st : qstate) (df : dataframe) (tcol tval : string) : res (list (string * qcred)) :=
  do target <- target_mask df tcol (VStr tval);
  do bits <- generate_bitset df tcol (qs_top st);
  q_measures c (df_n df) target bits.
(** qfinder.py:344-357, _to_file: one line per pattern, with its values. *)
Definition q_lines (tcol tval : string) (st : qstate) (d : list (string * qcred)) : res (list (subgroup * qcred)) :=
  map_res (fun p => do r <- assoc d (pattern_str p); Ok (SG p (Sel tcol EQUAL (VStr tval)), r)) (qs_top st).
