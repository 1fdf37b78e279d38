(** Model of algorithms/subgroup_sets/idsd.py: iterative-deepening search for the top-k subgroups. *)
From Verif Require Export CredModel FPTreeModel SDMapModel.
From Coq Require Import QArith.
Open Scope string_scope.
Open Scope list_scope.
Open Scope nat_scope.

(** idsd.py:50-119: the parameters.  [ic_max]: -1 for the number of columns without the target; [ic_cats]: -1 for all the values.
    [ic_pvalue]: PValueIndependence on numpy integers (nan instead of ZeroDivisionError), any function here.
    [ic_hash]: Python's hash of strings. *)
Record idsd_config := IdsdConfig { ic_num : nat; ic_cats : Z; ic_max : Z; ic_cov : Q; ic_or : Q; ic_p : Q; ic_abs : Q; ic_ratio : Q;
                                   ic_pvalue : Z -> Z -> Z -> Z -> xnum; ic_hash : string -> Z }.
(** idsd.py:72-85 (the checks of values; [cats] and [max_complexity] as integers). *)
Definition idsd_config_ok (c : idsd_config) : bool :=
  (1 <=? ic_num c) && negb ((ic_cats c <? -1) || (ic_cats c =? 0))%Z && (Qle_bool 0 (ic_cov c) && Qle_bool (ic_cov c) 1) && Qle_bool 0 (ic_or c)
  && (Qle_bool 0 (ic_p c) && Qle_bool (ic_p c) 1) && Qle_bool 0 (ic_abs c) && Qle_bool 0 (ic_ratio c).
(** idsd.py:223-229: the dictionary of credibility values. *)
Record icred := Cred { cr_cov : xnum; cr_or : xnum; cr_p : xnum; cr_abs : xnum; cr_ratio : xnum }.
(** idsd.py:316: an entry of the list of the best subgroups (its odds ratio is [cr_or]). *)
Record ientry := IEntry { ie_pattern : pattern; ie_rank : nat; ie_cred : icred }.
(** The attributes that change; [is_app]: the dictionary _selector_appearances, never emptied. *)
Record istate := IState { is_top : list ientry; is_visited : Z; is_nonunique : Z; is_pruned : Z; is_app : list (selector * list bool) }.
(** idsd.py:90-94, 103, 114. *)
Definition idsd_new : istate := IState [] 0 0 0 [].

(** idsd.py:255-268, _compute_rank. *)
Fixpoint compute_rank (l : list bool) : nat :=
  match l with
  | true :: l' => S (compute_rank l')
  | _ => 0
  end.
(** idsd.py:270-278, _redundant. *)
Definition redundant (h : string -> Z) (p q : pattern) : bool := pattern_is_refinement h p q true || pattern_is_refinement h q p true.
(** Python's [(x[1], x[2]) < (y[1], y[2])]. *)
Definition key_lt (x y : nat * xnum) : bool := (fst x <? fst y) || ((fst x =? fst y) && xlt (snd x) (snd y)).
Definition ie_key (e : ientry) : nat * xnum := (ie_rank e, cr_or (ie_cred e)).
(** idsd.py:280-321, _top_k_update.  [list.remove(s)] removes the first entry == s, which is s itself because the patterns of the list are
    different (theorem C44_distinct): here all the entries to be removed are filtered out.  [sort(reverse=True)] keeps the order of entries
    with the same key. *)
Definition top_k_update (c : idsd_config) (top : list ientry) (e : ientry) : list ientry :=
  let worse_than_last :=
    match rev top with
    | [] => false
    | last :: _ => (length top =? ic_num c) && key_lt (ie_key e) (ie_key last)
    end in
  if worse_than_last then top
  else
    let red := fun s => redundant (ic_hash c) (ie_pattern s) (ie_pattern e) in
    let better := fun s => key_lt (ie_key s) (ie_key e) in
    let removed := existsb (fun s => red s && better s) top in
    let redundant_with := existsb (fun s => red s && negb (better s)) top in
    let kept := filter (fun s => negb (red s && better s)) top in
    if removed || negb redundant_with then
      let l := sort_by (fun x y => key_lt (ie_key y) (ie_key x)) (kept ++ [e]) in
      if ic_num c <? length l then removelast l else l
    else kept.

(** What a fit knows about the dataset. *)
Record ienv := IEnv { en_target : list bool; en_TP : Z; en_FP : Z; en_app : list (selector * list bool) }.
Fixpoint app_get (d : list (selector * list bool)) (s : selector) : option (list bool) :=
  match d with
  | [] => None
  | (k, a) :: d' => if sel_eq k s then Some a else app_get d' s
  end.
Fixpoint app_set (d : list (selector * list bool)) (s : selector) (a : list bool) : list (selector * list bool) :=
  match d with
  | [] => [(s, a)]
  | (k, b) :: d' => if sel_eq k s then (k, a) :: d' else (k, b) :: app_set d' s a
  end.
Definition appearance (d : list (selector * list bool)) (s : selector) : res (list bool) :=
  match app_get d s with Some a => Ok a | None => Err KeyError end.
(** selector_contribution.py:78: the index of the first series of the dictionary (a range of that length). *)
Definition first_index (d : list (selector * list bool)) : nat := match d with [] => 0 | (_, a) :: _ => length a end.
Definition coverage_value (n N : Z) : res Q := zdiv (inject_Z n) (inject_Z N).
(** idsd.py:203-253, _handle_individual_result: the credibility values (computed until one of them fails). *)
Definition idsd_cred (c : idsd_config) (v : ienv) (p : pattern) (app : list bool) : res icred :=
  let tp := zcount (series_and (en_target v) app) in
  let fp := (zcount app - tp)%Z in
  do cov <- coverage_value (tp + fp) (en_TP v + en_FP v);
  let c1 := Cred (XFin cov) XNegInf XPosInf XNegInf XPosInf in
  if negb (xle (XFin (ic_cov c)) (XFin cov)) then Ok c1
  else
    do o <- odds_ratio_table tp fp (en_TP v) (en_FP v);
    let c2 := Cred (XFin cov) o XPosInf XNegInf XPosInf in
    if negb (xle (XFin (ic_or c)) o) then Ok c2
    else
      let pv := ic_pvalue c tp fp (en_TP v) (en_FP v) in
      let c3 := Cred (XFin cov) o pv XNegInf XPosInf in
      if negb (xle pv (XFin (ic_p c))) then Ok c3
      else
        do r <- selector_contribution (statistic_odds (appearance (en_app v)) (en_target v) (first_index (en_app v))) None p;
        Ok (Cred (XFin cov) o pv (fst r) (snd r)).
Definition idsd_rank (c : idsd_config) (r : icred) : nat :=
  compute_rank [xle (XFin (ic_cov c)) (cr_cov r); xle (XFin (ic_or c)) (cr_or r); xle (cr_p r) (XFin (ic_p c));
                xle (XFin (ic_abs c)) (cr_abs r); xle (cr_ratio r) (XFin (ic_ratio c))].
Definition idsd_entry (c : idsd_config) (v : ienv) (p : pattern) (app : list bool) : res ientry :=
  do r <- idsd_cred c v p app; Ok (IEntry p (idsd_rank c r) r).

(** idsd.py:334-364: the part of _grow_tree before the loop; the boolean tells whether the loop is reached. *)
Definition visit_node (c : idsd_config) (v : ienv) (complexity : nat) (p : pattern) (app : list bool) (st : istate) : res (istate * bool) :=
  let st := IState (is_top st) (if length p =? complexity then (is_visited st + 1)%Z else is_visited st) (is_nonunique st + 1)%Z (is_pruned st) (is_app st) in
  do cov <- coverage_value (zcount app) (en_TP v + en_FP v);
  let prune := IState (is_top st) (is_visited st) (is_nonunique st)
                      (if (Z.of_nat complexity =? ic_max c)%Z then (is_pruned st + 1)%Z else is_pruned st) (is_app st) in
  if Qeq_bool cov 0 then Ok (prune, false)
  else if match rev (is_top st) with
          | [] => false
          | last :: _ => (length (is_top st) =? ic_num c) && (0 <? ie_rank last) && negb (Qle_bool (ic_cov c) cov)
          end then Ok (prune, false)
  else if length p =? complexity then
    do e <- idsd_entry c v p app;
    Ok (IState (top_k_update c (is_top st) e) (is_visited st) (is_nonunique st) (is_pruned st) (is_app st), false)
  else Ok (st, true).
(** idsd.py:365-373: the loop over the selectors, with the recursive call inside. *)
Fixpoint grow_children (c : idsd_config) (v : ienv) (complexity : nat) (sels : list selector) (p : pattern) (app : list bool) (st : istate) : res istate :=
  match sels with
  | [] => Ok st
  | s :: rest =>
      let p' := add_selector (pattern_copy p) s in
      do a <- appearance (en_app v) s;
      let app' := series_and app a in
      do r <- visit_node c v complexity p' app' st;
      do st' <- if snd r then grow_children c v complexity rest p' app' (fst r) else Ok (fst r);
      grow_children c v complexity rest p app st'
  end.
(** idsd.py:323-373, _grow_tree. *)
Definition grow_tree (c : idsd_config) (v : ienv) (complexity : nat) (sels : list selector) (p : pattern) (app : list bool) (st : istate) : res istate :=
  do r <- visit_node c v complexity p app st;
  if snd r then grow_children c v complexity sels p app (fst r) else Ok (fst r).

(** idsd.py:148-180, _reduce_categories. *)
(** [value_counts()]: the values by descending frequency, in order of appearance among ties. *)
Definition value_count (col : list value) (x : value) : nat := length (filter (fun y => py_eq y x) col).
Definition value_counts (col : list value) : list value := sort_by (fun x y => value_count col y <? value_count col x) (distinct_values col).
(** [value_counts.nsmallest(k).index]: the k least frequent values, the first ones of [value_counts] among ties. *)
Definition nsmallest (k : nat) (col : list value) : list value := firstn k (sort_by (fun x y => value_count col x <? value_count col y) (value_counts col)).
(** idsd.py:173-175; the number of iterations is bounded by the number of values (theorem C59_fresh_other). *)
Fixpoint other_name (fuel : nat) (l : list value) (s : string) : string :=
  match fuel with
  | O => s
  | S f => if existsb (fun x => py_eq x (VStr s)) l then other_name f l (s ++ "_")%string else s
  end.
(** idsd.py:163-179: one column. *)
Definition reduce_column (cats : Z) (col : list value) : list value :=
  let n := length (distinct_values col) in
  if (Z.of_nat n <=? cats)%Z then col
  else
    let other := VStr (other_name (S n) (distinct_values col) "other") in
    let others := nsmallest (Z.to_nat (Z.of_nat n - cats + 1)) col in
    map (fun x => if existsb (fun y => py_eq y x) others then other else x) col.
Definition reduce_categories (cats : Z) (df : dataframe) (tcol : string) : dataframe :=
  if (cats =? -1)%Z then df
  else DF (df_n df) (map (fun ac => if String.eqb (fst ac) tcol then ac else (fst ac, reduce_column cats (snd ac))) (df_cols df)).

(** idsd.py:182-201, _generate_selectors: the selectors and the dictionary of appearances. *)
Definition idsd_selectors (df : dataframe) (tcol : string) : list selector :=
  flat_map (fun ac => map (fun x => Sel (fst ac) EQUAL x) (distinct_values (snd ac))) (other_columns df tcol).
Definition idsd_appearances (df : dataframe) (tcol : string) (d : list (selector * list bool)) : list (selector * list bool) :=
  fold_left (fun d ac => fold_left (fun d x => app_set d (Sel (fst ac) EQUAL x) (map (fun y => py_eq y x) (snd ac))) (distinct_values (snd ac)) d)
            (other_columns df tcol) d.
(** idsd.py:375-412, fit.  The target is (column, str value). *)
Definition idsd_fit (c : idsd_config) (st : istate) (df : dataframe) (tcol tval : string) : res istate :=
  if negb (all_nominal df) then Err DatasetAttributeTypeError
  else
    match col_get (df_cols df) tcol with
    | None => Err ValueError
    | Some col =>
        if negb (existsb (fun x => py_eq x (VStr tval)) col) then Err ValueError
        else
          do mask <- target_mask df tcol (VStr tval);
          let TP := fst (population df mask) in
          let FP := snd (population df mask) in
          let df' := reduce_categories (ic_cats c) df tcol in
          let d := idsd_appearances df' tcol (is_app st) in
          let v := IEnv mask TP FP d in
          let max := if (ic_max c =? -1)%Z then length (df_cols df') - 1 else Z.to_nat (ic_max c) in
          fold_res (fun st complexity => grow_tree c v complexity (idsd_selectors df' tcol) (pattern_init []) (repeat true (df_n df)) st)
                   (seq 1 max) (IState [] (is_visited st) (is_nonunique st) (is_pruned st) d)
    end.
(** idsd.py:122-145: the properties ([non_unique_visited_subgroups] reads the attribute 'value' of an int). *)
Definition idsd_selected (st : istate) : Z := Z.of_nat (length (is_top st)).
Definition idsd_unselected (st : istate) : Z := (is_visited st - Z.of_nat (length (is_top st)))%Z.
Definition idsd_non_unique_visited (st : istate) : res Z := Err AttributeError.
(** idsd.py:417-430, _to_file: a line is the subgroup, the rank and the five values. *)
Definition idsd_lines (tcol tval : string) (st : istate) : list (subgroup * nat * icred) :=
  map (fun e => (SG (ie_pattern e) (Sel tcol EQUAL (VStr tval)), ie_rank e, ie_cred e)) (is_top st).
