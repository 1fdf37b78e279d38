(** DataFrames with arbitrary row labels (a pandas Index), where CoreModel.v and FPTreeModel.v assume 0, 1, ..., n-1: the rows left
    by a filter or a train/test split keep their old labels, and [pd.concat] repeats them.  pandas aligns two Series by label. *)
From Verif Require Export CoreModel FPTreeModel SDMapModel SDMapStarModel.
Open Scope string_scope.
Open Scope list_scope.

Inductive label := LInt (z : Z) | LStr (s : string).
Definition label_eqb (x y : label) : bool :=
  match x, y with LInt a, LInt b => (a =? b)%Z | LStr a, LStr b => String.eqb a b | _, _ => false end.
(** The label of position [i] in a default (Range) index. *)
Definition default_label (i : nat) : label := LInt (Z.of_nat i).
Record ldataframe := LDF { lf_index : list label; lf_cols : list (string * list value) }.
(** The same columns with the default index. *)
Definition plain (df : ldataframe) : dataframe := DF (length (lf_index df)) (lf_cols df).
(** A boolean Series. *)
Definition lseries := list (label * bool).
Definition labels_of (s : lseries) : list label := map fst s.
Definition value_at (s : lseries) (x : label) : bool := existsb (fun e => label_eqb (fst e) x && snd e) s.
Definition memb (x : label) (l : list label) : bool := existsb (label_eqb x) l.
Fixpoint index_equals (a b : list label) : bool :=
  match a, b with [], [] => true | x :: a', y :: b' => label_eqb x y && index_equals a' b' | _, _ => false end.
(** [Series([True] * n)], pattern.py:100, dataframe_filters.py:23 *)
Definition default_series (n : nat) : lseries := map (fun i => (default_label i, true)) (seq 0 n).

Section Alignment.
(** The order in which pandas puts the labels of the union of two indexes (it sorts them when it can): any order. *)
Context (arrange : list label -> list label).
(** [a & b]: by position when the two indexes are equal; otherwise both are aligned to the union of the labels and a label missing
    on one side counts as False (pandas: nan, then filled with False).  Modelled for indexes without repeated labels. *)
Definition aligned_and (a b : lseries) : lseries :=
  if index_equals (labels_of a) (labels_of b) then combine (labels_of a) (series_and (map snd a) (map snd b))
  else map (fun x => (x, value_at a x && value_at b x))
           (arrange (labels_of a ++ filter (fun x => negb (memb x (labels_of a))) (labels_of b))).
(** pattern.py:103-109, dataframe_filters.py:26-32: the common loop. *)
Fixpoint aligned_loop (df : ldataframe) (acc : lseries) (l : list selector) : res lseries :=
  if any_true (map snd acc) then
    match l with
    | [] => Ok acc
    | s :: l' =>
        do col <- df_col (plain df) (s_attr s);
        do m <- op_evaluate_series (s_op s) col (s_val s);
        aligned_loop df (aligned_and acc (combine (lf_index df) m)) l'
    end
  else Ok acc.
(** pattern.py:92-110, [is_contained]. *)
Definition is_contained_labels (p : pattern) (df : ldataframe) : res lseries :=
  aligned_loop df (default_series (length (lf_index df))) p.
(** [df[key]], dataframe_filters.py:33: by position when the indexes are equal, otherwise the key is reindexed by the labels of the
    DataFrame; IndexingError when one of them is not in the key.  Without rows: see [df_getitem] in CoreModel.v. *)
Definition getitem_labels (df : ldataframe) (key : lseries) : res ldataframe :=
  match lf_index df with
  | [] => Ok (LDF [] [])
  | _ :: _ =>
      do m <- (if index_equals (labels_of key) (lf_index df) then Ok (map snd key)
               else if forallb (fun x => memb x (labels_of key)) (lf_index df) then Ok (map (value_at key) (lf_index df))
               else Err IndexingError);
      Ok (LDF (mask_list m (lf_index df)) (map (fun c => (fst c, mask_list m (snd c))) (lf_cols df)))
  end.
(** utils/dataframe_filters.py:12-33. *)
Definition filter_labels (df : ldataframe) (l : list selector) : res ldataframe :=
  do key <- aligned_loop df (default_series (length (lf_index df))) l; getitem_labels df key.
(** subgroup.py:47-72, [filter]. *)
Definition subgroup_filter_labels (g : subgroup) (df : ldataframe) : res (lseries * lseries * lseries) :=
  do rest <- df_drop (plain df) (s_attr (g_target g));
  do tcol <- df_col (plain df) (s_attr (g_target g));
  do d <- is_contained_labels (g_desc g) (LDF (lf_index df) (df_cols rest));
  do t <- op_evaluate_series (s_op (g_target g)) tcol (s_val (g_target g));
  Ok (aligned_and d (combine (lf_index df) t), aligned_and d (combine (lf_index df) (map negb t)), combine (lf_index df) t).
End Alignment.

(** * The FP-trees *)
(** fp_tree_for_sdmap.py:242-254.  [df.loc[row, column]] is a cell when the label is the label of one row.  When several rows have it,
    it is a Series, and the text [column + repr(Series)] (it ends with the dtype, not with a quote) is no key of the dictionary: the
    row gets no selector. *)
Definition occurrences (x : label) (l : list label) : nat := length (filter (label_eqb x) l).
Definition label_row_selectors (d : fdict) (df : ldataframe) (tcol : string) (i : nat) : list selector :=
  match nth_error (lf_index df) i with
  | Some x => if Nat.eqb (occurrences x (lf_index df)) 1 then row_selectors d (other_columns (plain df) tcol) i else []
  | None => []
  end.
(** fp_tree_for_sdmap.py:228-269, [build_tree] (with an empty list of selectors, [_insert_tree] does not look at the target). *)
Definition build_tree_labels (t : fptree) (df : ldataframe) (d : fdict) (tcol : string) (tval : value) : res fptree :=
  do mask <- target_mask (plain df) tcol tval;
  do t <- fold_res (fun t i => insert_tree t (sort_transaction d (label_row_selectors d df tcol i)) (nth i mask false))
                   (seq 0 (length (lf_index df))) t;
  Ok (finish_header t).
(** sdmap.py:236-272, [fit]: the frequent selectors come from [groupby] of two columns with the same index, TP and FP from a
    column, all by position. *)
Definition sdmap_fit_labels {V} (c : sd_config V) (st : sd_state V) (df : ldataframe) (tcol tval : string) : res (sd_state V) :=
  if negb (all_nominal (plain df)) then Err DatasetAttributeTypeError else
  do d <- generate_set_of_frequent_selectors (plain df) tcol (VStr tval) (c_min_tp c) (c_min_fp c) (c_min_n c);
  do t <- build_tree_labels empty_tree df d tcol (VStr tval);
  if is_empty t then Ok st else
  do mask <- target_mask (plain df) tcol (VStr tval);
  let '(TP, FP) := population (plain df) mask in
  let st := if c_write c then SDS (st_selected st) (st_unselected st) (Some []) else st in
  fpgrowth c (Sel tcol EQUAL (VStr tval)) TP FP (S (length (t_header t))) t [] st.
(** sdmapstar.py:352-383, [fit]. *)
Definition star_fit_labels {V} (c : star_config V) (st : star_state V) (df : ldataframe) (tcol tval : string) : res (star_state V) :=
  let b := sc_base c in
  if negb (all_nominal (plain df)) then Err DatasetAttributeTypeError else
  do mask <- target_mask (plain df) tcol (VStr tval);
  let '(TP, FP) := population (plain df) mask in
  do d <- generate_set_of_frequent_selectors (plain df) tcol (VStr tval) (c_min_tp b) (c_min_fp b) (c_min_n b);
  do t <- build_tree_labels empty_tree df d tcol (VStr tval);
  if is_empty t then Ok st else
  let st := if c_write b then StarS (SDS (st_selected (ss_base st)) (st_unselected (ss_base st)) (Some []))
                                    (ss_k st) (ss_pruned st) (ss_cpruned st) else st in
  star_fpgrowth c (Sel tcol EQUAL (VStr tval)) TP FP (S (length (t_header t))) t [] st.
