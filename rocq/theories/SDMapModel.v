(** Model of /repo/src/subgroups/algorithms/subgroup_sets/sdmap.py and sdmapstar.py.
    The quality measure is a parameter: any function of (tp, fp, TP, FP) that returns a value
    or raises, and the comparison with the minimum is any boolean test; so the theorems cover
    every measure, floats and NaN included.  The output file is the list of the written lines,
    kept as records (subgroup, quality, tp, fp, TP, FP) instead of text. *)
From Verif Require Export FPTreeModel.
Open Scope string_scope.
Open Scope list_scope.
Open Scope Z_scope.

(** sdmap.py:24-33 *)
Fixpoint generate_all_combinations {A} (l : list A) : list (list A) :=
  match l with
  | [] => [[]]
  | x :: l' => let r := generate_all_combinations l' in r ++ map (cons x) r
  end.
(** [l.remove([])]: deletes the first empty list; ValueError when absent. *)
Fixpoint remove_empty {A} (l : list (list A)) : res (list (list A)) :=
  match l with
  | [] => Err ValueError
  | [] :: l' => Ok l'
  | x :: l' => do r <- remove_empty l'; Ok (x :: r)
  end.
(** sdmap.py:209-215: first selector of the sorted header table that is in [beta];
    IndexError past the end. *)
Fixpoint most_unfrequent (sorted beta : list selector) : res selector :=
  match sorted with
  | [] => Err IndexError
  | s :: l => if existsb (fun b => sel_eq b s) beta then Ok s else most_unfrequent l beta
  end.

(** A line of the output file, sdmap.py:172-179. *)
Record record (V : Type) := Rec {
  r_subgroup : subgroup; r_quality : V; r_tp : Z; r_fp : Z; r_TP : Z; r_FP : Z }.
Arguments Rec {V}. Arguments r_subgroup {V}. Arguments r_quality {V}. Arguments r_tp {V}.
Arguments r_fp {V}. Arguments r_TP {V}. Arguments r_FP {V}.

(** sdmap.py:95-108: the attributes set by the constructor and never changed.
    [c_measure tp fp TP FP] is lines 161-163, [c_reaches q] is [q >= minimum] (165);
    [c_write] is [self._file_path is not None]. *)
Record sd_config (V : Type) := SDC {
  c_measure : Z -> Z -> Z -> Z -> res V; c_reaches : V -> bool;
  c_min_tp : option Z; c_min_fp : option Z; c_min_n : option Z; c_write : bool }.
Arguments SDC {V}. Arguments c_measure {V}. Arguments c_reaches {V}. Arguments c_min_tp {V}.
Arguments c_min_fp {V}. Arguments c_min_n {V}. Arguments c_write {V}.
(** The attributes that change, and the content of the output file ([None]: the file has not
    been created). *)
Record sd_state (V : Type) := SDS { st_selected : nat; st_unselected : nat; st_file : option (list (record V)) }.
Arguments SDS {V}. Arguments st_selected {V}. Arguments st_unselected {V}. Arguments st_file {V}.

(** sdmap.py:143-144, the property visited_nodes. *)
Definition visited_nodes {V} (st : sd_state V) : nat := st_unselected st + st_selected st.
(** sdmap.py:92-110: the constructor. *)
Definition sdmap_new {V} (c : sd_config V) : res (sd_state V) :=
  do _ <- thresholds (c_min_tp c) (c_min_fp c) (c_min_n c); Ok (SDS 0 0 None).

Definition append_line {V} (r : record V) (f : option (list (record V))) : option (list (record V)) :=
  match f with Some l => Some (l ++ [r]) | None => None end.
(** sdmap.py:150-183, _handle_individual_result *)
Definition handle_individual_result {V} (c : sd_config V) (tsel : selector) (TP FP : Z)
  (st : sd_state V) (v : pattern * (Z * Z)) : res (sd_state V) :=
  let '(p, (tp, fp)) := v in
  do q <- c_measure c tp fp TP FP;
  Ok (if c_reaches c q
      then SDS (S (st_selected st)) (st_unselected st)
               (if c_write c then append_line (Rec (SG p tsel) q tp fp TP FP) (st_file st) else st_file st)
      else SDS (st_selected st) (S (st_unselected st)) (st_file st)).

(** sdmap.py:201-219: the combinations of a single path.  [visit] handles one result. *)
Definition single_path_visit {S} (visit : S -> pattern * (Z * Z) -> res S) (t : fptree) (alpha : list selector)
  (st : S) (beta : list selector) : res S :=
  do s <- most_unfrequent (t_sorted t) beta;
  match sel_assoc s (t_header t) with
  | None => Err KeyError
  | Some e => visit st (pattern_init (beta ++ alpha), (he_tp e, he_fp e))
  end.
(** sdmap.py:185-241, _fpgrowth; [alpha] is [] for None.  The recursion depth is bounded by
    the number of selectors of the tree (fuel). *)
Fixpoint fpgrowth {V} (c : sd_config V) (tsel : selector) (TP FP : Z) (fuel : nat)
  (t : fptree) (alpha : list selector) (st : sd_state V) {struct fuel} : res (sd_state V) :=
  match fuel with
  | O => Err OutOfFuel
  | S f =>
      do single <- there_is_a_single_path t;
      if single then
        do combos <- remove_empty (generate_all_combinations (t_sorted t));
        fold_res (single_path_visit (handle_individual_result c tsel TP FP) t alpha) combos st
      else
        fold_res (fun st ai =>
          match sel_assoc ai (t_header t) with
          | None => Err KeyError
          | Some e =>
              do st <- handle_individual_result c tsel TP FP st (pattern_init (ai :: alpha), (he_tp e, he_fp e));
              do ct <- generate_conditional_fp_tree t (ai :: alpha) (c_min_tp c) (c_min_fp c) (c_min_n c);
              if is_empty ct then Ok st else fpgrowth c tsel TP FP f ct (ai :: alpha) st
          end) (t_sorted t) st
  end.

(** sdmap.py:253-256: only str columns. *)
Definition all_nominal (df : dataframe) : bool :=
  forallb (fun c => forallb is_str (snd c)) (df_cols df).
(** sdmap.py:266-267: TP and FP *)
Definition population (df : dataframe) (mask : list bool) : Z * Z :=
  let TP := Z.of_nat (length (filter (fun b => b) mask)) in
  (TP, Z.of_nat (df_n df) - TP).
(** sdmap.py:243-274, fit.  The target is (column, str value). *)
Definition sdmap_fit {V} (c : sd_config V) (st : sd_state V) (df : dataframe) (tcol tval : string) : res (sd_state V) :=
  if negb (all_nominal df) then Err DatasetAttributeTypeError else
  do d <- generate_set_of_frequent_selectors df tcol (VStr tval) (c_min_tp c) (c_min_fp c) (c_min_n c);
  do t <- build_tree empty_tree df d tcol (VStr tval);
  if is_empty t then Ok st else
  do mask <- target_mask df tcol (VStr tval);
  let '(TP, FP) := population df mask in
  let st := if c_write c then SDS (st_selected st) (st_unselected st) (Some []) else st in
  fpgrowth c (Sel tcol EQUAL (VStr tval)) TP FP (S (length (t_header t))) t [] st.
