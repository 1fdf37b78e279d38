(** Model of /repo/src/subgroups/algorithms/subgroup_sets/sdmapstar.py (the FP-tree operations
    are in FPTreeModel.v, the helpers shared with sdmap.py in SDMapModel.v). *)
From Verif Require Export SDMapModel.
Open Scope string_scope.
Open Scope list_scope.
Open Scope Z_scope.

(** sdmapstar.py:101-119: the attributes that never change.  [sc_base] are those of SDMap;
    [sc_oe] is the optimistic estimate and [sc_kquality] the quality measure, both with the
    additional parameters of the optimistic estimate (lines 259-261, 340-342); [sc_lt] and
    [sc_eq] are [<] and [==] between quality values. *)
Record star_config (V : Type) := StarC {
  sc_base : sd_config V; sc_oe : Z -> Z -> Z -> Z -> res V; sc_kquality : Z -> Z -> Z -> Z -> res V;
  sc_lt : V -> V -> bool; sc_eq : V -> V -> bool; sc_num : Z }.
Arguments StarC {V}. Arguments sc_base {V}. Arguments sc_oe {V}. Arguments sc_kquality {V}.
Arguments sc_lt {V}. Arguments sc_eq {V}. Arguments sc_num {V}.
(** The attributes that change. *)
Record star_state (V : Type) := StarS {
  ss_base : sd_state V; ss_k : list V; ss_pruned : nat; ss_cpruned : nat }.
Arguments StarS {V}. Arguments ss_base {V}. Arguments ss_k {V}. Arguments ss_pruned {V}. Arguments ss_cpruned {V}.
(** sdmapstar.py:98-126, the constructor (the argument checks of lines 74-97 are typing). *)
Definition star_new {V} (c : star_config V) : res (star_state V) :=
  do st <- sdmap_new (sc_base c); Ok (StarS st [] 0 0).

Section Star.
  Context {V : Type}.
  Variable c : star_config V.
  Variable tsel : selector.
  Variables TP FP : Z.
  (** sdmapstar.py:326-350, _updateKSubgroups *)
  Definition update_k (st : star_state V) (tp fp : Z) : res (star_state V) :=
    do q <- sc_kquality c tp fp TP FP;
    if Z.of_nat (length (ss_k st)) <? sc_num c
    then Ok (StarS (ss_base st) (sort_by (sc_lt c) (ss_k st ++ [q])) (ss_pruned st) (ss_cpruned st))
    else match ss_k st with
         | [] => Err IndexError
         | w :: k => Ok (if sc_lt c w q then StarS (ss_base st) (sort_by (sc_lt c) (q :: k)) (ss_pruned st) (ss_cpruned st) else st)
         end.
  (** [self.k_subgroups[0]] *)
  Definition worst_k (st : star_state V) : res V :=
    match ss_k st with [] => Err IndexError | w :: _ => Ok w end.
  (** sdmapstar.py:186-219, _handle_individual_result (the text of SDMap's method). *)
  Definition star_handle (st : star_state V) (v : pattern * (Z * Z)) : res (star_state V) :=
    do b <- handle_individual_result (sc_base c) tsel TP FP (ss_base st) v;
    Ok (StarS b (ss_k st) (ss_pruned st) (ss_cpruned st)).
  (** sdmapstar.py:255-267 and 297-313: update, prune or handle.  The boolean says that the
      result was handled. *)
  Definition star_visit (st : star_state V) (v : pattern * (Z * Z)) : res (bool * star_state V) :=
    if 0 <? sc_num c then
      let '(p, (tp, fp)) := v in
      do st <- update_k st tp fp;
      do oe <- sc_oe c tp fp TP FP;
      do w <- worst_k st;
      if sc_lt c oe w then Ok (false, StarS (ss_base st) (ss_k st) (S (ss_pruned st)) (ss_cpruned st))
      else do st <- star_handle st v; Ok (true, st)
    else do st <- star_handle st v; Ok (true, st).
  (** sdmapstar.py:282: tuples (estimate, selector) compared lexicographically. *)
  Definition pair_lt (x y : V * selector) : bool :=
    if sc_eq c (fst x) (fst y) then sel_lt (snd x) (snd y) else sc_lt c (fst x) (fst y).
  (** sdmapstar.py:269-285: the order in which the selectors are visited. *)
  Definition star_order (t : fptree) : res (list selector) :=
    if 0 <? sc_num c then
      do l <- map_res (fun se => do oe <- sc_oe c (he_tp (snd se)) (he_fp (snd se)) TP FP; Ok (oe, fst se)) (t_header t);
      Ok (map snd (sort_by (fun x y => pair_lt y x) l))
    else Ok (map fst (t_header t)).
  (** sdmapstar.py:315-321: the conditional tree, and the number of pruned branches added. *)
  Definition star_conditional (st : star_state V) (t : fptree) (beta : list selector) : res (fptree * star_state V) :=
    let b := sc_base c in
    if 0 <? sc_num c then
      do w <- worst_k st;
      do r <- generate_conditional_fp_tree_star t beta (fun tp fp => do oe <- sc_oe c tp fp TP FP; Ok (sc_lt c oe w))
                (c_min_tp b) (c_min_fp b) (c_min_n b);
      Ok (fst r, StarS (ss_base st) (ss_k st) (ss_pruned st) (ss_cpruned st + snd r))
    else do ct <- generate_conditional_fp_tree t beta (c_min_tp b) (c_min_fp b) (c_min_n b); Ok (ct, st).
  (** sdmapstar.py:221-324, _fpgrowth *)
  Fixpoint star_fpgrowth (fuel : nat) (t : fptree) (alpha : list selector) (st : star_state V) {struct fuel} : res (star_state V) :=
    match fuel with
    | O => Err OutOfFuel
    | S f =>
        do single <- there_is_a_single_path t;
        if single then
          do combos <- remove_empty (generate_all_combinations (t_sorted t));
          fold_res (single_path_visit (fun st v => do r <- star_visit st v; Ok (snd r)) t alpha) combos st
        else
          do order <- star_order t;
          fold_res (fun st ai =>
            match sel_assoc ai (t_header t) with
            | None => Err KeyError
            | Some e =>
                do r <- star_visit st (pattern_init (ai :: alpha), (he_tp e, he_fp e));
                let '(handled, st) := r in
                if handled then
                  do cs <- star_conditional st t (ai :: alpha);
                  let '(ct, st) := cs in
                  if is_empty ct then Ok st else star_fpgrowth f ct (ai :: alpha) st
                else Ok st
            end) order st
    end.
End Star.

(** sdmapstar.py:352-383, fit *)
Definition star_fit {V} (c : star_config V) (st : star_state V) (df : dataframe) (tcol tval : string) : res (star_state V) :=
  let b := sc_base c in
  if negb (all_nominal df) then Err DatasetAttributeTypeError else
  do mask <- target_mask df tcol (VStr tval);
  let '(TP, FP) := population df mask in
  do d <- generate_set_of_frequent_selectors df tcol (VStr tval) (c_min_tp b) (c_min_fp b) (c_min_n b);
  do t <- build_tree empty_tree df d tcol (VStr tval);
  if is_empty t then Ok st else
  let st := if c_write b then StarS (SDS (st_selected (ss_base st)) (st_unselected (ss_base st)) (Some []))
                                    (ss_k st) (ss_pruned st) (ss_cpruned st) else st in
  star_fpgrowth c (Sel tcol EQUAL (VStr tval)) TP FP (S (length (t_header t))) t [] st.
