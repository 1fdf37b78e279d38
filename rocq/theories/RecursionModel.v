(** The searches as they run when only [limit] nested calls of the recursive functions fit on the interpreter's stack
    ([sys.getrecursionlimit()] less the calls already open and the calls of the functions that do not recurse): one more call raises
    RecursionError, here [Err OutOfFuel], the one way in which these functions end so.  The texts are those of SDMapModel.v,
    SDMapStarModel.v, VLSDModel.v, BSDModel.v and IDSDModel.v, where the depth is not limited. *)
From Verif Require Export SDMapStarModel VLSDModel BSDModel IDSDModel.
Open Scope string_scope.
Open Scope list_scope.
Open Scope nat_scope.

(** sdmap.py:23-33 and sdmapstar.py:22-32, _generate_all_combinations: one call for each selector and one for the empty list. *)
Fixpoint combinations_within {A} (limit : nat) (l : list A) : res (list (list A)) :=
  match limit with
  | O => Err OutOfFuel
  | S n => match l with
           | [] => Ok [[]]
           | x :: l' => do r <- combinations_within n l'; Ok (r ++ map (cons x) r)
           end
  end.

(** sdmap.py:185-241, _fpgrowth *)
Fixpoint fpgrowth_within {V} (c : sd_config V) (tsel : selector) (TP FP : Z) (limit : nat) (t : fptree) (alpha : list selector) (st : sd_state V) {struct limit} : res (sd_state V) :=
  match limit with
  | O => Err OutOfFuel
  | S n =>
      do single <- there_is_a_single_path t;
      if single then
        do all <- combinations_within n (t_sorted t);
        do combos <- remove_empty all;
        fold_res (single_path_visit (handle_individual_result c tsel TP FP) t alpha) combos st
      else
        fold_res (fun st ai =>
          match sel_assoc ai (t_header t) with
          | None => Err KeyError
          | Some e =>
              do st <- handle_individual_result c tsel TP FP st (pattern_init (ai :: alpha), (he_tp e, he_fp e));
              do ct <- generate_conditional_fp_tree t (ai :: alpha) (c_min_tp c) (c_min_fp c) (c_min_n c);
              if is_empty ct then Ok st else fpgrowth_within c tsel TP FP n ct (ai :: alpha) st
          end) (t_sorted t) st
  end.
(** sdmap.py:243-274, fit *)
Definition sdmap_fit_within {V} (limit : nat) (c : sd_config V) (st : sd_state V) (df : dataframe) (tcol tval : string) : res (sd_state V) :=
  if negb (all_nominal df) then Err DatasetAttributeTypeError else
  do d <- generate_set_of_frequent_selectors df tcol (VStr tval) (c_min_tp c) (c_min_fp c) (c_min_n c);
  do t <- build_tree empty_tree df d tcol (VStr tval);
  if is_empty t then Ok st else
  do mask <- target_mask df tcol (VStr tval);
  let '(TP, FP) := population df mask in
  let st := if c_write c then SDS (st_selected st) (st_unselected st) (Some []) else st in
  fpgrowth_within c (Sel tcol EQUAL (VStr tval)) TP FP limit t [] st.

(** sdmapstar.py:221-324, _fpgrowth *)
Fixpoint star_fpgrowth_within {V} (c : star_config V) (tsel : selector) (TP FP : Z) (limit : nat) (t : fptree) (alpha : list selector) (st : star_state V) {struct limit} : res (star_state V) :=
  match limit with
  | O => Err OutOfFuel
  | S n =>
      do single <- there_is_a_single_path t;
      if single then
        do all <- combinations_within n (t_sorted t);
        do combos <- remove_empty all;
        fold_res (single_path_visit (fun st v => do r <- star_visit c tsel TP FP st v; Ok (snd r)) t alpha) combos st
      else
        do order <- star_order c TP FP t;
        fold_res (fun st ai =>
          match sel_assoc ai (t_header t) with
          | None => Err KeyError
          | Some e =>
              do r <- star_visit c tsel TP FP st (pattern_init (ai :: alpha), (he_tp e, he_fp e));
              let '(handled, st) := r in
              if handled then
                do cs <- star_conditional c TP FP st t (ai :: alpha);
                let '(ct, st) := cs in
                if is_empty ct then Ok st else star_fpgrowth_within c tsel TP FP n ct (ai :: alpha) st
              else Ok st
          end) order st
  end.
(** sdmapstar.py:352-383, fit *)
Definition star_fit_within {V} (limit : nat) (c : star_config V) (st : star_state V) (df : dataframe) (tcol tval : string) : res (star_state V) :=
  let b := sc_base c in
  if negb (all_nominal df) then Err DatasetAttributeTypeError else
  do mask <- target_mask df tcol (VStr tval);
  let '(TP, FP) := population df mask in
  do d <- generate_set_of_frequent_selectors df tcol (VStr tval) (c_min_tp b) (c_min_fp b) (c_min_n b);
  do t <- build_tree empty_tree df d tcol (VStr tval);
  if is_empty t then Ok st else
  let st := if c_write b then StarS (SDS (st_selected (ss_base st)) (st_unselected (ss_base st)) (Some []))
                                    (ss_k st) (ss_pruned st) (ss_cpruned st) else st in
  star_fpgrowth_within c (Sel tcol EQUAL (VStr tval)) TP FP limit t [] st.

(** vlsd.py:283-328, _search: [search] (VLSDModel.v) counts the calls.  vlsd.py:330-395, fit. *)
Definition vlsd_fit_within {Seq V} (limit : nat) (impl : vl_impl Seq) (c : vl_config V) (st : vl_state Seq V) (df : dataframe) (tcol tval : string) : res (vl_state Seq V) :=
  if negb (all_nominal df) then Err DatasetAttributeTypeError else
  let st := if vc_write c then VS (vs_selected st) (vs_unselected st) (Some []) else st in
  let tsel := Sel tcol EQUAL (VStr tval) in
  do mask <- target_mask df tcol (VStr tval);
  let '(TP, FP) := population df mask in
  do s1 <- generate_s1 impl c df mask tcol TP FP;
  do st <- fold_res (vl_handle c tsel TP FP) s1 st;
  do M <- build_matrix impl c TP FP s1 [];
  fold_res (fun st x =>
    do s <- last_elem (vl_sels x);
    match sel_assoc s M with
    | None => Ok st
    | Some row =>
        let P := vl_sort c (vc_sort_other c) (map snd row) in
        do st <- fold_res (vl_handle c tsel TP FP) P st;
        search impl c M tsel TP FP limit P st
    end) (removelast s1) st.

(** bsd.py:195-264, _BSD: [bsd_search] (BSDModel.v) counts the calls.  bsd.py:392-445, fit. *)
Definition bsd_fit_within {V} (limit : nat) (c : bsd_config V) (st : bsd_state V) (df : dataframe) (tcol tval : string) : res (bsd_state V) :=
  if negb (all_nominal df) then Err DatasetAttributeTypeError else
  do mask <- target_mask df tcol (VStr tval);
  let '(TP, FP) := population df mask in
  let st := BS (bs_k st) (bs_irrelevants st) (bs_visited st) (bs_selected st) (bs_unselected st) (bs_pruned st) TP FP (bs_file st) (bs_log st) in
  let L := bsd_frequent df mask tcol (bc_min_support c) in
  let dpos := build_bitset df mask tcol L in
  let dneg := build_bitset df (map negb mask) tcol L in
  do st <- bsd_search c dpos dneg limit (pattern_init []) L
             (repeat true (length (filter (fun b => b) mask))) (repeat true (length (filter negb mask))) 0 st;
  do e0 <- first_entry (bs_k st);
  let st := BS (bs_k st) (bs_irrelevants st) (bs_visited st)
               (if value_eq c (e_quality e0) (bc_dummy c) then length (bs_k st) - 1 else length (bs_k st))%nat
               (bs_unselected st) (bs_pruned st) (bs_TP st) (bs_FP st) (bs_file st) (bs_log st) in
  Ok (if bc_write c
      then BS (bs_k st) (bs_irrelevants st) (bs_visited st) (bs_selected st) (bs_unselected st) (bs_pruned st) (bs_TP st) (bs_FP st)
              (Some (bsd_lines c tcol tval st)) (bs_log st)
      else st).

(** idsd.py:323-373, _grow_tree *)
Fixpoint grow_within (limit : nat) (c : idsd_config) (v : ienv) (complexity : nat) (sels : list selector) (p : pattern) (app : list bool) (st : istate) {struct limit} : res istate :=
  match limit with
  | O => Err OutOfFuel
  | S n =>
      do r <- visit_node c v complexity p app st;
      if snd r then
        (fix children (sels : list selector) (st : istate) {struct sels} : res istate :=
           match sels with
           | [] => Ok st
           | s :: rest =>
               let p' := add_selector (pattern_copy p) s in
               do a <- appearance (en_app v) s;
               let app' := series_and app a in
               do st' <- grow_within n c v complexity rest p' app' st;
               children rest st'
           end) sels (fst r)
      else Ok (fst r)
  end.
(** idsd.py:375-412, fit *)
Definition idsd_fit_within (limit : nat) (c : idsd_config) (st : istate) (df : dataframe) (tcol tval : string) : res istate :=
  if negb (all_nominal df) then Err DatasetAttributeTypeError
  else
    match col_get (df_cols df) tcol with
    | None => Err ValueError
    | Some col =>
        if negb (existsb (fun x => py_eq x (VStr tval)) col) then Err ValueError
        else
          do mask <- target_mask df tcol (VStr tval);
          let TP := fst (population df mask) in
          let FP := snd (population df mask) in
          let df' := reduce_categories (ic_cats c) df tcol in
          let d := idsd_appearances df' tcol (is_app st) in
          let v := IEnv mask TP FP d in
          let max := if (ic_max c =? -1)%Z then length (df_cols df') - 1 else Z.to_nat (ic_max c) in
          fold_res (fun st complexity => grow_within limit c v complexity (idsd_selectors df' tcol) (pattern_init []) (repeat true (df_n df)) st)
                   (seq 1 max) (IState [] (is_visited st) (is_nonunique st) (is_pruned st) d)
    end.
