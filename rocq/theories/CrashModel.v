(** The effects of fit, in order: what happens to the output file and to the counters until fit ends, raises or is killed.
    The models of SDMapModel.v, SDMapStarModel.v, VLSDModel.v and SDIGAModel.v give the final state of a fit that ends; here the
    same functions are modelled as runs: the list of the effects made so far, together with the result.  A run that raises keeps
    its effects.  (Theorems C73_*_faithful: both models agree.)
    The calls of [write] of one line are one effect: what reaches the disk is any beginning of the text that was written, so
    nothing is gained by cutting the line (see CrashSpec.v). *)
From Verif Require Export ReportModel SDMapStarModel VLSDModel.
Open Scope string_scope.
Open Scope list_scope.
Open Scope Z_scope.

(** [open(path, "w")], the text of a line, the two counters, [close()]. *)
Inductive event (L : Type) := EOpen | ELine (l : L) | ESelected | EUnselected | EClose.
Arguments EOpen {L}. Arguments ELine {L}. Arguments ESelected {L}. Arguments EUnselected {L}. Arguments EClose {L}.
Definition run (L A : Type) : Type := (list (event L) * res A)%type.
Definition run_ret {L A} (a : A) : run L A := ([], Ok a).
Definition run_lift {L A} (r : res A) : run L A := ([], r).
Definition run_emit {L} (e : event L) : run L unit := ([e], Ok tt).
(** The effects of [m] happen before those of [f]; those of [m] remain when [f] raises. *)
Definition run_bind {L A B} (m : run L A) (f : A -> run L B) : run L B :=
  match snd m with
  | Ok a => (fst m ++ fst (f a), snd (f a))
  | Err e => (fst m, Err e)
  end.
Notation "'go' x <- m ; f" := (run_bind m (fun x => f)) (at level 200, x pattern, m at level 100, f at level 200).
Fixpoint fold_run {L A S} (f : S -> A -> run L S) (l : list A) (s : S) : run L S :=
  match l with
  | [] => run_ret s
  | x :: xs => go s' <- f s x; fold_run f xs s'
  end.

(** * SDMap *)
Section SDMapRun.
  Context {V : Type}.
  Variable c : sd_config V.
  (** sdmap.py:150-183, _handle_individual_result (sdmapstar.py:186-219 is the same text). *)
  Definition handle_run (tsel : selector) (TP FP : Z) (v : pattern * (Z * Z)) : run (record V) unit :=
    let '(p, (tp, fp)) := v in
    go q <- run_lift (c_measure c tp fp TP FP);
    if c_reaches c q then
      go _ <- (if c_write c then run_emit (ELine (Rec (SG p tsel) q tp fp TP FP)) else run_ret tt);
      run_emit ESelected
    else run_emit EUnselected.
  (** sdmap.py:201-219 *)
  Definition single_path_run (tsel : selector) (TP FP : Z) (t : fptree) (alpha beta : list selector) : run (record V) unit :=
    go s <- run_lift (most_unfrequent (t_sorted t) beta);
    match sel_assoc s (t_header t) with
    | None => run_lift (Err KeyError)
    | Some e => handle_run tsel TP FP (pattern_init (beta ++ alpha), (he_tp e, he_fp e))
    end.
  (** sdmap.py:185-241, _fpgrowth *)
  Fixpoint fpgrowth_run (tsel : selector) (TP FP : Z) (fuel : nat) (t : fptree) (alpha : list selector) {struct fuel} : run (record V) unit :=
    match fuel with
    | O => run_lift (Err OutOfFuel)
    | S f =>
        go single <- run_lift (there_is_a_single_path t);
        if single then
          go combos <- run_lift (remove_empty (generate_all_combinations (t_sorted t)));
          fold_run (fun _ beta => single_path_run tsel TP FP t alpha beta) combos tt
        else
          fold_run (fun _ ai =>
            match sel_assoc ai (t_header t) with
            | None => run_lift (Err KeyError)
            | Some e =>
                go _ <- handle_run tsel TP FP (pattern_init (ai :: alpha), (he_tp e, he_fp e));
                go ct <- run_lift (generate_conditional_fp_tree t (ai :: alpha) (c_min_tp c) (c_min_fp c) (c_min_n c));
                if is_empty ct then run_ret tt else fpgrowth_run tsel TP FP f ct (ai :: alpha)
            end) (t_sorted t) tt
    end.
  (** sdmap.py:243-274, fit: the file is opened once there is something to search and closed at the end. *)
  Definition sdmap_run (df : dataframe) (tcol tval : string) : run (record V) unit :=
    if negb (all_nominal df) then run_lift (Err DatasetAttributeTypeError) else
    go d <- run_lift (generate_set_of_frequent_selectors df tcol (VStr tval) (c_min_tp c) (c_min_fp c) (c_min_n c));
    go t <- run_lift (build_tree empty_tree df d tcol (VStr tval));
    if is_empty t then run_ret tt else
    go mask <- run_lift (target_mask df tcol (VStr tval));
    let '(TP, FP) := population df mask in
    go _ <- (if c_write c then run_emit EOpen else run_ret tt);
    go _ <- fpgrowth_run (Sel tcol EQUAL (VStr tval)) TP FP (S (length (t_header t))) t [];
    if c_write c then run_emit EClose else run_ret tt.
End SDMapRun.

(** * SDMapStar: the search depends on the best values found so far, so the state is kept as well. *)
Section StarRun.
  Context {V : Type}.
  Variable c : star_config V.
  Variable tsel : selector.
  Variables TP FP : Z.
  (** sdmapstar.py:255-267 and 297-313 *)
  Definition star_handle_run (st : star_state V) (v : pattern * (Z * Z)) : run (record V) (star_state V) :=
    go _ <- handle_run (sc_base c) tsel TP FP v;
    run_lift (star_handle c tsel TP FP st v).
  Definition star_visit_run (st : star_state V) (v : pattern * (Z * Z)) : run (record V) (bool * star_state V) :=
    if 0 <? sc_num c then
      let '(p, (tp, fp)) := v in
      go st <- run_lift (update_k c TP FP st tp fp);
      go oe <- run_lift (sc_oe c tp fp TP FP);
      go w <- run_lift (worst_k st);
      if sc_lt c oe w then run_ret (false, StarS (ss_base st) (ss_k st) (S (ss_pruned st)) (ss_cpruned st))
      else go st <- star_handle_run st v; run_ret (true, st)
    else go st <- star_handle_run st v; run_ret (true, st).
  (** sdmapstar.py:238-257: one combination of a single path. *)
  Definition star_single_run (t : fptree) (alpha : list selector) (st : star_state V) (beta : list selector) : run (record V) (star_state V) :=
    go s <- run_lift (most_unfrequent (t_sorted t) beta);
    match sel_assoc s (t_header t) with
    | None => run_lift (Err KeyError)
    | Some e => go r <- star_visit_run st (pattern_init (beta ++ alpha), (he_tp e, he_fp e)); run_ret (snd r)
    end.
  (** sdmapstar.py:221-324, _fpgrowth *)
  Fixpoint star_fpgrowth_run (fuel : nat) (t : fptree) (alpha : list selector) (st : star_state V) {struct fuel} : run (record V) (star_state V) :=
    match fuel with
    | O => run_lift (Err OutOfFuel)
    | S f =>
        go single <- run_lift (there_is_a_single_path t);
        if single then
          go combos <- run_lift (remove_empty (generate_all_combinations (t_sorted t)));
          fold_run (star_single_run t alpha) combos st
        else
          go order <- run_lift (star_order c TP FP t);
          fold_run (fun st ai =>
            match sel_assoc ai (t_header t) with
            | None => run_lift (Err KeyError)
            | Some e =>
                go r <- star_visit_run st (pattern_init (ai :: alpha), (he_tp e, he_fp e));
                let '(handled, st) := r in
                if handled then
                  go cs <- run_lift (star_conditional c TP FP st t (ai :: alpha));
                  let '(ct, st) := cs in
                  if is_empty ct then run_ret st else star_fpgrowth_run f ct (ai :: alpha) st
                else run_ret st
            end) order st
    end.
End StarRun.
(** sdmapstar.py:352-383, fit *)
Definition sdmapstar_run {V} (c : star_config V) (st : star_state V) (df : dataframe) (tcol tval : string) : run (record V) (star_state V) :=
  let b := sc_base c in
  if negb (all_nominal df) then run_lift (Err DatasetAttributeTypeError) else
  go mask <- run_lift (target_mask df tcol (VStr tval));
  let '(TP, FP) := population df mask in
  go d <- run_lift (generate_set_of_frequent_selectors df tcol (VStr tval) (c_min_tp b) (c_min_fp b) (c_min_n b));
  go t <- run_lift (build_tree empty_tree df d tcol (VStr tval));
  if is_empty t then run_ret st else
  go _ <- (if c_write b then run_emit EOpen else run_ret tt);
  let st := if c_write b then StarS (SDS (st_selected (ss_base st)) (st_unselected (ss_base st)) (Some []))
                                    (ss_k st) (ss_pruned st) (ss_cpruned st) else st in
  go st <- star_fpgrowth_run c (Sel tcol EQUAL (VStr tval)) TP FP (S (length (t_header t))) t [] st;
  go _ <- (if c_write b then run_emit EClose else run_ret tt);
  run_ret st.

(** * VLSD *)
Section VLSDRun.
  Context {Seq V : Type}.
  Variable impl : vl_impl Seq.
  Variable c : vl_config V.
  Notation matrix := (list (selector * list (selector * vlist Seq V))).
  (** vlsd.py:184-220, _handle_individual_result *)
  Definition vl_handle_run (tsel : selector) (TP FP : Z) (v : vlist Seq V) : run (vl_record Seq V) unit :=
    let tp := Z.of_nat (vl_tp v) in
    let fp := Z.of_nat (vl_fp v) in
    go q <- run_lift (vc_measure c tp fp TP FP);
    if vc_reaches c q then
      go _ <- (if vc_write c then run_emit (ELine (VRec (Rec (SG (pattern_init (vl_sels v)) tsel) q tp fp TP FP)
                                                        (vl_seq_tp v) (vl_seq_fp v) (vl_quality v))) else run_ret tt);
      run_emit ESelected
    else run_emit EUnselected.
  (** vlsd.py:306-320 *)
  Definition extend_run (M : matrix) (tsel : selector) (TP FP : Z) (s_x : vlist Seq V) (lx : selector)
    (W : list (vlist Seq V)) (s_y : vlist Seq V) : run (vl_record Seq V) (list (vlist Seq V)) :=
    go ly <- run_lift (last_elem (vl_sels s_y));
    match query_matrix M lx ly with
    | None => run_ret W
    | Some m =>
        if vc_oe_reaches c (vl_quality m) then
          go xy <- run_lift (vi_join impl (join_oe c TP FP) s_x s_y true);
          match xy with
          | None => run_ret W
          | Some v => if vc_oe_reaches c (vl_quality v)
                      then go _ <- vl_handle_run tsel TP FP v; run_ret (W ++ [v])
                      else run_ret W
          end
        else run_ret W
    end.
  (** vlsd.py:283-328, _search *)
  Fixpoint search_run (M : matrix) (tsel : selector) (TP FP : Z) (fuel : nat) (P : list (vlist Seq V)) {struct fuel} : run (vl_record Seq V) unit :=
    match fuel with
    | O => run_lift (Err OutOfFuel)
    | S f =>
        (fix loop (P : list (vlist Seq V)) {struct P} : run (vl_record Seq V) unit :=
           match P with
           | [] => run_ret tt
           | s_x :: rest =>
               match rest with
               | [] => run_ret tt
               | _ :: _ =>
                   go lx <- run_lift (last_elem (vl_sels s_x));
                   go W <- fold_run (extend_run M tsel TP FP s_x lx) rest [];
                   go _ <- match W with
                           | [] => run_ret tt
                           | _ :: _ => search_run M tsel TP FP f (vl_sort c (vc_sort_other c) W)
                           end;
                   loop rest
               end
           end) P
    end.
  (** vlsd.py:379-391 *)
  Definition search_from_run (M : matrix) (tsel : selector) (TP FP : Z) (x : vlist Seq V) : run (vl_record Seq V) unit :=
    go s <- run_lift (last_elem (vl_sels x));
    match sel_assoc s M with
    | None => run_ret tt
    | Some row =>
        let P := vl_sort c (vc_sort_other c) (map snd row) in
        go _ <- fold_run (fun _ v => vl_handle_run tsel TP FP v) P tt;
        search_run M tsel TP FP (S (length P)) P
    end.
  (** vlsd.py:330-395, fit: the file is opened before the target is looked up. *)
  Definition vlsd_run (df : dataframe) (tcol tval : string) : run (vl_record Seq V) unit :=
    if negb (all_nominal df) then run_lift (Err DatasetAttributeTypeError) else
    go _ <- (if vc_write c then run_emit EOpen else run_ret tt);
    let tsel := Sel tcol EQUAL (VStr tval) in
    go mask <- run_lift (target_mask df tcol (VStr tval));
    let '(TP, FP) := population df mask in
    go s1 <- run_lift (generate_s1 impl c df mask tcol TP FP);
    go _ <- fold_run (fun _ v => vl_handle_run tsel TP FP v) s1 tt;
    go M <- run_lift (build_matrix impl c TP FP s1 []);
    go _ <- fold_run (fun _ x => search_from_run M tsel TP FP x) (removelast s1) tt;
    if vc_write c then run_emit EClose else run_ret tt.
End VLSDRun.

(** * SDIGA *)
Section SDIGARun.
  Variables (cfg : sdiga_config) (env : environment) (dict : enc_dict) (tval : string).
  (** sdiga.py:447-533; the counter of unselected subgroups (494, 497) is in the state only. *)
  Fixpoint main_loop_run (fuel : nat) (tcol : string) (encoded : list enc_row) (TP FP : nat) (s : sg_loop) : run sg_line sg_loop :=
    match fuel with
    | O => run_lift (Err OutOfFuel)
    | S f =>
        let fit := fitness cfg tval encoded (sl_unchecked s) (sl_uTP s) (sl_uFP s) in
        go e <- run_lift (evolve cfg env dict fit (sl_time s));
        let unselected := (sl_unselected s + 2 * gc_generations cfg + (gc_population cfg - 1))%nat in
        match fst e with
        | [] => run_lift (Err IndexError)
        | top :: _ =>
            go r <- run_lift (local_search cfg tval encoded TP FP (fst top));
            let '(c, conf, tp, fp) := r in
            go p <- run_lift (decode c dict);
            let s1 := SGS (snd e) (sl_unchecked s) (sl_uTP s) (sl_uFP s) (sl_cases s) (sl_lines s) unselected (sl_selected s) in
            if existsb (fun case => pattern_is_refinement (en_hash env) case p true) (sl_cases s) then run_ret s1
            else if negb (Qle_bool (gc_min_confidence cfg) conf) then run_ret s1
            else
              let (utp, ufp) := get_tp_fp c (sl_unchecked s) tval in
              let line := SGL (SG p (Sel tcol EQUAL (VStr tval))) (fit c) tp fp TP FP utp ufp (sl_uTP s) (sl_uFP s) in
              go _ <- run_emit ESelected;
              go _ <- (if gc_write cfg then run_emit (ELine line) else run_ret tt);
              let rest := rows_without c (sl_unchecked s) in
              main_loop_run f tcol encoded TP FP
                (SGS (snd e) rest (positives tval rest) (length rest - positives tval rest) (sl_cases s ++ [p]) (sl_lines s ++ [line]) unselected (S (sl_selected s)))
        end
    end.
End SDIGARun.
(** sdiga.py:526-563, fit *)
Definition sdiga_run (cfg : sdiga_config) (env : environment) (st : sdiga_state) (df : dataframe) (tcol tval : string) : run sg_line sdiga_state :=
  if negb (all_nominal df) then run_lift (Err DatasetAttributeTypeError)
  else
    go mask <- run_lift (target_mask df tcol (VStr tval));
    if negb (any_true mask) then run_lift (Err ValueError)
    else
      go _ <- (if gc_write cfg then run_emit EOpen else run_ret tt);
      go encoded <- run_lift (encoded_rows df tcol);
      let dict := encoded_dict df tcol in
      let TP := length (filter (fun b => b) mask) in
      let FP := (df_n df - TP)%nat in
      go s <- main_loop_run cfg env dict tval (S (S (chromosomes dict))) tcol encoded TP FP
                (SGS 0 encoded TP FP [] [] (dg_unselected st) (dg_selected st));
      go _ <- (if gc_write cfg then run_emit EClose else run_ret tt);
      run_ret (SDG (sl_unselected s) (sl_selected s) TP FP (sl_uTP s) (sl_uFP s) (Some dict) (Some (sl_unchecked s))
              (if gc_write cfg then Some (sl_lines s) else None)).

(** * BSD, CBSD, CPBSD, IDSD, QFinder: the file is opened, written and closed after the search *)
(** bsd.py:392-445 (inherited by CBSD and CPBSD), 447-466 *)
Definition bsd_run {V} (c : bsd_config V) (st : bsd_state V) (df : dataframe) (tcol tval : string) : run (record V) (bsd_state V) :=
  go st <- run_lift (bsd_fit c st df tcol tval);
  go _ <- (if bc_write c then
             go _ <- run_emit EOpen;
             go _ <- fold_run (fun _ l => run_emit (ELine l)) (bsd_lines c tcol tval st) tt;
             run_emit EClose
           else run_ret tt);
  run_ret st.
(** idsd.py:375-430; [write] is [self._file_path is not None] *)
Definition idsd_run (write : bool) (c : idsd_config) (st : istate) (df : dataframe) (tcol tval : string) : run (subgroup * nat * icred) istate :=
  go st <- run_lift (idsd_fit c st df tcol tval);
  go _ <- (if write then
             go _ <- run_emit EOpen;
             go _ <- fold_run (fun _ l => run_emit (ELine l)) (idsd_lines tcol tval st) tt;
             run_emit EClose
           else run_ret tt);
  run_ret st.
(** qfinder.py:288-313, 344-357: the values of a pattern are looked up while the file is written. *)
Definition qfinder_run (write : bool) (c : qconfig) (df : dataframe) (tcol tval : string) : run (subgroup * qcred) qstate :=
  go st <- run_lift (qfinder_fit c df tcol tval);
  go _ <- (if write then
             go _ <- run_emit EOpen;
             go _ <- fold_run (fun _ p => go r <- run_lift (assoc (qs_cred st) (pattern_str p));
                                          run_emit (ELine (SG p (Sel tcol EQUAL (VStr tval)), r))) (qs_top st) tt;
             run_emit EClose
           else run_ret tt);
  run_ret st.
