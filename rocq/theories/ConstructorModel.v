(** Model of the constructors of the algorithms: algorithms/subgroup_sets/{sdmap,sdmapstar,vlsd,bsd,idsd,qfinder,sdiga}.py and
    algorithms/subgroup_lists/{gmsl,psld,dslm}.py ([CBSD] and [CPBSD] inherit the one of [BSD]), and of the dictionaries of additional
    parameters, which are Python objects: they live in a heap and are shared by reference.  Only what decides the outcome (and the
    attributes that the properties of the classes return) is modelled; the texts of the messages are not. *)
From Verif Require Export CredModel QualityModel.
Open Scope string_scope.
Open Scope list_scope.
Open Scope nat_scope.

(** * Python values passed as arguments *)
(** An instance of a subclass of QualityMeasure: what [get_name()] and the keys of [optimistic_estimate_of()] are. *)
Record mobj := MObj { mo_name : string; mo_of : list string }.
(** [PList]: a list or a set, which has [copy] but no deletion by key; [PObject]: any other object (no attribute used by the constructors,
    true as a condition). *)
Inductive pyval := PInt (z : Z) | PFloat (x : xnum) | PBool (b : bool) | PStr (s : string) | PNone | PDict (a : nat) | PMeasure (m : mobj)
| PList (n : nat) | PObject.
(** Dictionaries str -> number, in a heap. *)
Definition heap := list params.
Definition deref (h : heap) (a : nat) : params := nth a h [].
(** [del d[k]] (nothing if the key is absent: the KeyError is caught), [d[k] = v], [d.update(e)]. *)
Definition d_del (k : string) (d : params) : params := filter (fun e => negb (String.eqb (fst e) k)) d.
Fixpoint d_set (d : params) (k : string) (v : Q) : params :=
  match d with
  | [] => [(k, v)]
  | (k', w) :: d' => if String.eqb k' k then (k', v) :: d' else (k', w) :: d_set d' k v
  end.
Definition d_update (d e : params) : params := fold_left (fun d kv => d_set d (fst kv) (snd kv)) e d.
(** sdmap.py:35-55, sdmapstar.py:34-54, vlsd.py:25-45, bsd.py:24-44, _delete_subgroup_parameters_from_a_dictionary. *)
Definition delete_subgroup_parameters (d : params) : params := d_del "FP" (d_del "TP" (d_del "fp" (d_del "tp" d))).

(** [type(v) is int], [... is float], [... is bool], [... is str], [... is dict], [isinstance(v, QualityMeasure)], [v is None]. *)
Definition ty_int (v : pyval) : bool := match v with PInt _ => true | _ => false end.
Definition ty_float (v : pyval) : bool := match v with PFloat _ => true | _ => false end.
Definition ty_bool (v : pyval) : bool := match v with PBool _ => true | _ => false end.
Definition ty_str (v : pyval) : bool := match v with PStr _ => true | _ => false end.
Definition ty_dict (v : pyval) : bool := match v with PDict _ => true | _ => false end.
Definition ty_measure (v : pyval) : bool := match v with PMeasure _ => true | _ => false end.
Definition ty_none (v : pyval) : bool := match v with PNone => true | _ => false end.
Definition ty_num (v : pyval) : bool := ty_int v || ty_float v.
(** The truth value of an object. *)
Definition truthy (h : heap) (v : pyval) : bool :=
  match v with
  | PInt z => negb (z =? 0)%Z
  | PFloat x => negb (xeq x (XFin 0))
  | PBool b => b
  | PStr s => negb (String.eqb s "")
  | PNone => false
  | PDict a => match deref h a with [] => false | _ => true end
  | PList n => negb (n =? 0)
  | PMeasure _ | PObject => true
  end.
(** The number in comparisons (int or float; the comparison of an int with a float is exact in Python). *)
Definition pv_num (v : pyval) : xnum := match v with PInt z => XFin (inject_Z z) | PFloat x => x | _ => XNan end.
Definition num_lt (v : pyval) (q : Q) : bool := xlt (pv_num v) (XFin q).
Definition num_gt (v : pyval) (q : Q) : bool := xlt (XFin q) (pv_num v).
Definition num_le (v : pyval) (q : Q) : bool := xle (pv_num v) (XFin q).
Definition num_ge (v : pyval) (q : Q) : bool := xle (XFin q) (pv_num v).

(** * Execution: a heap and a result *)
Definition run (A : Type) := heap -> heap * res A.
Definition ret {A} (x : A) : run A := fun h => (h, Ok x).
Definition raise {A} (e : exn) : run A := fun h => (h, Err e).
Definition then_ {A B} (m : run A) (f : A -> run B) : run B := fun h => match m h with (h', Ok x) => f x h' | (h', Err e) => (h', Err e) end.
Notation "'let*' x := m 'in' k" := (then_ m (fun x => k)) (at level 200, x pattern, m at level 100, k at level 200).
(** [if b: raise e]. *)
Definition stop_if (b : bool) (e : exn) : run unit := if b then raise e else ret tt.
(** [v.copy()] and the deletion of the four counts from the copy. *)
Definition copied (v : pyval) : run nat := fun h =>
  match v with
  | PDict a => (h ++ [delete_subgroup_parameters (deref h a)], Ok (length h))
  | PList _ => (h, Err TypeError)
  | _ => (h, Err AttributeError)
  end.
(** [quality_measure.get_name() not in optimistic_estimate.optimistic_estimate_of()] *)
Definition not_estimated (q oe : pyval) : run bool := fun h =>
  match q, oe with
  | PMeasure m, PMeasure o => (h, Ok (negb (existsb (String.eqb (mo_name m)) (mo_of o))))
  | _, _ => (h, Err AttributeError)
  end.
(** [self._file_path = file_path] if the results are written, None if not. *)
Definition path_of (h : heap) (write path : pyval) : pyval := if truthy h write then path else PNone.

(** * The constructors *)
(** sdmap.py:72-110. *)
Record sdmap_args := SdmapArgs { sa_q : pyval; sa_min : pyval; sa_tp : pyval; sa_fp : pyval; sa_n : pyval; sa_params : pyval; sa_write : pyval; sa_path : pyval }.
(** The object: the parameters that its properties return, the (address of the) dictionary of additional parameters, and the counters. *)
Record sdmap_obj := SdmapObj { so_args : sdmap_args; so_params : nat; so_path : pyval; so_selected : Z; so_unselected : Z }.
Definition none_or (f : pyval -> bool) (v : pyval) : bool := f v || ty_none v.
Definition coherent (tp fp n : pyval) : bool :=
  (negb (ty_none tp) && negb (ty_none fp) && ty_none n) || (ty_none tp && ty_none fp && negb (ty_none n)).
Definition sdmap_init (a : sdmap_args) : run sdmap_obj :=
  let* _ := stop_if (negb (ty_measure (sa_q a))) TypeError in
  let* _ := stop_if (negb (ty_int (sa_min a)) && negb (ty_float (sa_min a))) TypeError in
  let* _ := stop_if (negb (ty_int (sa_tp a)) && negb (ty_none (sa_tp a))) TypeError in
  let* _ := stop_if (negb (ty_int (sa_fp a)) && negb (ty_none (sa_fp a))) TypeError in
  let* _ := stop_if (negb (ty_int (sa_n a)) && negb (ty_none (sa_n a))) TypeError in
  let* _ := stop_if (negb (ty_dict (sa_params a))) TypeError in
  let* _ := stop_if (negb (ty_bool (sa_write a))) TypeError in
  let* _ := stop_if (negb (ty_str (sa_path a)) && negb (ty_none (sa_path a))) TypeError in
  fun h0 => (
  let* _ := stop_if (truthy h0 (sa_write a) && ty_none (sa_path a)) ValueError in
  if coherent (sa_tp a) (sa_fp a) (sa_n a) then
    let* d := copied (sa_params a) in
    ret (SdmapObj a d (path_of h0 (sa_write a) (sa_path a)) 0 0)
  else raise InconsistentMethodParametersError) h0.

(** sdmapstar.py:73-126. *)
Record star_args := StarArgs { ta_q : pyval; ta_oe : pyval; ta_min : pyval; ta_tp : pyval; ta_fp : pyval; ta_n : pyval; ta_params : pyval;
                               ta_oparams : pyval; ta_write : pyval; ta_path : pyval; ta_num : pyval }.
Record star_obj := StarObj { to_args : star_args; to_params : nat; to_oparams : nat; to_path : pyval; to_selected : Z; to_unselected : Z; to_pruned : Z }.
Definition star_init (a : star_args) : run star_obj :=
  let* _ := stop_if (negb (ty_measure (ta_q a))) TypeError in
  let* _ := stop_if (negb (ty_int (ta_min a)) && negb (ty_float (ta_min a))) TypeError in
  let* _ := stop_if (negb (ty_int (ta_tp a)) && negb (ty_none (ta_tp a))) TypeError in
  let* _ := stop_if (negb (ty_int (ta_fp a)) && negb (ty_none (ta_fp a))) TypeError in
  let* _ := stop_if (negb (ty_int (ta_n a)) && negb (ty_none (ta_n a))) TypeError in
  let* _ := stop_if (negb (ty_dict (ta_params a))) TypeError in
  let* _ := stop_if (negb (ty_bool (ta_write a))) TypeError in
  let* _ := stop_if (negb (ty_int (ta_num a))) TypeError in
  let* _ := stop_if (negb (ty_str (ta_path a)) && negb (ty_none (ta_path a))) TypeError in
  fun h0 => (
  let* _ := stop_if (truthy h0 (ta_write a) && ty_none (ta_path a)) ValueError in
  let* b := not_estimated (ta_q a) (ta_oe a) in
  let* _ := stop_if b ValueError in
  if coherent (ta_tp a) (ta_fp a) (ta_n a) then
    let* d := copied (ta_params a) in
    let* e := copied (ta_oparams a) in
    ret (StarObj a d e (path_of h0 (ta_write a) (ta_path a)) 0 0 0)
  else raise InconsistentMethodParametersError) h0.

(** vlsd.py:78-85. *)
Definition sort_criteria : list string := ["quality-ascending"; "quality-descending"; "no-order"].
Definition list_implementations : list string := ["bitsets"; "sets"].
(** [v in l] for a list of strings. *)
Definition ty_in (v : pyval) (l : list string) : bool := match v with PStr s => existsb (String.eqb s) l | _ => false end.
(** vlsd.py:89-135. *)
Record vlsd_args := VlsdArgs { va_q : pyval; va_min : pyval; va_oe : pyval; va_omin : pyval; va_params : pyval; va_oparams : pyval;
                               va_s1 : pyval; va_other : pyval; va_impl : pyval; va_write : pyval; va_path : pyval }.
Record vlsd_obj := VlsdObj { vo_args : vlsd_args; vo_params : nat; vo_oparams : nat; vo_path : pyval; vo_selected : Z; vo_unselected : Z }.
Definition vlsd_init (a : vlsd_args) : run vlsd_obj :=
  let* _ := stop_if (negb (ty_measure (va_q a))) TypeError in
  let* _ := stop_if (negb (ty_int (va_min a)) && negb (ty_float (va_min a))) TypeError in
  let* _ := stop_if (negb (ty_measure (va_oe a))) TypeError in
  let* b := not_estimated (va_q a) (va_oe a) in
  let* _ := stop_if b ValueError in
  let* _ := stop_if (negb (ty_int (va_omin a)) && negb (ty_float (va_omin a))) TypeError in
  let* _ := stop_if (negb (ty_dict (va_params a))) TypeError in
  let* _ := stop_if (negb (ty_dict (va_oparams a))) TypeError in
  let* _ := stop_if (negb (ty_in (va_s1 a) sort_criteria)) ValueError in
  let* _ := stop_if (negb (ty_in (va_other a) sort_criteria)) ValueError in
  let* _ := stop_if (negb (ty_in (va_impl a) list_implementations)) ValueError in
  let* _ := stop_if (negb (ty_bool (va_write a))) TypeError in
  let* _ := stop_if (negb (ty_str (va_path a)) && negb (ty_none (va_path a))) TypeError in
  fun h0 => (
  let* _ := stop_if (truthy h0 (va_write a) && ty_none (va_path a)) ValueError in
  let* d := copied (va_params a) in
  let* e := copied (va_oparams a) in
  ret (VlsdObj a d e (path_of h0 (va_write a) (va_path a)) 0 0)) h0.

(** bsd.py:62-109 (and cbsd.py, cpbsd.py). *)
Record bsd_args := BsdArgs { ba_support : pyval; ba_q : pyval; ba_oe : pyval; ba_num : pyval; ba_depth : pyval; ba_params : pyval; ba_oparams : pyval;
                             ba_write : pyval; ba_path : pyval }.
Record bsd_obj := BsdObj { bo_args : bsd_args; bo_params : nat; bo_oparams : nat; bo_path : pyval; bo_selected : Z; bo_unselected : Z; bo_visited : Z; bo_pruned : Z }.
Definition bsd_init (a : bsd_args) : run bsd_obj :=
  let* _ := stop_if (negb (ty_measure (ba_q a))) TypeError in
  let* _ := stop_if (negb (ty_int (ba_num a))) TypeError in
  let* _ := stop_if (negb (ty_int (ba_depth a))) TypeError in
  let* _ := stop_if (negb (ty_int (ba_support a)) && negb (ty_float (ba_support a))) TypeError in
  let* _ := stop_if (negb (ty_dict (ba_params a))) TypeError in
  let* _ := stop_if (negb (ty_bool (ba_write a))) TypeError in
  let* _ := stop_if (negb (ty_str (ba_path a)) && negb (ty_none (ba_path a))) TypeError in
  fun h0 => (
  let* _ := stop_if (truthy h0 (ba_write a) && ty_none (ba_path a)) ValueError in
  let* b := not_estimated (ba_q a) (ba_oe a) in
  let* _ := stop_if b ValueError in
  let* d := copied (ba_params a) in
  let* e := copied (ba_oparams a) in
  ret (BsdObj a d e (path_of h0 (ba_write a) (ba_path a)) 0 0 0 0)) h0.

(** idsd.py:50-119. *)
Record idsd_args := IdsdArgs { ia_num : pyval; ia_cats : pyval; ia_max : pyval; ia_cov : pyval; ia_or : pyval; ia_p : pyval; ia_abs : pyval; ia_ratio : pyval;
                               ia_write : pyval; ia_path : pyval }.
Record idsd_obj := IdsdObj { io_args : idsd_args; io_path : pyval }.
Definition idsd_init (a : idsd_args) : run idsd_obj :=
  let* _ := stop_if (negb (ty_int (ia_num a))) TypeError in
  let* _ := stop_if (negb (ty_int (ia_cats a))) TypeError in
  let* _ := stop_if (negb (ty_int (ia_max a))) TypeError in
  let* _ := stop_if (negb (ty_float (ia_cov a)) && negb (ty_int (ia_cov a))) TypeError in
  let* _ := stop_if (negb (ty_float (ia_or a)) && negb (ty_int (ia_or a))) TypeError in
  let* _ := stop_if (negb (ty_float (ia_p a)) && negb (ty_int (ia_p a))) TypeError in
  let* _ := stop_if (negb (ty_float (ia_abs a)) && negb (ty_int (ia_abs a))) TypeError in
  let* _ := stop_if (negb (ty_float (ia_ratio a)) && negb (ty_int (ia_ratio a))) TypeError in
  let* _ := stop_if (negb (ty_bool (ia_write a))) TypeError in
  let* _ := stop_if (negb (ty_none (ia_path a)) && negb (ty_str (ia_path a))) TypeError in
  let* _ := stop_if (num_lt (ia_num a) 1) ValueError in
  let* _ := stop_if (num_lt (ia_cats a) (-1) || xeq (pv_num (ia_cats a)) (XFin 0)) ValueError in
  let* _ := stop_if (num_lt (ia_cov a) 0 || num_gt (ia_cov a) 1) ValueError in
  let* _ := stop_if (num_lt (ia_or a) 0) ValueError in
  let* _ := stop_if (num_lt (ia_p a) 0 || num_gt (ia_p a) 1) ValueError in
  let* _ := stop_if (num_lt (ia_abs a) 0) ValueError in
  let* _ := stop_if (num_lt (ia_ratio a) 0) ValueError in
  fun h0 => (
  let* _ := stop_if (truthy h0 (ia_write a) && ty_none (ia_path a)) ValueError in
  ret (IdsdObj a (path_of h0 (ia_write a) (ia_path a)))) h0.

(** qfinder.py:54-110: the types of 'write_results_in_file' and 'file_path' and the value of 'num_subgroups' are not checked. *)
Record qfinder_args := QfinderArgs { qa_num : pyval; qa_cats : pyval; qa_max : pyval; qa_cov : pyval; qa_or : pyval; qa_p : pyval; qa_abs : pyval;
                                     qa_ratio : pyval; qa_delta : pyval; qa_write : pyval; qa_path : pyval }.
Record qfinder_obj := QfinderObj { qo_args : qfinder_args; qo_path : pyval }.
Definition qfinder_init (a : qfinder_args) : run qfinder_obj :=
  let* _ := stop_if (negb (ty_int (qa_num a))) TypeError in
  let* _ := stop_if (negb (ty_int (qa_cats a))) TypeError in
  let* _ := stop_if (negb (ty_int (qa_max a))) TypeError in
  let* _ := stop_if (negb (ty_float (qa_cov a)) && negb (ty_int (qa_cov a))) TypeError in
  let* _ := stop_if (negb (ty_float (qa_or a)) && negb (ty_int (qa_or a))) TypeError in
  let* _ := stop_if (negb (ty_float (qa_p a)) && negb (ty_int (qa_p a))) TypeError in
  let* _ := stop_if (negb (ty_float (qa_abs a)) && negb (ty_int (qa_abs a))) TypeError in
  let* _ := stop_if (negb (ty_float (qa_ratio a)) && negb (ty_int (qa_ratio a))) TypeError in
  let* _ := stop_if (negb (ty_float (qa_delta a)) && negb (ty_int (qa_delta a))) TypeError in
  let* _ := stop_if (num_lt (qa_cats a) (-1)) ValueError in
  let* _ := stop_if (num_lt (qa_cov a) 0 || num_gt (qa_cov a) 1) ValueError in
  let* _ := stop_if (num_lt (qa_or a) 0) ValueError in
  let* _ := stop_if (num_lt (qa_p a) 0 || num_gt (qa_p a) 1) ValueError in
  let* _ := stop_if (num_lt (qa_abs a) 0) ValueError in
  let* _ := stop_if (num_lt (qa_ratio a) 0) ValueError in
  fun h0 => (
  let* _ := stop_if (truthy h0 (qa_write a) && ty_none (qa_path a)) ValueError in
  ret (QfinderObj a (path_of h0 (qa_write a) (qa_path a)))) h0.

(** sdiga.py:186-242. *)
Record sdiga_args := SdigaArgs { ga_gen : pyval; ga_pop : pyval; ga_cross : pyval; ga_mut : pyval; ga_conf : pyval; ga_supp : pyval; ga_min : pyval;
                                 ga_write : pyval; ga_path : pyval }.
Record sdiga_obj := SdigaObj { go_args : sdiga_args; go_path : pyval }.
Definition sdiga_init (a : sdiga_args) : run sdiga_obj :=
  let* _ := stop_if (negb (ty_int (ga_gen a))) TypeError in
  let* _ := stop_if (negb (ty_int (ga_pop a))) TypeError in
  let* _ := stop_if (negb (ty_float (ga_cross a))) TypeError in
  let* _ := stop_if (negb (ty_float (ga_mut a))) TypeError in
  let* _ := stop_if (negb (ty_float (ga_supp a))) TypeError in
  let* _ := stop_if (negb (ty_float (ga_conf a))) TypeError in
  let* _ := stop_if (negb (ty_float (ga_min a))) TypeError in
  let* _ := stop_if (negb (ty_bool (ga_write a))) TypeError in
  let* _ := stop_if (negb (ty_str (ga_path a)) && negb (ty_none (ga_path a))) TypeError in
  fun h0 => (
  let* _ := stop_if (truthy h0 (ga_write a) && ty_none (ga_path a)) ValueError in
  let* _ := stop_if (num_le (ga_gen a) 0) ValueError in
  let* _ := stop_if (num_le (ga_pop a) 0) ValueError in
  let* _ := stop_if (num_le (ga_cross a) 0 || num_ge (ga_cross a) 1) ValueError in
  let* _ := stop_if (num_le (ga_mut a) 0 || num_ge (ga_mut a) 1) ValueError in
  let* _ := stop_if (num_lt (ga_supp a) 0) ValueError in
  let* _ := stop_if (num_lt (ga_conf a) 0) ValueError in
  let* _ := stop_if (num_lt (ga_min a) 0) ValueError in
  ret (SdigaObj a (path_of h0 (ga_write a) (ga_path a)))) h0.

(** gmsl.py:42-59. *)
Record gmsl_args := GmslArgs { la_in : pyval; la_max : pyval; la_beta : pyval; la_out : pyval }.
Definition gmsl_init (a : gmsl_args) : run gmsl_args :=
  let* _ := stop_if (negb (ty_str (la_in a))) TypeError in
  let* _ := stop_if (negb (ty_int (la_max a))) TypeError in
  let* _ := stop_if (num_le (la_max a) 0) ValueError in
  let* _ := stop_if (negb (ty_int (la_beta a)) && negb (ty_float (la_beta a))) TypeError in
  let* _ := stop_if (num_lt (la_beta a) 0 || num_gt (la_beta a) 1) ValueError in
  let* _ := stop_if (negb (ty_str (la_out a))) TypeError in
  ret a.
(** psld.py:31-37. *)
Definition psld_init (size : pyval) (a : gmsl_args) : run (pyval * gmsl_args) :=
  let* _ := stop_if (negb (ty_int size)) TypeError in
  let* _ := stop_if (num_le size 0) ValueError in
  let* o := gmsl_init a in
  ret (size, o).
(** dslm.py:31-38. *)
Definition dslm_init (pos neg size : pyval) (a : gmsl_args) : run (pyval * pyval * (pyval * gmsl_args)) :=
  let* _ := stop_if (negb (ty_float pos)) TypeError in
  let* _ := stop_if (negb (ty_float neg)) TypeError in
  let* o := psld_init size a in
  ret (pos, neg, o).

(** * The calls of the measures *)
(** sdmap.py:161-163, sdmapstar.py:197-199, 259-261, 276-278, 302-304, vlsd.py:195-197, 260-262, bsd.py:234-239: the dictionary that is
    passed to [compute], from the additional parameters at the address [d] of the heap. *)
Definition call_params (h : heap) (d : nat) (tp fp TP FP : Q) : params :=
  d_update [("tp", tp); ("fp", fp); ("TP", TP); ("FP", FP)] (deref h d).
(** vlsd.py:313-315, 367-369 and vertical_list_with_bitsets.py:125-128, vertical_list_with_sets.py:108-111 (join): the additional parameters after the
    populations, and then the counts of the join. *)
Definition join_params (h : heap) (d : nat) (tp fp TP FP : Q) : params :=
  d_set (d_set (d_update [("TP", TP); ("FP", FP)] (deref h d)) "tp" tp) "fp" fp.
(** sdmapstar.py:340-342, _updateKSubgroups: the quality measure is computed with the additional parameters of the optimistic estimate. *)
Definition star_k_params (h : heap) (o : star_obj) (tp fp TP FP : Q) : params := call_params h (to_oparams o) tp fp TP FP.

(** * The measures of the package as objects *)
(** [get_name()], e.g. wracc.py:49-52. *)
Definition measure_name (m : measure) : string :=
  match m with
  | Coverage => "Coverage" | Support => "Support" | PPV => "PPV" | NPV => "NPV" | Sensitivity => "Sensitivity" | Specificity => "Specificity"
  | F1Score => "F1Score" | IRR => "IRR" | Youden => "Youden" | Qg => "Qg" | WRAcc => "WRAcc" | AbsoluteWRAcc => "AbsoluteWRAcc"
  | PiatetskyShapiro => "PiatetskyShapiro" | PSOptimisticEstimate1 => "PiatetskyShapiroOptimisticEstimate1"
  | PSOptimisticEstimate2 => "PiatetskyShapiroOptimisticEstimate2" | WRAccOptimisticEstimate1 => "WRAccOptimisticEstimate1"
  end.
(** [Binomial], [BinomialOE1]: binomial_test.py:54-64, binomial_test_optimistic_estimate_1.py:48-58. *)
Inductive shipped := Plain (m : measure) | Binomial | BinomialOE1.
Definition shipped_obj (s : shipped) : mobj :=
  match s with
  | Plain m => MObj (measure_name m) (map measure_name (optimistic_estimate_of m))
  | Binomial => MObj "BinomialTest" []
  | BinomialOE1 => MObj "BinomialTestOptimisticEstimate1" ["BinomialTest"]
  end.
