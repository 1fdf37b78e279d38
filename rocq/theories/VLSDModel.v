(** Model of /repo/src/subgroups/algorithms/subgroup_sets/vlsd.py.
    As in SDMapModel, the quality measure and the optimistic estimate are parameters: any
    functions of (tp, fp, TP, FP) that return a value or raise; the comparisons with the two
    thresholds are arbitrary boolean tests and the order used for sorting is an arbitrary
    boolean comparison.  The output file is the list of the written lines, as records. *)
From Verif Require Export VerticalModel SDMapModel.
Open Scope string_scope.
Open Scope list_scope.
Open Scope Z_scope.

(** vlsd.py:83-85, 267-270: the two vertical list classes. *)
Record vl_impl (Seq : Type) := VI {
  vi_init : forall V, list selector -> list nat -> list nat -> nat -> V -> res (vlist Seq V);
  vi_join : forall V, (nat -> nat -> res V) -> vlist Seq V -> vlist Seq V -> bool -> res (option (vlist Seq V)) }.
Arguments VI {Seq}. Arguments vi_init {Seq} _ {V}. Arguments vi_join {Seq} _ {V}.
Definition with_sets : vl_impl (list nat) := VI (@vls_init) (@vls_join).
Definition with_bitsets : vl_impl (list bool) := VI (@vlb_init) (@vlb_join).

(** vlsd.py:78-81 *)
Inductive sort_criterion := NO_ORDER | QUALITY_ASCENDING | QUALITY_DESCENDING.
(** vlsd.py:118-135: the attributes set by the constructor and never changed.
    [vc_reaches q] is [q >= q_minimum_threshold] (199), [vc_oe_reaches o] is
    [o >= oe_minimum_threshold] (264, 312, 316, 371), [vc_lt] the comparison of quality values
    made by list.sort. *)
Record vl_config (V : Type) := VC {
  vc_measure : Z -> Z -> Z -> Z -> res V; vc_reaches : V -> bool;
  vc_oe : Z -> Z -> Z -> Z -> res V; vc_oe_reaches : V -> bool;
  vc_lt : V -> V -> bool;
  vc_sort_s1 : sort_criterion; vc_sort_other : sort_criterion; vc_write : bool }.
Arguments VC {V}. Arguments vc_measure {V}. Arguments vc_reaches {V}. Arguments vc_oe {V}. Arguments vc_oe_reaches {V}.
Arguments vc_lt {V}. Arguments vc_sort_s1 {V}. Arguments vc_sort_other {V}. Arguments vc_write {V}.

(** A line of the output file, vlsd.py:208-216. *)
Record vl_record (Seq V : Type) := VRec {
  vr_line : record V; vr_seq_tp : Seq; vr_seq_fp : Seq; vr_oe : V }.
Arguments VRec {Seq V}. Arguments vr_line {Seq V}. Arguments vr_seq_tp {Seq V}. Arguments vr_seq_fp {Seq V}. Arguments vr_oe {Seq V}.
(** The attributes that change, and the content of the output file. *)
Record vl_state (Seq V : Type) := VS { vs_selected : nat; vs_unselected : nat; vs_file : option (list (vl_record Seq V)) }.
Arguments VS {Seq V}. Arguments vs_selected {Seq V}. Arguments vs_unselected {Seq V}. Arguments vs_file {Seq V}.
(** vlsd.py:126-127, 135 *)
Definition vlsd_new {Seq V} : vl_state Seq V := VS 0 0 None.
(** vlsd.py:168-173, the property visited_nodes. *)
Definition vl_visited {Seq V} (st : vl_state Seq V) : nat := (vs_selected st + vs_unselected st)%nat.

Section VLSD.
  Context {Seq V : Type}.
  Variable impl : vl_impl Seq.
  Variable c : vl_config V.

  (** vlsd.py:184-220, _handle_individual_result *)
  Definition vl_handle (tsel : selector) (TP FP : Z) (st : vl_state Seq V) (v : vlist Seq V) : res (vl_state Seq V) :=
    let tp := Z.of_nat (vl_tp v) in
    let fp := Z.of_nat (vl_fp v) in
    do q <- vc_measure c tp fp TP FP;
    Ok (if vc_reaches c q
        then VS (S (vs_selected st)) (vs_unselected st)
                (if vc_write c
                 then match vs_file st with
                      | Some l => Some (l ++ [VRec (Rec (SG (pattern_init (vl_sels v)) tsel) q tp fp TP FP)
                                                   (vl_seq_tp v) (vl_seq_fp v) (vl_quality v)])
                      | None => None
                      end
                 else vs_file st)
        else VS (vs_selected st) (S (vs_unselected st)) (vs_file st)).

  (** vlsd.py:276-279, 324-327, 384-387: stable sort by quality value; [reverse=True] keeps
      the order of equal elements. *)
  Definition vl_sort (k : sort_criterion) (l : list (vlist Seq V)) : list (vlist Seq V) :=
    match k with
    | NO_ORDER => l
    | QUALITY_ASCENDING => sort_by (fun x y => vc_lt c (vl_quality x) (vl_quality y)) l
    | QUALITY_DESCENDING => sort_by (fun x y => vc_lt c (vl_quality y) (vl_quality x)) l
    end.

  (** vlsd.py:241, 251, 256: the positions of the rows with the value [v] and with the target
      mask equal to [b] ([groupby(...).indices], increasing). *)
  Definition registers (mask : list bool) (col : list value) (v : value) (b : bool) : list nat :=
    filter (fun i => match nth_error mask i, nth_error col i with
                     | Some m, Some w => Bool.eqb m b && py_eq w v
                     | _, _ => false
                     end) (seq 0 (length col)).
  (** vlsd.py:248-274: one value of one column. *)
  Definition s1_value (mask : list bool) (TP FP : Z) (name : string) (col : list value)
    (acc : list (vlist Seq V)) (v : value) : res (list (vlist Seq V)) :=
    let rtp := registers mask col v true in
    let rfp := registers mask col v false in
    do o <- vc_oe c (Z.of_nat (length rtp)) (Z.of_nat (length rfp)) TP FP;
    if vc_oe_reaches c o
    then do x <- vi_init impl [Sel name EQUAL v] rtp rfp (Z.to_nat (TP + FP)) o; Ok (acc ++ [x])
    else Ok acc.
  (** vlsd.py:223-281, _generate_subgroups_s1; the values of a column are processed once
      each, in the order of the groups. *)
  Definition generate_s1 (df : dataframe) (mask : list bool) (tcol : string) (TP FP : Z) : res (list (vlist Seq V)) :=
    do l <- fold_res (fun acc nc => fold_res (s1_value mask TP FP (fst nc) (snd nc)) (group_values (snd nc)) acc)
                     (other_columns df tcol) [];
    Ok (vl_sort (vc_sort_s1 c) l).

  Notation matrix := (list (selector * list (selector * vlist Seq V))).
  (** vlsd.py:47-61, _query_triangular_matrix: M[a][b], on KeyError M[b][a], on KeyError None. *)
  Definition matrix_at (M : matrix) (a b : selector) : option (vlist Seq V) :=
    match sel_assoc a M with Some row => sel_assoc b row | None => None end.
  Definition query_matrix (M : matrix) (a b : selector) : option (vlist Seq V) :=
    match matrix_at M a b with
    | Some v => Some v
    | None => matrix_at M b a
    end.
  (** The estimate of a join, vlsd.py:313-315, 367-369. *)
  Definition join_oe (TP FP : Z) (tp fp : nat) : res V := vc_oe c (Z.of_nat tp) (Z.of_nat fp) TP FP.

  (** [d[k] = v]: replaces the value of an existing key, appends a new key. *)
  Definition dict_set {B} (k : selector) (v : B) (d : list (selector * B)) : list (selector * B) :=
    match sel_assoc k d with
    | Some _ => sel_assoc_upd k (fun _ => v) d
    | None => d ++ [(k, v)]
    end.
  (** vlsd.py:373-376 *)
  Definition matrix_set (M : matrix) (a b : selector) (v : vlist Seq V) : matrix :=
    match sel_assoc a M with
    | Some _ => sel_assoc_upd a (dict_set b v) M
    | None => M ++ [(a, [(b, v)])]
    end.
  (** vlsd.py:362-376: one pair. *)
  Definition matrix_step (TP FP : Z) (x : vlist Seq V) (M : matrix) (y : vlist Seq V) : res matrix :=
    do lx <- last_elem (vl_sels x);
    do ly <- last_elem (vl_sels y);
    do xy <- vi_join impl (join_oe TP FP) x y true;
    match xy with
    | Some v => Ok (if vc_oe_reaches c (vl_quality v) then matrix_set M lx ly v else M)
    | None => Ok M
    end.
  (** vlsd.py:356-376 *)
  Fixpoint build_matrix (TP FP : Z) (s1 : list (vlist Seq V)) (M : matrix) : res matrix :=
    match s1 with
    | [] => Ok M
    | x :: ys => do M <- fold_res (matrix_step TP FP x) ys M; build_matrix TP FP ys M
    end.

  (** vlsd.py:306-320: the join of [s_x] with one list to its right. *)
  Definition extend (M : matrix) (tsel : selector) (TP FP : Z) (s_x : vlist Seq V) (lx : selector)
    (acc : list (vlist Seq V) * vl_state Seq V) (s_y : vlist Seq V) : res (list (vlist Seq V) * vl_state Seq V) :=
    let '(W, st) := acc in
    do ly <- last_elem (vl_sels s_y);
    match query_matrix M lx ly with
    | None => Ok (W, st)
    | Some m =>
        if vc_oe_reaches c (vl_quality m) then
          do xy <- vi_join impl (join_oe TP FP) s_x s_y true;
          match xy with
          | None => Ok (W, st)
          | Some v => if vc_oe_reaches c (vl_quality v)
                      then do st' <- vl_handle tsel TP FP st v; Ok (W ++ [v], st')
                      else Ok (W, st)
          end
        else Ok (W, st)
    end.
  (** vlsd.py:283-328, _search: the while loop is the inner recursion (the last element of P
      is not expanded); the depth of the recursion is bounded by the length of P (fuel). *)
  Fixpoint search (M : matrix) (tsel : selector) (TP FP : Z) (fuel : nat) (P : list (vlist Seq V))
    (st : vl_state Seq V) {struct fuel} : res (vl_state Seq V) :=
    match fuel with
    | O => Err OutOfFuel
    | S f =>
        (fix loop (P : list (vlist Seq V)) (st : vl_state Seq V) {struct P} : res (vl_state Seq V) :=
           match P with
           | [] => Ok st
           | s_x :: rest =>
               match rest with
               | [] => Ok st
               | _ :: _ =>
                   do lx <- last_elem (vl_sels s_x);
                   do Wst <- fold_res (extend M tsel TP FP s_x lx) rest ([], st);
                   let '(W, st) := Wst in
                   do st <- match W with
                            | [] => Ok st
                            | _ :: _ => search M tsel TP FP f (vl_sort (vc_sort_other c) W) st
                            end;
                   loop rest st
               end
           end) P st
    end.
  (** vlsd.py:379-391: one list of size 1. *)
  Definition search_from (M : matrix) (tsel : selector) (TP FP : Z) (st : vl_state Seq V) (x : vlist Seq V) : res (vl_state Seq V) :=
    do s <- last_elem (vl_sels x);
    match sel_assoc s M with
    | None => Ok st
    | Some row =>
        let P := vl_sort (vc_sort_other c) (map snd row) in
        do st <- fold_res (vl_handle tsel TP FP) P st;
        search M tsel TP FP (S (length P)) P st
    end.

  (** vlsd.py:330-395, fit.  The target is (column, str value). *)
  Definition vlsd_fit (st : vl_state Seq V) (df : dataframe) (tcol tval : string) : res (vl_state Seq V) :=
    if negb (all_nominal df) then Err DatasetAttributeTypeError else
    let st := if vc_write c then VS (vs_selected st) (vs_unselected st) (Some []) else st in
    let tsel := Sel tcol EQUAL (VStr tval) in
    do mask <- target_mask df tcol (VStr tval);
    let '(TP, FP) := population df mask in
    do s1 <- generate_s1 df mask tcol TP FP;
    do st <- fold_res (vl_handle tsel TP FP) s1 st;
    do M <- build_matrix TP FP s1 [];
    fold_res (search_from M tsel TP FP) (removelast s1) st.
End VLSD.
