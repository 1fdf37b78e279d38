(** Model of /repo/src/subgroups/data_structures/fp_tree_node.py,
    fp_tree_for_sdmap.py and fp_tree_for_sdmapstar.py.

    Objects live in a heap: the list of all the nodes in order of creation, a reference is
    an index.  Node 0 is the root.  Python dictionaries are association lists in insertion
    order; a dictionary keyed by Selector compares keys with [==] ([sel_eq]): equal selectors
    of the kind stored in a tree have equal hashes (C05).  Argument type checks are Gallina
    typing. *)
From Verif Require Export CoreModel.
Open Scope string_scope.
Open Scope list_scope.
Open Scope Z_scope.

(** * fp_tree_node.py *)
(** fp_tree_node.py:23-36, the slots. *)
Record node := Node {
  nd_sel : selector; nd_tp : Z; nd_fp : Z;
  nd_link : option nat; nd_childs : list (selector * nat); nd_parent : option nat }.
Definition heap := list node.

(** Python dict with Selector keys: lookup, deletion. *)
Fixpoint sel_assoc {B} (s : selector) (l : list (selector * B)) : option B :=
  match l with
  | [] => None
  | (k, v) :: l' => if sel_eq k s then Some v else sel_assoc s l'
  end.
Fixpoint sel_assoc_del {B} (s : selector) (l : list (selector * B)) : list (selector * B) :=
  match l with
  | [] => []
  | (k, v) :: l' => if sel_eq k s then l' else (k, v) :: sel_assoc_del s l'
  end.
(** Assignment to an existing key (keeps the position). *)
Fixpoint sel_assoc_upd {B} (s : selector) (f : B -> B) (l : list (selector * B)) : list (selector * B) :=
  match l with
  | [] => []
  | (k, v) :: l' => if sel_eq k s then (k, f v) :: l' else (k, v) :: sel_assoc_upd s f l'
  end.
(** Update of one object of the heap. *)
Fixpoint upd {A} (i : nat) (f : A -> A) (l : list A) : list A :=
  match i, l with
  | _, [] => []
  | O, x :: l' => f x :: l'
  | S j, x :: l' => x :: upd j f l'
  end.
Definition set_parent (p : option nat) (n : node) : node :=
  Node (nd_sel n) (nd_tp n) (nd_fp n) (nd_link n) (nd_childs n) p.
Definition set_childs (c : list (selector * nat)) (n : node) : node :=
  Node (nd_sel n) (nd_tp n) (nd_fp n) (nd_link n) c (nd_parent n).
Definition set_link (l : option nat) (n : node) : node :=
  Node (nd_sel n) (nd_tp n) (nd_fp n) l (nd_childs n) (nd_parent n).
Definition bump (dtp dfp : Z) (n : node) : node :=
  Node (nd_sel n) (nd_tp n + dtp) (nd_fp n + dfp) (nd_link n) (nd_childs n) (nd_parent n).

(** fp_tree_node.py:25-36, constructor: a new object at the end of the heap. *)
Definition new_node (h : heap) (s : selector) (tp fp : Z) (link : option nat) : heap * nat :=
  (h ++ [Node s tp fp link [] None], length h).
(** fp_tree_node.py:79-90. [Unmodelled]: a reference outside the heap. *)
Definition add_child (h : heap) (self child : nat) : res heap :=
  match nth_error h self, nth_error h child with
  | Some n, Some c =>
      match sel_assoc (nd_sel c) (nd_childs n) with
      | Some _ => Err DuplicateFpTreeNodeError
      | None => Ok (upd self (fun x => set_childs (nd_childs x ++ [(nd_sel c, child)]) x)
                      (upd child (set_parent (Some self)) h))
      end
  | _, _ => Err Unmodelled
  end.
(** fp_tree_node.py:92-103 *)
Definition delete_child_by_selector (h : heap) (self : nat) (s : selector) : res heap :=
  match nth_error h self with
  | Some n =>
      match sel_assoc s (nd_childs n) with
      | None => Err KeyError
      | Some c => Ok (upd self (fun x => set_childs (sel_assoc_del s (nd_childs x)) x)
                        (upd c (set_parent None) h))
      end
  | None => Err Unmodelled
  end.
(** fp_tree_node.py:125-136 *)
Definition get_child_by_selector (h : heap) (self : nat) (s : selector) : option nat :=
  match nth_error h self with
  | Some n => sel_assoc s (nd_childs n)
  | None => None
  end.
(** fp_tree_node.py:105-113 *)
Definition has_this_child (h : heap) (self child : nat) : bool :=
  match nth_error h self, nth_error h child with
  | Some n, Some c => match sel_assoc (nd_sel c) (nd_childs n) with
                      | Some i => Nat.eqb i child
                      | None => false
                      end
  | _, _ => false
  end.
(** fp_tree_node.py:115-123 *)
Definition is_child_of (h : heap) (self : nat) (p : option nat) : bool :=
  match nth_error h self with
  | Some n => match nd_parent n, p with
              | None, None => true
              | Some i, Some j => Nat.eqb i j
              | _, _ => false
              end
  | None => false
  end.
(** fp_tree_node.py:62-63, number_of_children *)
Definition number_of_children (h : heap) (i : nat) : nat :=
  match nth_error h i with Some n => length (nd_childs n) | None => O end.

(** * fp_tree_for_sdmap.py *)
(** fp_tree_for_sdmap.py:27-33: an entry of the header table. *)
Record hentry := HE { he_tp : Z; he_fp : Z; he_first : nat; he_last : nat }.
(** fp_tree_for_sdmap.py:22-37 *)
Record fptree := FPT { t_nodes : heap; t_header : list (selector * hentry); t_sorted : list selector }.
Definition root_selector : selector := Sel "None" EQUAL (VStr "None").
Definition empty_tree : fptree := FPT [Node root_selector (-1) (-1) None [] None] [] [].

(** fp_tree_for_sdmap.py:52-57 *)
Definition is_empty (t : fptree) : bool := Nat.eqb (number_of_children (t_nodes t) 0) 0.
(** fp_tree_for_sdmap.py:59-71; fuel: number of nodes. *)
Fixpoint single_path_loop (fuel : nat) (h : heap) (cur : nat) : res bool :=
  match fuel with
  | O => Err OutOfFuel
  | S f =>
      match nth_error h cur with
      | None => Err Unmodelled
      | Some n => match nd_childs n with
                  | [(_, c)] => single_path_loop f h c
                  | [] => Ok true
                  | _ => Ok false
                  end
      end
  end.
Definition there_is_a_single_path (t : fptree) : res bool :=
  single_path_loop (length (t_nodes t)) (t_nodes t) 0.

(** Python's [repr] of a str (code points below 256): single quotes unless the text contains
    a single quote and no double quote; backslash, the quote, \n, \r, \t and the
    non-printable characters are escaped. *)
Definition hex_digit (n : N) : ascii :=
  ascii_of_N (if (n <? 10)%N then 48 + n else 87 + n).
Definition printable (c : ascii) : bool :=
  let n := N_of_ascii c in
  ((32 <=? n) && (n <? 127) || (160 <? n) && negb (n =? 173))%N.
Definition esc_char (q c : ascii) : string :=
  if Ascii.eqb c q || Ascii.eqb c "\" then String "\" (String c "")
  else if Ascii.eqb c "010" then "\n"
  else if Ascii.eqb c "013" then "\r"
  else if Ascii.eqb c "009" then "\t"
  else if printable c then String c ""
  else let n := N_of_ascii c in
       String "\" (String "x" (String (hex_digit (n / 16)) (String (hex_digit (n mod 16)) ""))).
Fixpoint esc_str (q : ascii) (s : string) : string :=
  match s with EmptyString => "" | String c s' => esc_char q c ++ esc_str q s' end.
Definition repr_quote (s : string) : ascii :=
  if has_char "'" s && negb (has_char """" s) then """"%char else "'"%char.
Definition repr_str (s : string) : string :=
  let q := repr_quote s in String q (esc_str q s ++ String q "").
(** [repr] of a cell; ints and floats as Python numbers (numpy's repr of its scalars is not
    modelled: SDMap only accepts str columns). *)
Definition py_repr (v : value) : string :=
  match v with VStr s => repr_str s | _ => py_str v end.

(** fp_tree_for_sdmap.py:110: entries of the dictionary of frequent selectors, and the key
    [column+repr(value)]. *)
Record fentry := FE { fe_sel : selector; fe_tp : Z; fe_fp : Z; fe_ord : Z }.
Definition fe_n (e : fentry) : Z := fe_tp e + fe_fp e.
Definition fdict := list (string * fentry).
Definition fkey (column : string) (v : value) : string := (column ++ py_repr v)%string.
Definition skey (s : selector) : string := fkey (s_attr s) (s_val s).
Fixpoint fdict_get (k : string) (d : fdict) : option fentry :=
  match d with
  | [] => None
  | (k', e) :: d' => if String.eqb k' k then Some e else fdict_get k d'
  end.
Fixpoint fdict_set (k : string) (e : fentry) (d : fdict) : fdict :=
  match d with
  | [] => [(k, e)]
  | (k', e') :: d' => if String.eqb k' k then (k', e) :: d' else (k', e') :: fdict_set k e d'
  end.

(** fp_tree_for_sdmap.py:123, 145, 168 and 289-294: the two threshold types. *)
Definition thresholds (min_tp min_fp min_n : option Z) : res (Z -> Z -> bool) :=
  match min_tp, min_fp, min_n with
  | Some a, Some b, None => Ok (fun tp fp => (a <=? tp) && (b <=? fp))
  | None, None, Some c => Ok (fun tp fp => c <=? tp + fp)
  | _, _, _ => Err InconsistentMethodParametersError
  end.

(** Target column as a mask, fp_tree_for_sdmap.py:125, 147. *)
Definition target_mask (df : dataframe) (tcol : string) (tval : value) : res (list bool) :=
  do col <- df_col df tcol; Ok (map (fun v => py_eq v tval) col).
(** [df.columns.drop(target)] *)
Definition other_columns (df : dataframe) (tcol : string) : list (string * list value) :=
  filter (fun c => negb (String.eqb (fst c) tcol)) (df_cols df).
(** Order of the groups of [groupby] (sorted keys). *)
Definition value_ltb (v w : value) : bool := try_or_str (py_lt v w) (String.ltb (py_str v) (py_str w)).
Fixpoint distinct_values (l : list value) : list value :=
  match l with
  | [] => []
  | v :: l' => v :: filter (fun w => negb (py_eq w v)) (distinct_values l')
  end.
Definition group_values (col : list value) : list value := sort_by value_ltb (distinct_values col).
(** [aggregate(["size","sum"])] of one group, as (tp, fp) = (sum, size - sum). *)
Definition group_counts (mask : list bool) (col : list value) (v : value) : Z * Z :=
  let rows := filter (fun bv => py_eq (snd bv) v) (combine mask col) in
  let size := Z.of_nat (length rows) in
  let sum := Z.of_nat (length (filter fst rows)) in
  (sum, size - sum).
(** fp_tree_for_sdmap.py:130-142, 152-164: one column. *)
Definition add_column (ok : Z -> Z -> bool) (mask : list bool) (acc : fdict * Z) (c : string * list value) : fdict * Z :=
  let '(name, col) := c in
  fold_left (fun '(d, o) v =>
               let '(tp, fp) := group_counts mask col v in
               if ok tp fp then (fdict_set (fkey name v) (FE (Sel name EQUAL v) tp fp o) d, o + 1)
               else (d, o))
    (group_values col) acc.
(** fp_tree_for_sdmap.py:102-168, generate_set_of_frequent_selectors *)
Definition generate_set_of_frequent_selectors (df : dataframe) (tcol : string) (tval : value)
  (min_tp min_fp min_n : option Z) : res fdict :=
  do ok <- thresholds min_tp min_fp min_n;
  do mask <- target_mask df tcol tval;
  Ok (fst (fold_left (add_column ok mask) (other_columns df tcol) ([], 0))).

(** fp_tree_for_sdmap.py:389-418, _insert_in_conditional_fp_tree, from the node [cur].
    _insert_tree (171-226) is the same loop with (fixed_tp, fixed_fp) = (1, 0) when the target
    matches and (0, 1) otherwise: its four branches are the two branches below for the two
    values of [target_match]. *)
Fixpoint insert_path (t : fptree) (cur : nat) (l : list selector) (dtp dfp : Z) : res fptree :=
  match l with
  | [] => Ok t
  | s :: l' =>
      match get_child_by_selector (t_nodes t) cur s with
      | Some c =>
          match sel_assoc s (t_header t) with
          | None => Err KeyError
          | Some _ =>
              insert_path (FPT (upd c (bump dtp dfp) (t_nodes t))
                               (sel_assoc_upd s (fun e => HE (he_tp e + dtp) (he_fp e + dfp) (he_first e) (he_last e)) (t_header t))
                               (t_sorted t)) c l' dtp dfp
          end
      | None =>
          let '(h, c) := new_node (t_nodes t) s dtp dfp None in
          do h <- add_child h cur c;
          match sel_assoc s (t_header t) with
          | Some e =>
              insert_path (FPT (upd (he_last e) (set_link (Some c)) h)
                               (sel_assoc_upd s (fun e => HE (he_tp e + dtp) (he_fp e + dfp) (he_first e) c) (t_header t))
                               (t_sorted t)) c l' dtp dfp
          | None => insert_path (FPT h (t_header t ++ [(s, HE dtp dfp c c)]) (t_sorted t)) c l' dtp dfp
          end
      end
  end.
(** fp_tree_for_sdmap.py:171-226 *)
Definition insert_tree (t : fptree) (l : list selector) (target_match : bool) : res fptree :=
  if target_match then insert_path t 0 l 1 0 else insert_path t 0 l 0 1.

(** fp_tree_for_sdmap.py:258-259 and 366-367: the two stable sorts.  A key missing from the
    dictionary would be a KeyError; it cannot happen, the selectors come from it. *)
Definition dict_ord (d : fdict) (s : selector) : Z :=
  match fdict_get (skey s) d with Some e => fe_ord e | None => 0 end.
Definition dict_n (d : fdict) (s : selector) : Z :=
  match fdict_get (skey s) d with Some e => fe_n e | None => 0 end.
Definition sort_transaction (d : fdict) (l : list selector) : list selector :=
  sort_by (fun x y => dict_n d y <? dict_n d x) (sort_by (fun x y => dict_ord d x <? dict_ord d y) l).
(** fp_tree_for_sdmap.py:246-254: selectors of a row, pruned ones skipped. *)
Fixpoint row_selectors (d : fdict) (cols : list (string * list value)) (i : nat) : list selector :=
  match cols with
  | [] => []
  | (name, col) :: cols' =>
      match nth_error col i with
      | Some v => match fdict_get (fkey name v) d with
                  | Some e => fe_sel e :: row_selectors d cols' i
                  | None => row_selectors d cols' i
                  end
      | None => row_selectors d cols' i
      end
  end.
(** fp_tree_for_sdmap.py:262-269 and 370-377: the sorted header table. *)
Definition header_n (t : fptree) (s : selector) : Z :=
  match sel_assoc s (t_header t) with Some e => he_tp e + he_fp e | None => 0 end.
Definition finish_header (t : fptree) : fptree :=
  FPT (t_nodes t) (t_header t)
      (sort_by (fun x y => header_n t x <? header_n t y) (map fst (t_header t))).
(** fp_tree_for_sdmap.py:228-269, build_tree (on an existing tree). *)
Definition build_tree (t : fptree) (df : dataframe) (d : fdict) (tcol : string) (tval : value) : res fptree :=
  do mask <- target_mask df tcol tval;
  do t <- fold_res (fun t i =>
            insert_tree t (sort_transaction d (row_selectors d (other_columns df tcol) i)) (nth i mask false))
          (seq 0 (df_n df)) t;
  Ok (finish_header t).

(** fp_tree_for_sdmap.py:310, 337: the horizontal list from a node; fuel: number of nodes. *)
Fixpoint horizontal (fuel : nat) (h : heap) (cur : option nat) : res (list nat) :=
  match cur with
  | None => Ok []
  | Some i =>
      match fuel with
      | O => Err OutOfFuel
      | S f => match nth_error h i with
               | None => Err Unmodelled
               | Some n => do r <- horizontal f h (nd_link n); Ok (i :: r)
               end
      end
  end.
(** fp_tree_for_sdmap.py:314-331: selectors from a node up to (excluding) the root, bottom
    first; fuel: number of nodes.  Beyond a node without parent: [None._selector]. *)
Fixpoint path_up (fuel : nat) (h : heap) (cur : option nat) : res (list selector) :=
  match cur with
  | None => Err AttributeError
  | Some O => Ok []
  | Some i =>
      match fuel with
      | O => Err OutOfFuel
      | S f => match nth_error h i with
               | None => Err Unmodelled
               | Some n => do r <- path_up f h (nd_parent n); Ok (nd_sel n :: r)
               end
      end
  end.
(** fp_tree_for_sdmap.py:319-327: one selector of a path in [dict_of_all_frequent_selectors];
    the second component is [insertion_order]. *)
Definition dict_bump (tp fp : Z) (acc : fdict * Z) (s : selector) : fdict * Z :=
  let '(d, o) := acc in
  match fdict_get (skey s) d with
  | Some e => (fdict_set (skey s) (FE (fe_sel e) (fe_tp e + tp) (fe_fp e + fp) (fe_ord e)) d, o)
  | None => (d ++ [(skey s, FE s tp fp o)], o - 1)
  end.
(** fp_tree_for_sdmap.py:310-337: conditional pattern base and dictionary, over the nodes of
    the horizontal list. *)
Definition base_step (h : heap) (acc : list (list selector * (Z * Z)) * (fdict * Z)) (i : nat)
  : res (list (list selector * (Z * Z)) * (fdict * Z)) :=
  let '(base, do_) := acc in
  match nth_error h i with
  | None => Err Unmodelled
  | Some n =>
      do up <- path_up (length h) h (nd_parent n);
      let do' := fold_left (dict_bump (nd_tp n) (nd_fp n)) up do_ in
      Ok (match up with [] => base | _ => base ++ [(rev up, (nd_tp n, nd_fp n))] end, do')
  end.
(** fp_tree_for_sdmap.py:338-347, pruning. *)
Definition prune_dict (ok : Z -> Z -> bool) (d : fdict) : fdict :=
  filter (fun ke => ok (fe_tp (snd ke)) (fe_fp (snd ke))) d.
(** fp_tree_for_sdmap.py:353-362 *)
Fixpoint valid_selectors (d : fdict) (path : list selector) : list selector :=
  match path with
  | [] => []
  | s :: p => match fdict_get (skey s) d with
              | Some e => fe_sel e :: valid_selectors d p
              | None => valid_selectors d p
              end
  end.
(** fp_tree_for_sdmap.py:297-379 after the horizontal list has been read. *)
Definition conditional_from (t : fptree) (ids : list nat) (ok : Z -> Z -> bool) : res fptree :=
  do acc <- fold_res (base_step (t_nodes t)) ids ([], ([], 0));
  let '(base, (dall, _)) := acc in
  let d := prune_dict ok dall in
  do t' <- fold_res (fun t' e => insert_path t' 0 (sort_transaction d (valid_selectors d (fst e))) (fst (snd e)) (snd (snd e)))
             base empty_tree;
  Ok (finish_header t').
(** fp_tree_for_sdmap.py:271-379, generate_conditional_fp_tree *)
Definition generate_conditional_fp_tree (t : fptree) (l : list selector) (min_tp min_fp min_n : option Z) : res fptree :=
  do ok <- thresholds min_tp min_fp min_n;
  match l with
  | [] => Err IndexError
  | first :: _ =>
      match sel_assoc first (t_header t) with
      | None => Ok empty_tree
      | Some e =>
          do ids <- horizontal (length (t_nodes t)) (t_nodes t) (Some (he_first e));
          conditional_from t ids ok
      end
  end.

(** * fp_tree_for_sdmapstar.py *)
(** fp_tree_for_sdmapstar.py:80-91: keep the nodes whose optimistic estimate is not below the
    minimum; the second component counts the skipped ones. [low tp fp]: estimate < minimum. *)
Fixpoint star_filter (low : Z -> Z -> res bool) (h : heap) (ids : list nat) : res (list nat * nat) :=
  match ids with
  | [] => Ok ([], O)
  | i :: ids' =>
      match nth_error h i with
      | None => Err Unmodelled
      | Some n =>
          do b <- low (nd_tp n) (nd_fp n);
          do r <- star_filter low h ids';
          Ok (if b then (fst r, S (snd r)) else (i :: fst r, snd r))
      end
  end.
(** fp_tree_for_sdmapstar.py:37-160, generate_conditional_fp_tree_star *)
Definition generate_conditional_fp_tree_star (t : fptree) (l : list selector) (low : Z -> Z -> res bool)
  (min_tp min_fp min_n : option Z) : res (fptree * nat) :=
  do ok <- thresholds min_tp min_fp min_n;
  match l with
  | [] => Err IndexError
  | first :: _ =>
      match sel_assoc first (t_header t) with
      | None => Ok (empty_tree, O)
      | Some e =>
          do ids <- horizontal (length (t_nodes t)) (t_nodes t) (Some (he_first e));
          do kp <- star_filter low (t_nodes t) ids;
          do t' <- conditional_from t (fst kp) ok;
          Ok (t', snd kp)
      end
  end.
