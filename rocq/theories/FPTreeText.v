(** Model of the texts of FP-trees: [FPTreeNode.__str__], [FPTreeNode.tree_as_str],
    [FPTree.tree_as_str] and [FPTree.header_table_as_str].  The objects of a tree are the positions of
    its heap (FPTreeModel); [addr i] is Python's [id] of node [i], an arbitrary number.  Strings and
    [str] of an int, a list of ints and a selector as in CoreModel. *)
From Coq Require Import String Ascii ZArith List Bool.
From Verif Require Import FPTreeModel.
Import ListNotations.
Open Scope list_scope.
Open Scope Z_scope.
Open Scope string_scope.

Definition newline : string := String (ascii_of_nat 10) EmptyString.
Section Text.
  Variable addr : nat -> Z.
  (** [str([tp, fp])]. *)
  Definition counters_str (tp fp : Z) : string := "[" ++ str_of_Z tp ++ ", " ++ str_of_Z fp ++ "]".
  (** fp_tree_node.py:138-142; the text of node [i] of the heap. *)
  Definition node_str (i : nat) (n : node) : string :=
    let final_str := "{id: " ++ str_of_Z (addr i) ++ ", selector: " ++ sel_str (nd_sel n) ++ ", counters: " ++ counters_str (nd_tp n) (nd_fp n) in
    match nd_link n with
    | None => final_str ++ ", node_link_id: None}"
    | Some j => final_str ++ ", node_link_id: " ++ str_of_Z (addr j) ++ "}"
    end.
  (** Python's [text * count]: nothing for a count below one. *)
  Fixpoint times (count : nat) (text : string) : string := match count with O => "" | S k => text ++ times k text end.
  (** fp_tree_node.py:144-158: the text of node [i] and everything below it; fuel: number of nodes
      (Python's recursion limit is not modelled).  The children are read in the order of the dictionary. *)
  Fixpoint tree_as_str (fuel : nat) (h : heap) (i : nat) (current_depth : Z) : res string :=
    match fuel with
    | O => Err OutOfFuel
    | S f =>
        match nth_error h i with
        | None => Err Unmodelled
        | Some n =>
            let result := if current_depth >? 0 then times (Z.to_nat (current_depth - 1)) "    " ++ "|--- " else "" in
            let result := result ++ node_str i n ++ newline in
            fold_res (fun result kc => do x <- tree_as_str f h (snd kc) (current_depth + 1); Ok (result ++ x)) (nd_childs n) result
        end
    end%string.
  (** fp_tree_for_sdmap.py:73-78. *)
  Definition fptree_as_str (t : fptree) : res string := tree_as_str (length (t_nodes t)) (t_nodes t) 0 0.

  (** [str] of a node or of [None]. *)
  Definition link_str (h : heap) (l : option nat) : res string :=
    match l with
    | None => Ok "None"%string
    | Some i => match nth_error h i with None => Err Unmodelled | Some n => Ok (node_str i n) end
    end.
  (** fp_tree_for_sdmap.py:92-96: the loop over the horizontal list; fuel: number of nodes. *)
  Fixpoint follow_links (fuel : nat) (h : heap) (cur : option nat) (result : string) : res string :=
    match cur with
    | None => Ok result
    | Some i =>
        match fuel with
        | O => Err OutOfFuel
        | S f => match nth_error h i with
                 | None => Err Unmodelled
                 | Some n => do x <- link_str h (nd_link n); follow_links f h (nd_link n) (result ++ " -> " ++ x)%string
                 end
        end
    end.
  (** fp_tree_for_sdmap.py:80-99, called with a [bool]. *)
  Definition header_table_as_str (t : fptree) (follow_node_links : bool) : res string :=
    fold_res (fun result e =>
      do first <- link_str (t_nodes t) (Some (he_first (snd e)));
      let result := (result ++ "{selector: " ++ sel_str (fst e) ++ ", ")%string in
      let result := (result ++ "summations: " ++ counters_str (he_tp (snd e)) (he_fp (snd e)) ++ "} -> " ++ first)%string in
      do result <- (if follow_node_links then follow_links (length (t_nodes t)) (t_nodes t) (Some (he_first (snd e))) result else Ok result);
      Ok (result ++ newline)%string) (t_header t) ""%string.
End Text.
