(** Model of data_structures/fp_tree_node.py with all its operations: nodes are objects in a heap, the children are a Python dictionary whose
    keys are found by hash and [==] (the hash of a selector is the hash of its text, selector.py:190-191; [hs] is Python's hash of strings).
    FPTreeModel.v is the part that the trees use, with keys compared by [==] only; C53_trees relates them. *)
From Verif Require Import FPTreeModel.
Open Scope string_scope.
Open Scope list_scope.
Open Scope nat_scope.

(** fp_tree_node.py:23-36. *)
Record fnode := FNode { fn_sel : selector; fn_counters : list Z; fn_link : option nat; fn_childs : list (selector * nat); fn_parent : option nat }.
Definition fheap := list fnode.
Section Nodes.
Variable hs : string -> Z.
(** A key of a dictionary: the same hash and [==]. *)
Definition same_key (k s : selector) : bool := (sel_hash hs k =? sel_hash hs s)%Z && sel_eq k s.
Fixpoint d_get (s : selector) (l : list (selector * nat)) : option nat :=
  match l with
  | [] => None
  | (k, v) :: l' => if same_key k s then Some v else d_get s l'
  end.
Fixpoint d_remove (s : selector) (l : list (selector * nat)) : list (selector * nat) :=
  match l with
  | [] => []
  | (k, v) :: l' => if same_key k s then l' else (k, v) :: d_remove s l'
  end.
(** The operations of a program; a reference is the number of the node in order of creation.  fp_tree_node.py:25-36 (constructor),
    79-90 (add_child), 92-103 (delete_child_by_selector), 47-50, 52-55, 57-60, 68-71 (setters of selector, counters, node_link, parent). *)
Inductive fop := FNew (s : selector) (c : list Z) (link : option nat) | FAdd (self child : nat) | FDel (self : nat) (s : selector)
| FSetSel (self : nat) (s : selector) | FSetCounters (self : nat) (c : list Z) | FSetLink (self : nat) (l : option nat) | FSetParent (self : nat) (p : option nat).
Definition f_parent (p : option nat) (n : fnode) : fnode := FNode (fn_sel n) (fn_counters n) (fn_link n) (fn_childs n) p.
Definition f_childs (c : list (selector * nat)) (n : fnode) : fnode := FNode (fn_sel n) (fn_counters n) (fn_link n) c (fn_parent n).
(** fp_tree_node.py:79-90. *)
Definition f_add (h : fheap) (self child : nat) : res fheap :=
  match nth_error h self, nth_error h child with
  | Some n, Some c =>
      match d_get (fn_sel c) (fn_childs n) with
      | Some _ => Err DuplicateFpTreeNodeError
      | None => Ok (upd self (fun x => f_childs (fn_childs x ++ [(fn_sel c, child)]) x) (upd child (f_parent (Some self)) h))
      end
  | _, _ => Err Unmodelled
  end.
(** fp_tree_node.py:92-103. *)
Definition f_del (h : fheap) (self : nat) (s : selector) : res fheap :=
  match nth_error h self with
  | Some n =>
      match d_get s (fn_childs n) with
      | None => Err KeyError
      | Some c => Ok (upd self (fun x => f_childs (d_remove s (fn_childs x)) x) (upd c (f_parent None) h))
      end
  | None => Err Unmodelled
  end.
(** fp_tree_node.py:125-136. *)
Definition f_get (h : fheap) (self : nat) (s : selector) : option nat :=
  match nth_error h self with Some n => d_get s (fn_childs n) | None => None end.
(** fp_tree_node.py:105-113. *)
Definition f_has (h : fheap) (self node : nat) : bool :=
  match nth_error h self, nth_error h node with
  | Some n, Some c => match d_get (fn_sel c) (fn_childs n) with Some i => Nat.eqb i node | None => false end
  | _, _ => false
  end.
(** fp_tree_node.py:65-66, 115-123. *)
Definition f_parent_of (h : fheap) (i : nat) : option nat := match nth_error h i with Some n => fn_parent n | None => None end.
Definition f_is_child (h : fheap) (i : nat) (p : option nat) : bool :=
  match f_parent_of h i, p with
  | None, None => true
  | Some a, Some b => Nat.eqb a b
  | _, _ => false
  end.
(** fp_tree_node.py:62-63, 38-45. *)
Definition f_number (h : fheap) (i : nat) : nat := match nth_error h i with Some n => length (fn_childs n) | None => 0 end.
Definition f_selector (h : fheap) (i : nat) : option selector := option_map fn_sel (nth_error h i).
(** One operation; one that raises leaves the objects as they were (the checks come first). *)
Definition f_step (h : fheap) (op : fop) : fheap :=
  match op with
  | FNew s c l => h ++ [FNode s c l [] None]
  | FAdd i c => match f_add h i c with Ok h' => h' | Err _ => h end
  | FDel i s => match f_del h i s with Ok h' => h' | Err _ => h end
  | FSetSel i s => upd i (fun n => FNode s (fn_counters n) (fn_link n) (fn_childs n) (fn_parent n)) h
  | FSetCounters i c => upd i (fun n => FNode (fn_sel n) c (fn_link n) (fn_childs n) (fn_parent n)) h
  | FSetLink i l => upd i (fun n => FNode (fn_sel n) (fn_counters n) l (fn_childs n) (fn_parent n)) h
  | FSetParent i p => upd i (f_parent p) h
  end.
Definition f_history (ops : list fop) : fheap := fold_left f_step ops [].
End Nodes.
