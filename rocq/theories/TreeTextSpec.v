(** Specification of the texts of FP-trees (C80). *)
From Coq Require Import String ZArith List Bool.
From Verif Require Import FPTreeModel.
Import ListNotations.
Open Scope Z_scope.
Open Scope string_scope.
Open Scope list_scope.

(** [c] is in the dictionary of children of [p]; [j] is [i] or a node below it. *)
Definition child_of (h : heap) (p c : nat) : Prop := exists n k, nth_error h p = Some n /\ In (k, c) (nd_childs n).
Inductive below (h : heap) (i : nat) : nat -> Prop :=
| below_self : below h i i
| below_child : forall p c, below h i p -> child_of h p c -> below h i c.
(** The text of one node: its identity, selector, counters and the identity of the next node with the same selector. *)
Definition node_text (addr : nat -> Z) (h : heap) (i : nat) : string :=
  match nth_error h i with
  | Some n => "{id: " ++ str_of_Z (addr i) ++ ", selector: " ++ sel_str (nd_sel n) ++ ", counters: [" ++ str_of_Z (nd_tp n) ++ ", " ++ str_of_Z (nd_fp n)
              ++ "], node_link_id: " ++ match nd_link n with Some j => str_of_Z (addr j) | None => "None" end ++ "}"
  | None => ""
  end%string.
(** A line at depth [d]: nothing before a node of depth 0 (or less), otherwise "|--- " after four blanks for each depth above one. *)
Definition spec_line (addr : nat -> Z) (h : heap) (e : nat * Z) : string :=
  ((if (snd e <=? 0)%Z then "" else String.concat "" (repeat "    " (Z.to_nat (snd e) - 1)) ++ "|--- ") ++ node_text addr h (fst e) ++ String "010" "")%string.
(** A list of nodes with depths shows the tree below node [i], starting at depth [k]: node [i] first,
    every node below it exactly once, each node after its parent, with no node of the parent's depth or less between them and a
    depth one more; the children of a node in the order of its dictionary of children. *)
Definition shows (h : heap) (i : nat) (k : Z) (L : list (nat * Z)) : Prop :=
  hd_error L = Some (i, k) /\ NoDup (map fst L) /\ (forall j, In j (map fst L) <-> below h i j) /\
  (forall a j d b, L = a ++ (j, d) :: b -> a <> [] -> exists a1 p a2, a = a1 ++ (p, d - 1) :: a2 /\ child_of h p j /\ Forall (fun x => d <= snd x) a2) /\
  (forall p n, In p (map fst L) -> nth_error h p = Some n ->
     filter (fun j => existsb (Nat.eqb j) (map snd (nd_childs n))) (map fst L) = map snd (nd_childs n)).

(** One line of the header table: the selector, its summations, and the nodes with that selector, ended by None when all are shown. *)
Definition header_line (addr : nat -> Z) (t : fptree) (follow : bool) (chain : selector -> list nat) (e : selector * hentry) : string :=
  let nodes := map (node_text addr (t_nodes t)) (chain (fst e)) in
  ("{selector: " ++ sel_str (fst e) ++ ", summations: [" ++ str_of_Z (he_tp (snd e)) ++ ", " ++ str_of_Z (he_fp (snd e)) ++ "]} -> "
  ++ String.concat " -> " (if follow then nodes ++ ["None"%string] else firstn 1 nodes) ++ String "010" "")%string.
