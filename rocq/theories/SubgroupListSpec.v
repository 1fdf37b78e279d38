(** Specification vocabulary for subgroup lists. *)
From Verif Require Export SubgroupListModel.
Open Scope list_scope.
Open Scope nat_scope.

(** Client histories. A rejected operation leaves the object as it was (the exception is raised
    before anything is modified, subgroup_list.py:83-92). *)
Inductive sl_op := SLAdd (g : subgroup) (pos neg : list bool) | SLDelete.
Definition sl_step (l : sglist) (o : sl_op) : sglist :=
  match (match o with SLAdd g pos neg => sl_add l g pos neg | SLDelete => sl_delete_last l end) with
  | Ok l' => l'
  | Err _ => l
  end.
Definition sl_history (l : sglist) (ops : list sl_op) : sglist := fold_left sl_step ops l.
(** The same history on a stack of (subgroup, positives, negatives); [n] rows. *)
Definition stack_step (n : nat) (st : list (subgroup * list bool * list bool)) (o : sl_op) :=
  match o with
  | SLAdd g pos neg => if (length pos =? n) && (length neg =? n) then st ++ [(g, pos, neg)] else st
  | SLDelete => removelast st
  end.
Definition stack_history (n : nat) (ops : list sl_op) : list (subgroup * list bool * list bool) :=
  fold_left (stack_step n) ops [].
Definition bit (b : list bool) (i : nat) : bool := nth i b false.
(** Row [i] is attributed to the [k]-th subgroup ([Some k]) or to the default rule ([None]). *)
Definition attributed (l : sglist) (i : nat) (o : option nat) : Prop :=
  match o with
  | Some k => k < sl_len l /\ (bit (nth k (sl_pos l) []) i = true \/ bit (nth k (sl_neg l) []) i = true)
  | None => bit (sl_default_pos l) i = true \/ bit (sl_default_neg l) i = true
  end.
(** The subgroup [x] of the stack covers row [i] of a dataset whose target is [tgt]. *)
Definition covers (tgt : list bool) (x : subgroup * list bool * list bool) (i : nat) : bool :=
  let '(_, pos, neg) := x in if bit tgt i then bit pos i else bit neg i.
Definition total (bs : list (list bool)) : nat := list_sum (map bits_count bs).
