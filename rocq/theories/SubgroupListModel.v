(** Model of data_structures/subgroup_list.py.  Bitarrays are lists of booleans;
    the in-place operations act on private copies (lines 34-35, 94-98, 109), so values
    are enough.  AliasModel.v has the objects themselves (sharing, clients changing what the getters return). *)
From Verif Require Export VerticalModel.
Open Scope list_scope.
Open Scope nat_scope.

(** subgroup_list.py:20 (slots). *)
Record sglist := SL {
  sl_default_pos : list bool; sl_default_neg : list bool;
  sl_distribution : nat * nat;
  sl_subgroups : list subgroup;
  sl_pos : list (list bool); sl_neg : list (list bool);
  sl_orig_pos : list (list bool); sl_orig_neg : list (list bool) }.
(** subgroup_list.py:22-46. *)
Definition sl_init (pos neg : list bool) (n : nat) : res sglist :=
  if negb (n =? length pos) then Err ValueError
  else if negb (n =? length neg) then Err ValueError
  else Ok (SL pos neg (bits_count pos, n) [] [] [] [] []).
(** subgroup_list.py:57-64. *)
Definition sl_number_of_positives (l : sglist) : nat := fst (sl_distribution l).
Definition sl_number_of_negatives (l : sglist) : nat := snd (sl_distribution l) - fst (sl_distribution l).
Definition sl_number_of_instances (l : sglist) : nat := snd (sl_distribution l).
(** subgroup_list.py:73-74, 160-161. *)
Definition sl_is_empty (l : sglist) : bool := length (sl_subgroups l) =? 0.
Definition sl_len (l : sglist) : nat := length (sl_subgroups l).
(** subgroup_list.py:76-111. *)
Definition sl_add (l : sglist) (g : subgroup) (pos neg : list bool) : res sglist :=
  if negb (sl_number_of_instances l =? length pos) then Err ValueError
  else if negb (sl_number_of_instances l =? length neg) then Err ValueError
  else
    let cp := bits_and pos (sl_default_pos l) in
    let cn := bits_and neg (sl_default_neg l) in
    Ok (SL (bits_and (sl_default_pos l) (bits_not cp)) (bits_and (sl_default_neg l) (bits_not cn))
           (sl_distribution l) (sl_subgroups l ++ [subgroup_copy g])
           (sl_pos l ++ [cp]) (sl_neg l ++ [cn])
           (sl_orig_pos l ++ [pos]) (sl_orig_neg l ++ [neg])).
(** subgroup_list.py:113-125 ([list.pop()] on the five lists). *)
Definition sl_delete_last (l : sglist) : res sglist :=
  if 0 <? length (sl_subgroups l) then
    do p <- last_elem (sl_pos l);
    do n <- last_elem (sl_neg l);
    Ok (SL (bits_or (sl_default_pos l) p) (bits_or (sl_default_neg l) n)
           (sl_distribution l) (removelast (sl_subgroups l))
           (removelast (sl_pos l)) (removelast (sl_neg l))
           (removelast (sl_orig_pos l)) (removelast (sl_orig_neg l)))
  else Ok l.
(** subgroup_list.py:127-158, getters ([None] result: IndexError). *)
Definition sl_get {A} (f : sglist -> list A) (l : sglist) (i : Z) : res A :=
  match py_index (f l) i with
  | Some k => match nth_error (f l) k with Some x => Ok x | None => Err IndexError end
  | None => Err IndexError
  end.
