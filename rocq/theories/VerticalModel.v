(** Model of data_structures/vertical_list.py, vertical_list_with_sets.py and
    vertical_list_with_bitsets.py. *)
From Verif Require Export CoreModel.
Open Scope list_scope.
Open Scope nat_scope.

(** vertical_list.py:21 (slots).  [Seq] is the representation of the two sequences,
    [V] the type of quality values. *)
Record vlist (Seq V : Type) := VL {
  vl_sels : list selector;
  vl_seq_tp : Seq; vl_tp : nat;
  vl_seq_fp : Seq; vl_fp : nat;
  vl_size : nat;
  vl_quality : V }.
Arguments VL {Seq V} _ _ _ _ _ _ _.
Arguments vl_sels {Seq V} _.
Arguments vl_seq_tp {Seq V} _.
Arguments vl_tp {Seq V} _.
Arguments vl_seq_fp {Seq V} _.
Arguments vl_fp {Seq V} _.
Arguments vl_size {Seq V} _.
Arguments vl_quality {Seq V} _.
(** The property [n], vertical_list_with_sets.py:56-58, vertical_list_with_bitsets.py:71-75. *)
Definition vl_n {Seq V} (v : vlist Seq V) : nat := vl_tp v + vl_fp v.

(** Python [list[-1]]. *)
Definition last_elem {A} (l : list A) : res A :=
  match rev l with x :: _ => Ok x | [] => Err IndexError end.

(** Python sets of ints: duplicate-free lists. *)
Definition set_of (l : list nat) : list nat := nodup Nat.eq_dec l.
Definition set_inter (a b : list nat) : list nat := filter (fun x => existsb (Nat.eqb x) b) a.

(** vertical_list_with_sets.py:30-38 ([tp], [fp] are the lengths of the parameters). *)
Definition vls_init {V} (sels : list selector) (tp fp : list nat) (n : nat) (q : V) : res (vlist (list nat) V) :=
  Ok (VL sels (set_of tp) (length tp) (set_of fp) (length fp) n q).

(** vertical_list_with_sets.py:60-74, [compute_quality_value]: [qf tp fp] stands for
    [quality_measure.compute(dict_of_parameters | {"tp": tp, "fp": fp})]. *)
Definition vl_compute_quality {Seq V} (v : vlist Seq V) (qf : nat -> nat -> res V) : res V := qf (vl_tp v) (vl_fp v).

(** vertical_list_with_sets.py:76-120 [join]; [None] is Python's None. *)
Definition vls_join {V} (qf : nat -> nat -> res V) (self other : vlist (list nat) V) (none_if_0 : bool)
  : res (option (vlist (list nat) V)) :=
  if negb (vl_size self =? vl_size other) then Err VerticalListSizeError
  else
    let tp := set_inter (vl_seq_tp self) (vl_seq_tp other) in
    let fp := set_inter (vl_seq_fp self) (vl_seq_fp other) in
    if negb none_if_0 || (0 <? length tp + length fp) then
      do l <- last_elem (vl_sels other);
      do q <- qf (length tp) (length fp);
      Ok (Some (VL (vl_sels self ++ [l]) tp (length tp) fp (length fp) (vl_size self) q))
    else Ok None.

(** Bitarrays: lists of booleans. *)
Definition bits_zero (n : nat) : list bool := repeat false n.
(** [b[i] = 1]; IndexError out of range (ids are non-negative). *)
Definition bits_set (b : list bool) (i : nat) : res (list bool) :=
  if i <? length b then Ok (firstn i b ++ true :: skipn (S i) b) else Err IndexError.
Definition bits_and (a b : list bool) : list bool := map (fun xy => fst xy && snd xy) (combine a b).
Definition bits_or (a b : list bool) : list bool := map (fun xy => fst xy || snd xy) (combine a b).
Definition bits_not (a : list bool) : list bool := map negb a.
(** [b.count(1)] *)
Definition bits_count (b : list bool) : nat := length (filter (fun x => x) b).

(** vertical_list_with_bitsets.py:31-45. *)
Definition vlb_init {V} (sels : list selector) (tp fp : list nat) (n : nat) (q : V) : res (vlist (list bool) V) :=
  do btp <- fold_res bits_set tp (bits_zero n);
  do bfp <- fold_res bits_set fp (bits_zero n);
  Ok (VL sels btp (length tp) bfp (length fp) n q).
(** vertical_list_with_bitsets.py:93-137 [join]. *)
Definition vlb_join {V} (qf : nat -> nat -> res V) (self other : vlist (list bool) V) (none_if_0 : bool)
  : res (option (vlist (list bool) V)) :=
  if negb (vl_size self =? vl_size other) then Err VerticalListSizeError
  else
    let tp := bits_and (vl_seq_tp self) (vl_seq_tp other) in
    let fp := bits_and (vl_seq_fp self) (vl_seq_fp other) in
    if negb none_if_0 || (0 <? bits_count tp + bits_count fp) then
      do l <- last_elem (vl_sels other);
      do q <- qf (bits_count tp) (bits_count fp);
      Ok (Some (VL (vl_sels self ++ [l]) tp (bits_count tp) fp (bits_count fp) (vl_size self) q))
    else Ok None.
