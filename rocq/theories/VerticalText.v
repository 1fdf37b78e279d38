(** The texts of the vertical lists: [__str__] of data_structures/vertical_list_with_sets.py and vertical_list_with_bitsets.py. *)
From Verif Require Export VerticalModel FileModel.
Open Scope string_scope.

(** [s[:-1]], [s[:-2]] for a text with at least so many characters. *)
Definition cut_end (k : nat) (s : string) : string := String.substring 0 (String.length s - k) s.
(** [acc = "["; for x in l: acc = acc + str(x) + ", "] *)
Definition open_list (ts : list string) : string := fold_left (fun acc t => acc ++ t ++ ", ") ts "[".
(** vertical_list_with_sets.py:123-131, vertical_list_with_bitsets.py:140-148 *)
Definition selectors_text (l : list selector) : string :=
  let s := open_list (map sel_str l) in
  if (length l =? 0)%nat then s ++ "]" else cut_end 2 s ++ "]".
(** [s[-1] == c] and [s[-2] == c] *)
Definition ends_in (c : ascii) (s : string) : bool := match last_char s with Some d => Ascii.eqb d c | None => false end.
(** vertical_list_with_sets.py:135-142, vertical_list_with_bitsets.py:150-160 *)
Definition numbers_text (l : list nat) : string :=
  let s := open_list (map str_of_nat l) in
  if ends_in " " s && ends_in "," (cut_end 1 s) then cut_end 2 s ++ "]" else s ++ "]".
(** The indices of the bits that are set, vertical_list_with_bitsets.py:151-155. *)
Fixpoint set_bits (index : nat) (b : list bool) : list nat :=
  match b with
  | [] => []
  | x :: b' => if x then index :: set_bits (S index) b' else set_bits (S index) b'
  end.
Section Text.
  Context {V : Type} (show : V -> string).
  (** vertical_list_with_sets.py:152-156, vertical_list_with_bitsets.py:175-178 *)
  Definition vertical_text (sels : list selector) (tp fp : list nat) (q : V) : string :=
    "List of selectors: " ++ selectors_text sels ++ ", Sequence of instances (tp): " ++ numbers_text tp ++
    ", Sequence of instances (fp): " ++ numbers_text fp ++ ", Quality value: " ++ show q.
  (** vertical_list_with_sets.py:122-156: the sets are sorted. *)
  Definition vls_text (v : vlist (list nat) V) : string :=
    vertical_text (vl_sels v) (sort_by Nat.ltb (vl_seq_tp v)) (sort_by Nat.ltb (vl_seq_fp v)) (vl_quality v).
  (** vertical_list_with_bitsets.py:139-178 *)
  Definition vlb_text (v : vlist (list bool) V) : string :=
    vertical_text (vl_sels v) (set_bits 0 (vl_seq_tp v)) (set_bits 0 (vl_seq_fp v)) (vl_quality v).
End Text.
