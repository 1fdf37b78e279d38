(** Reading the output file of a miner as a user would: the lines of the file, split at " ; "; the first part is given to
    [Subgroup.generate_from_str]; a number is the rest of the part that begins with its name. *)
From Verif Require Export MiningSpec FileSpec.
Open Scope string_scope.

Definition read_line (s : string) : res (subgroup * list string) :=
  match py_split " ; " s with
  | t :: fields => do g <- subgroup_parse t; Ok (g, fields)
  | [] => Err IndexError
  end.
Definition read_report (text : string) : res (list (subgroup * list string)) := map_res read_line (line_contents text).
(** The value of the field [name]: the text after [name ++ mark] in the first part that begins so. *)
Fixpoint field (mark name : string) (fields : list string) : option string :=
  match fields with
  | [] => None
  | f :: fs => if String.prefix (name ++ mark) f then Some (drop_str (String.length (name ++ mark)) f) else field mark name fs
  end.
Definition int_field (name : string) (fields : list string) : option Z :=
  match field " = " name fields with Some t => py_int t | None => None end.

(** Names of columns and values that can be read back. *)
Definition clear_name (a : string) : Prop :=
  no_space a /\ last_char a <> Some ","%char /\ a <> ";" /\ a <> "Target:" /\ one_line a = true.
Definition clear_value (v : string) : Prop := contains ", " v = false /\ contains " ; " v = false /\ one_line v = true.
Definition clear_dataset (df : dataframe) : Prop :=
  forall a col, In (a, col) (df_cols df) -> clear_name a /\ forall v, In (VStr v) col -> clear_value v.
(** The description is a list of column = 'value', and the target as well. *)
Definition clear_selector (s : selector) : Prop := s_op s = EQUAL /\ clear_name (s_attr s) /\ exists v, s_val s = VStr v /\ clear_value v.
Definition clear_group (g : subgroup) : Prop := sorted_strictly (g_desc g) /\ Forall clear_selector (g_target g :: g_desc g).
