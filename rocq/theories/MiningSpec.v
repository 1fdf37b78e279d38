(** What the exhaustive miners (SDMap, SDMapStar without limit, VLSD) must report, stated on
    the rows of the dataset only. *)
From Verif Require Export VerticalSpec SDMapModel.
Open Scope string_scope.
Open Scope list_scope.
Open Scope Z_scope.

(** A categorical dataset: all the columns have [df_n] cells, all of them text, and no two
    columns have the same name. *)
Definition categorical (df : dataframe) : Prop :=
  wf_df df /\ NoDup (map fst (df_cols df)) /\
  forall a col v, In (a, col) (df_cols df) -> In v col -> is_str v = true.
(** No column name contains a quote character. *)
Definition no_quotes (df : dataframe) : Prop :=
  forall a col, In (a, col) (df_cols df) -> has_char "'" a = false /\ has_char """" a = false.
(** Two different (column, value) pairs of the dataset (the target column apart) are not written alike: column name followed by [repr] of the
    value, which is the key of the dictionary of frequent selectors. True without quotes in the column names. *)
Definition distinct_keys (df : dataframe) (tcol : string) : Prop :=
  forall a col v b col' w, In (a, col) (df_cols df) -> In (b, col') (df_cols df) -> a <> tcol -> b <> tcol -> In v col -> In w col' ->
  (a ++ py_repr v = b ++ py_repr w)%string -> a = b /\ v = w.
(** The same for the texts "column = 'value'", which are the keys of the dictionaries of bitsets. *)
Definition distinct_texts (df : dataframe) (tcol : string) : Prop :=
  forall a col v b col' w, In (a, col) (df_cols df) -> In (b, col') (df_cols df) -> a <> tcol -> b <> tcol -> In v col -> In w col' ->
  sel_str (Sel a EQUAL v) = sel_str (Sel b EQUAL w) -> a = b /\ v = w.

(** A description over the non-target columns: a non-empty, sorted, duplicate-free list of
    attribute = 'text' selectors. *)
Definition description (df : dataframe) (tcol : string) (X : list selector) : Prop :=
  X <> [] /\ sorted_strictly X /\
  forall s, In s X -> s_op s = EQUAL /\ is_str (s_val s) = true /\ s_attr s <> tcol /\ has_column df (s_attr s).
(** Numbers of rows satisfying [X] with and without the target. *)
Definition tp_of (df : dataframe) (t : selector) (X : list selector) : Z := Z.of_nat (length (pos_rows df t X)).
Definition fp_of (df : dataframe) (t : selector) (X : list selector) : Z := Z.of_nat (length (neg_rows df t X)).
(** Minimum supports: on tp and fp, or on n. *)
Definition supported (min_tp min_fp min_n : option Z) (tp fp : Z) : Prop :=
  match min_tp, min_fp, min_n with
  | Some a, Some b, None => a <= tp /\ b <= fp
  | None, None, Some c => c <= tp + fp
  | _, _, _ => False
  end.
Definition frequent (df : dataframe) (tcol tval : string) (min_tp min_fp min_n : option Z) (X : list selector) : Prop :=
  description df tcol X /\ (1 <= coverage df X)%nat /\
  supported min_tp min_fp min_n (tp_of df (Sel tcol EQUAL (VStr tval)) X) (fp_of df (Sel tcol EQUAL (VStr tval)) X).
(** All the rows: TP and FP *)
Definition TP_of (df : dataframe) (tcol tval : string) : Z := tp_of df (Sel tcol EQUAL (VStr tval)) [].
Definition FP_of (df : dataframe) (tcol tval : string) : Z := fp_of df (Sel tcol EQUAL (VStr tval)) [].
(** The measure of the description [X]. *)
Definition quality {V} (m : Z -> Z -> Z -> Z -> res V) (df : dataframe) (tcol tval : string) (X : list selector) : res V :=
  m (tp_of df (Sel tcol EQUAL (VStr tval)) X) (fp_of df (Sel tcol EQUAL (VStr tval)) X) (TP_of df tcol tval) (FP_of df tcol tval).
(** The line that reports [X]. *)
Definition line_of {V} (df : dataframe) (tcol tval : string) (X : list selector) (q : V) : record V :=
  Rec (SG X (Sel tcol EQUAL (VStr tval))) q
      (tp_of df (Sel tcol EQUAL (VStr tval)) X) (fp_of df (Sel tcol EQUAL (VStr tval)) X) (TP_of df tcol tval) (FP_of df tcol tval).
