(** Specification vocabulary for SDIGA: rows, shares and descriptions, stated on the dataset only. *)
From Verif Require Export SDIGAModel MiningSpec.
From Coq Require Export Permutation.
Open Scope list_scope.
Open Scope nat_scope.

(** The part [a] of [b], 0 for nothing. *)
Definition share (a b : nat) : Q := if b =? 0 then 0%Q else (inject_Z (Z.of_nat a) / inject_Z (Z.of_nat b))%Q.
(** The rows that satisfy none of the descriptions [Xs]. *)
Definition rows_left (df : dataframe) (Xs : list (list selector)) : list nat :=
  filter (fun i => forallb (fun X => negb (matches_all df X i)) Xs) (seq 0 (df_n df)).
(** Among the rows [R]: those with and without the target [t] that satisfy [X]. *)
Definition pos_in (df : dataframe) (t : selector) (R : list nat) (X : list selector) : nat :=
  length (filter (fun i => row_matchesb df i t && matches_all df X i) R).
Definition neg_in (df : dataframe) (t : selector) (R : list nat) (X : list selector) : nat :=
  length (filter (fun i => negb (row_matchesb df i t) && matches_all df X i) R).
(** The confidence of [X] in the dataset. *)
Definition confidence (df : dataframe) (t : selector) (X : list selector) : Q :=
  let R := seq 0 (df_n df) in share (pos_in df t R X) (pos_in df t R X + neg_in df t R X).
(** The fitness of [X] when the rows [R] are not yet covered: the mean of its share of the positives among the rows of [R] and of its
    confidence, with the two weights. *)
Definition fitness_in (cfg : sdiga_config) (df : dataframe) (t : selector) (R : list nat) (X : list selector) : Q :=
  ((gc_support cfg * share (pos_in df t R X) (length R) + gc_confidence cfg * confidence df t X) / (gc_support cfg + gc_confidence cfg))%Q.
(** A sorted list of attribute = 'value' selectors for distinct columns other than the target, with values of the column. *)
Definition rule (df : dataframe) (tcol : string) (X : list selector) : Prop :=
  sorted_strictly X /\ NoDup (map s_attr X) /\
  forall s, In s X -> s_op s = EQUAL /\ s_attr s <> tcol /\ exists col, col_get (df_cols df) (s_attr s) = Some col /\ In (s_val s) col.
(** What is reported for [X] after the descriptions [Xs]. *)
Definition reports_rule (cfg : sdiga_config) (df : dataframe) (tcol tval : string) (Xs : list (list selector)) (X : list selector) (l : sg_line) : Prop :=
  let t := Sel tcol EQUAL (VStr tval) in
  let R := seq 0 (df_n df) in
  let L := rows_left df Xs in
  gl_subgroup l = SG X t /\ (gl_fitness l == fitness_in cfg df t L X)%Q /\
  gl_tp l = pos_in df t R X /\ gl_fp l = neg_in df t R X /\ gl_TP l = pos_in df t R [] /\ gl_FP l = neg_in df t R [] /\
  gl_utp l = pos_in df t L X /\ gl_ufp l = neg_in df t L X /\ gl_uTP l = pos_in df t L [] /\ gl_uFP l = neg_in df t L [].
(** No selector can be removed from [X] so that it covers more positive rows without loss of confidence. *)
Definition irreducible (df : dataframe) (t : selector) (X : list selector) : Prop :=
  forall s, In s X -> let Y := set_remove X s in
    pos_in df t (seq 0 (df_n df)) Y = pos_in df t (seq 0 (df_n df)) X \/ (confidence df t Y < confidence df t X)%Q.
(** An individual: one gene per column, in the order of the columns, each of them 0 (absent) or the number of a value (from 1). *)
Definition gene_ok (g : string * nat) (d : string * list value) : Prop := fst g = fst d /\ snd g <= length (snd d).
Definition chrom_ok (dict : enc_dict) (c : chromosome) : Prop := Forall2 gene_ok c dict.
(** The sort: a permutation in which no individual follows one with a smaller fitness. *)
Definition sorts (f : list individual -> list individual) : Prop :=
  forall l, Permutation l (f l) /\ forall i j x y, i < j -> nth_error (f l) i = Some x -> nth_error (f l) j = Some y -> (snd y <= snd x)%Q.
(** What SDIGA is made for: a categorical dataset whose columns have at most 65535 values, with at least two columns besides the target,
    none of them named 'fitness', and a target value that occurs. *)
Definition sdiga_input (df : dataframe) (tcol tval : string) : Prop :=
  categorical df /\ 2 <= length (other_columns df tcol) /\ (forall col, ~ In ("fitness"%string, col) (other_columns df tcol)) /\
  (forall a col, In (a, col) (df_cols df) -> (Z.of_nat (length (distinct_values col)) <= 65535)%Z) /\
  exists col, col_get (df_cols df) tcol = Some col /\ In (VStr tval) col.
Definition sdiga_parameters (cfg : sdiga_config) : Prop :=
  1 <= gc_generations cfg /\ 2 <= gc_population cfg /\ (0 <= gc_support cfg)%Q /\ (0 <= gc_confidence cfg)%Q /\ (0 < gc_support cfg + gc_confidence cfg)%Q /\
  (0 <= gc_min_confidence cfg)%Q.
(** The lines of a run: each of them reports, given the earlier ones, an irreducible rule with the minimum confidence that includes no
    earlier description. *)
Definition line_desc (l : sg_line) : list selector := g_desc (gl_subgroup l).
Definition line_ok (cfg : sdiga_config) (df : dataframe) (tcol tval : string) (Xs : list (list selector)) (l : sg_line) : Prop :=
  let t := Sel tcol EQUAL (VStr tval) in let X := line_desc l in
  rule df tcol X /\ reports_rule cfg df tcol tval Xs X l /\ (gc_min_confidence cfg <= confidence df t X)%Q /\ irreducible df t X /\
  forall Y, In Y Xs -> ~ incl Y X.
Definition lines_ok (cfg : sdiga_config) (df : dataframe) (tcol tval : string) (lines : list sg_line) : Prop :=
  forall k l, nth_error lines k = Some l -> line_ok cfg df tcol tval (map line_desc (firstn k lines)) l.
