(** The text of the lines of the output files of BSD, CBSD, CPBSD, IDSD, QFinder and SDIGA (those of SDMap, SDMapStar and VLSD are in
    FileModel.v).  The text of a value (a float) is a parameter. *)
From Verif Require Export BSDModel IDSDModel QFinderModel SDIGAModel FileModel.
Open Scope string_scope.

Section Text.
  Context {V : Type} (show : V -> string) (qname : string).
  (** bsd.py:461-466 (inherited by CBSD and CPBSD) *)
  Definition bsd_line_text (l : record V) : string :=
    subgroup_str (r_subgroup l) ++ " ; " ++
    "Quality Measure " ++ qname ++ " = " ++ show (r_quality l) ++ " ; " ++
    "tp = " ++ str_of_Z (r_tp l) ++ " ; " ++
    "fp = " ++ str_of_Z (r_fp l) ++ " ; " ++
    "TP = " ++ str_of_Z (r_TP l) ++ " ; " ++
    "FP = " ++ str_of_Z (r_FP l) ++ newline.
End Text.
(** idsd.py:424-429; the order of the values is the one of the dictionary of idsd.py:223-229. *)
Definition idsd_line_text (show : xnum -> string) (l : subgroup * nat * icred) : string :=
  let '(g, rank, r) := l in
  subgroup_str g ++ " ; " ++ "Rank : " ++ str_of_nat rank ++ " ; " ++
  "coverage" ++ " : " ++ show (cr_cov r) ++ " ; " ++
  "odds_ratio" ++ " : " ++ show (cr_or r) ++ " ; " ++
  "p_value" ++ " : " ++ show (cr_p r) ++ " ; " ++
  "absolute_contribution" ++ " : " ++ show (cr_abs r) ++ " ; " ++
  "contribution_ratio" ++ " : " ++ show (cr_ratio r) ++ " ; " ++ newline.
(** qfinder.py:350-355; the columns are those of bitset_qfinder.py:86. *)
Definition qfinder_line_text (show : xnum -> string) (l : subgroup * qcred) : string :=
  let '(g, r) := l in
  subgroup_str g ++ " ; " ++
  "coverage" ++ ": " ++ show (qc_cov r) ++ " ; " ++
  "odds_ratio" ++ ": " ++ show (qc_or r) ++ " ; " ++
  "p_value" ++ ": " ++ show (qc_p r) ++ " ; " ++
  "absolute_contribution" ++ ": " ++ show (qc_abs r) ++ " ; " ++
  "contribution_ratio" ++ ": " ++ show (qc_ratio r) ++ " ; " ++
  "adjusted_p_value" ++ ": " ++ show (qc_adj r) ++ " ; " ++ newline.
(** sdiga.py:518-527 *)
Definition sdiga_line_text (show : Q -> string) (l : sg_line) : string :=
  subgroup_str (gl_subgroup l) ++ " ; " ++
  "Quality Measure Fitness = " ++ show (gl_fitness l) ++ " ; " ++
  "tp = " ++ str_of_nat (gl_tp l) ++ " ; " ++
  "fp = " ++ str_of_nat (gl_fp l) ++ " ; " ++
  "TP = " ++ str_of_nat (gl_TP l) ++ " ; " ++
  "FP = " ++ str_of_nat (gl_FP l) ++ " ; " ++
  "unchecked_tp = " ++ str_of_nat (gl_utp l) ++ " ; " ++
  "unchecked_fp = " ++ str_of_nat (gl_ufp l) ++ " ; " ++
  "TP_unchecked = " ++ str_of_nat (gl_uTP l) ++ " ; " ++
  "FP_unchecked = " ++ str_of_nat (gl_uFP l) ++ newline.
