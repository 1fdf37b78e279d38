(** What IDSD must compute, stated on the rows of the (reduced) dataset. *)
From Verif Require Export MiningSpec IDSDModel.
From Coq Require Import QArith.
Open Scope string_scope.
Open Scope list_scope.
Open Scope nat_scope.

(** The k-element sub-lists of a list, in the order of itertools.combinations. *)
Fixpoint combinations {A} (k : nat) (l : list A) {struct l} : list (list A) :=
  match k, l with
  | O, _ => [[]]
  | S _, [] => []
  | S k', x :: r => map (cons x) (combinations k' r) ++ combinations k r
  end.
(** The measures of a pattern on the rows of the dataset: share of the rows, odds ratio, p-value, contributions of its selectors. *)
Definition share (df : dataframe) (X : list selector) : Q := (inject_Z (Z.of_nat (coverage df X)) / inject_Z (Z.of_nat (df_n df)))%Q.
Definition odds_of (df : dataframe) (tcol tval : string) (X : list selector) : res xnum := quality odds_ratio_table df tcol tval X.
Definition pvalue_of (c : idsd_config) (df : dataframe) (tcol tval : string) (X : list selector) : xnum :=
  let t := Sel tcol EQUAL (VStr tval) in
  ic_pvalue c (tp_of df t X) (fp_of df t X) (TP_of df tcol tval) (FP_of df tcol tval).
(** The five criteria, in order. *)
Definition criteria (c : idsd_config) (df : dataframe) (tcol tval : string) (X : list selector) (o : xnum) (r : xnum * xnum) : list bool :=
  [Qle_bool (ic_cov c) (share df X); xle (XFin (ic_or c)) o; xle (pvalue_of c df tcol tval X) (XFin (ic_p c));
   xle (XFin (ic_abs c)) (fst r); xle (snd r) (XFin (ic_ratio c))].
(** The rank: how many criteria hold before the first one that does not. *)
Definition rank_is (l : list bool) (k : nat) : Prop :=
  k <= length l /\ firstn k l = repeat true k /\ (k < length l -> nth k l true = false).
(** The entry of a pattern: its rank and its measures; each measure is computed only if the previous criteria hold (otherwise it is
    -inf or +inf). *)
Definition entry_of (c : idsd_config) (df : dataframe) (tcol tval : string) (X : list selector) (e : ientry) : Prop :=
  exists o r, odds_of df tcol tval X = Ok o /\ selector_contribution (odds_of df tcol tval) None X = Ok r /\
    ie_pattern e = X /\ rank_is (criteria c df tcol tval X o r) (ie_rank e) /\
    cr_cov (ie_cred e) = XFin (share df X) /\
    cr_or (ie_cred e) = (if Qle_bool (ic_cov c) (share df X) then o else XNegInf) /\
    cr_p (ie_cred e) = (if 2 <=? ie_rank e then pvalue_of c df tcol tval X else XPosInf) /\
    (cr_abs (ie_cred e), cr_ratio (ie_cred e)) = (if 3 <=? ie_rank e then r else (XNegInf, XPosInf)).
(** The largest size of the patterns. *)
Definition max_size (c : idsd_config) (df : dataframe) : nat := if (ic_max c =? -1)%Z then length (df_cols df) - 1 else Z.to_nat (ic_max c).
(** The patterns that are evaluated, in order: those with some row, by size. *)
Definition candidates (c : idsd_config) (df : dataframe) (tcol : string) : list pattern :=
  flat_map (fun k => filter (fun X => 1 <=? coverage df X) (map pattern_init (combinations k (idsd_selectors df tcol)))) (seq 1 (max_size c df)).
