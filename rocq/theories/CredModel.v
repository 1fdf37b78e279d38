(** Model of credibility_measures/: odds ratio from the contingency table, p-value of the independence test and selector contributions.
    The measures based on a generalized linear model (statsmodels) are not modelled. *)
From Verif Require Export CoreModel.
From Coq Require Import QArith Reals.
Open Scope string_scope.
Open Scope list_scope.

(** * Numbers of the measures: rational numbers instead of finite floats, infinities and nan *)
Inductive xnum := XNan | XNegInf | XFin (q : Q) | XPosInf.
(** Python's [<], [<=], [==] on floats. *)
Definition xlt (a b : xnum) : bool :=
  match a, b with
  | XFin x, XFin y => negb (Qle_bool y x)
  | XNegInf, XFin _ | XNegInf, XPosInf | XFin _, XPosInf => true
  | _, _ => false
  end.
Definition xeq (a b : xnum) : bool :=
  match a, b with
  | XFin x, XFin y => Qeq_bool x y
  | XNegInf, XNegInf | XPosInf, XPosInf => true
  | _, _ => false
  end.
Definition xle (a b : xnum) : bool := xlt a b || xeq a b.
(** Python's [-] and [/] on floats (the divisor is not 0 in the code below). *)
Definition xsub (a b : xnum) : xnum :=
  match a, b with
  | XNan, _ | _, XNan | XPosInf, XPosInf | XNegInf, XNegInf => XNan
  | XPosInf, _ | _, XNegInf => XPosInf
  | XNegInf, _ | _, XPosInf => XNegInf
  | XFin x, XFin y => XFin (x - y)
  end.
Definition xdiv (a b : xnum) : xnum :=
  match a, b with
  | XFin x, XFin y => XFin (x / y)
  | XFin _, XPosInf | XFin _, XNegInf => XFin 0
  | XPosInf, XFin y => if Qle_bool 0 y then XPosInf else XNegInf
  | XNegInf, XFin y => if Qle_bool 0 y then XNegInf else XPosInf
  | _, _ => XNan
  end.
(** Python's [min(a, b)] and [max(a, b)]: the first argument unless the second one is smaller (greater). *)
Definition xmin (a b : xnum) : xnum := if xlt b a then b else a.
Definition xmax (a b : xnum) : xnum := if xlt a b then b else a.

(** * odds_ratio_stat.py *)
(** The keys of the dictionary of parameters that are present. *)
Record table_params := TParams { tp_tp : option Z; tp_fp : option Z; tp_TP : option Z; tp_FP : option Z;
                                 tp_appearance : option (list bool); tp_target : option (list bool) }.
Definition zdiv (a b : Q) : res Q := if Qeq_bool b 0 then Err ZeroDivisionError else Ok (a / b)%Q.
(** odds_ratio_stat.py:54-69. *)
Definition odds_ratio_table (tp fp TP FP : Z) : res xnum :=
  if ((tp =? TP) && (fp =? FP))%Z then Ok (XFin 0)
  else if (tp =? TP)%Z then Ok XPosInf
  else if (fp =? FP)%Z then Ok (XFin 0)
  else if ((tp =? 0) && (fp =? 0))%Z then Ok (XFin 0)
  else if (fp =? 0)%Z then Ok XPosInf
  else
    do a <- zdiv (inject_Z tp) (inject_Z fp);
    do b <- zdiv (inject_Z (TP - tp)) (inject_Z (FP - fp));
    do r <- zdiv a b;
    Ok (XFin r).
Definition zcount (l : list bool) : Z := Z.of_nat (length (filter (fun b => b) l)).
(** odds_ratio_stat.py:28-69.  The two series have the same index. *)
Definition odds_ratio (d : table_params) : res xnum :=
  let no_table := match tp_tp d, tp_fp d, tp_TP d, tp_FP d with Some _, Some _, Some _, Some _ => false | _, _, _, _ => true end in
  let no_series := match tp_appearance d, tp_target d with Some _, Some _ => false | _, _ => true end in
  if no_table && no_series then Err ParameterNotFoundError
  else
    match tp_tp d with
    | Some tp =>
        match tp_fp d, tp_TP d, tp_FP d with
        | Some fp, Some TP, Some FP => odds_ratio_table tp fp TP FP
        | _, _, _ => Err KeyError
        end
    | None =>
        match tp_appearance d, tp_target d with
        | Some a, Some t =>
            odds_ratio_table (zcount (series_and a t)) (zcount (series_and a (map negb t))) (zcount t) (zcount (map negb t))
        | _, _ => Err KeyError
        end
    end.

(** * p_value_independence.py:29-60, for Python integers; [cdf]: the cumulative distribution function of the normal distribution *)
Definition p_value_independence (cdf : R -> R) (tp fp TP FP : Z) : res R :=
  let N := (TP + FP)%Z in
  if ((tp =? TP) && (fp =? FP))%Z then Ok 1%R
  else if ((tp =? 0) && (fp =? 0))%Z then Ok 1%R
  else if (N =? 0)%Z then Err ZeroDivisionError
  else if ((tp + fp) * TP * FP <? 0)%Z then Err ValueError
  else if ((tp + fp) * TP * FP =? 0)%Z then Err ZeroDivisionError
  else
    let n := IZR (tp + fp) in
    let z := ((IZR tp - n * IZR TP / IZR N) / sqrt (n * IZR TP / IZR N * IZR FP / IZR N))%R in
    Ok (2 * (1 - cdf (Rabs z)))%R.

(** * selector_contribution.py *)
(** selector_contribution.py:113-121. *)
Definition contribution_result (mn mx : xnum) : xnum * xnum :=
  if xeq mn (XFin 0) then (mn, XPosInf)
  else if xeq mn XPosInf && xeq mx XPosInf then (mn, XFin 1)
  else (mn, xdiv mx mn).
(** selector_contribution.py:91-112.  [odds]: the odds ratio of a pattern (from the dictionary 'odds_ratios' or computed). *)
Fixpoint contribution_loop (odds : pattern -> res xnum) (p : pattern) (o : xnum) (threshold : option xnum) (l : list selector) (mn mx : xnum) :
  res (xnum * xnum) :=
  match l with
  | [] => Ok (contribution_result mn mx)
  | s :: l' =>
      do w <- odds (remove_selector (pattern_copy p) s);
      let c := xsub o w in
      if match threshold with Some t => xlt c t | None => false end then Ok (c, XPosInf)
      else contribution_loop odds p o threshold l' (xmin mn c) (xmax mx c)
  end.
(** selector_contribution.py:58-121 (all the parameters are present). *)
Definition selector_contribution (odds : pattern -> res xnum) (threshold : option xnum) (p : pattern) : res (xnum * xnum) :=
  match length p with
  | O => Ok (XFin 0, XFin 0)
  | 1%nat => Ok (XFin 1, XFin 1)
  | _ => do o <- odds p; contribution_loop odds p o threshold p XPosInf XNegInf
  end.
(** selector_contribution.py:84-89, 100-103: the appearance of a pattern and its odds ratio from the table ([app]: the dictionary
    'selector_appearances'; [n]: the number of rows). *)
Definition pattern_appearance (app : selector -> res (list bool)) (n : nat) (p : pattern) : res (list bool) :=
  fold_res (fun acc s => do a <- app s; Ok (series_and acc a)) p (repeat true n).
Definition statistic_odds (app : selector -> res (list bool)) (target : list bool) (n : nat) (p : pattern) : res xnum :=
  do a <- pattern_appearance app n p;
  odds_ratio (TParams None None None None (Some a) (Some target)).
