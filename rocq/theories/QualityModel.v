(** Model of /repo/src/subgroups/quality_measures/*.py.
    Numbers are exact rationals (Coq's [Q]); Python computes the same expressions with
    binary64 rounding, which is not modelled.  The two binomial measures use sqrt and are
    modelled over the reals in BinomialModel.v. *)
From Verif Require Export Base.
From Coq Require Export QArith Qabs.
Open Scope string_scope.
Open Scope list_scope.

(** [dict_of_parameters]: a dictionary str -> number. *)
Definition params := list (string * Q).
Fixpoint lookup (d : params) (k : string) : option Q :=
  match d with
  | [] => None
  | (k', v) :: d' => if String.eqb k k' then Some v else lookup d' k
  end.
(** e.g. wracc.py:35-46: the checks come before any arithmetic, in this order. *)
Definition pget (e : exn) (d : params) (k : string) : res Q :=
  match lookup d k with Some v => Ok v | None => Err e end.
Notation get := (pget SubgroupParameterNotFoundError).
(** Python's [/]. *)
Definition qdiv (a b : Q) : res Q := if Qeq_bool b 0 then Err ZeroDivisionError else Ok (a / b)%Q.
Open Scope Q_scope.

(** coverage.py:33-47 *)
Definition coverage_m (d : params) : res Q :=
  do tp <- get d "tp"; do fp <- get d "fp"; do TP <- get d "TP"; do FP <- get d "FP";
  qdiv (tp + fp) (TP + FP).
(** support.py:33-44 *)
Definition support_m (d : params) : res Q :=
  do tp <- get d "tp"; do TP <- get d "TP"; do FP <- get d "FP"; qdiv tp (TP + FP).
(** ppv.py:33-41 *)
Definition ppv_m (d : params) : res Q :=
  do tp <- get d "tp"; do fp <- get d "fp"; qdiv tp (tp + fp).
(** npv.py:33-47 *)
Definition npv_m (d : params) : res Q :=
  do tp <- get d "tp"; do fp <- get d "fp"; do TP <- get d "TP"; do FP <- get d "FP";
  qdiv (FP - fp) (FP - fp + TP - tp).
(** sensitivity.py:33-41 *)
Definition sensitivity_m (d : params) : res Q :=
  do tp <- get d "tp"; do TP <- get d "TP"; qdiv tp TP.
(** specificity.py:33-41 *)
Definition specificity_m (d : params) : res Q :=
  do fp <- get d "fp"; do FP <- get d "FP"; qdiv (FP - fp) FP.
(** f1_score.py:33-44 *)
Definition f1_m (d : params) : res Q :=
  do tp <- get d "tp"; do fp <- get d "fp"; do TP <- get d "TP"; qdiv (2 * tp) (tp + fp + TP).
(** irr.py:33-44 *)
Definition irr_m (d : params) : res Q :=
  do tp <- get d "tp"; do fp <- get d "fp"; do FP <- get d "FP";
  do a <- qdiv tp (tp + fp); do b <- qdiv (FP - fp) FP; Ok (a - 1 + b).
(** youden.py:33-47 *)
Definition youden_m (d : params) : res Q :=
  do tp <- get d "tp"; do fp <- get d "fp"; do TP <- get d "TP"; do FP <- get d "FP";
  do a <- qdiv tp TP; do b <- qdiv (FP - fp) FP; Ok (a + b - 1).
(** qg.py:33-45 *)
Definition qg_m (d : params) : res Q :=
  do tp <- get d "tp"; do fp <- get d "fp"; do g <- pget ParameterNotFoundError d "g"; qdiv tp (fp + g).
(** wracc.py:33-47 *)
Definition wracc_m (d : params) : res Q :=
  do tp <- get d "tp"; do fp <- get d "fp"; do TP <- get d "TP"; do FP <- get d "FP";
  do a <- qdiv (tp + fp) (TP + FP); do b <- qdiv tp (tp + fp); do c <- qdiv TP (TP + FP); Ok (a * (b - c)).
(** absolute_wracc.py:33 *)
Definition absolute_wracc_m (d : params) : res Q := do w <- wracc_m d; Ok (Qabs w).
(** piatetsky_shapiro.py:33-47 *)
Definition ps_m (d : params) : res Q :=
  do tp <- get d "tp"; do fp <- get d "fp"; do TP <- get d "TP"; do FP <- get d "FP";
  do b <- qdiv tp (tp + fp); do c <- qdiv TP (TP + FP); Ok ((tp + fp) * (b - c)).
(** piatetsky_shapiro_optimistic_estimate_1.py:34-48 *)
Definition ps_oe1_m (d : params) : res Q :=
  do tp <- get d "tp"; do fp <- get d "fp"; do TP <- get d "TP"; do FP <- get d "FP";
  do c <- qdiv TP (TP + FP); Ok ((tp + fp) * (1 - c)).
(** piatetsky_shapiro_optimistic_estimate_2.py:34-45 *)
Definition ps_oe2_m (d : params) : res Q :=
  do tp <- get d "tp"; do TP <- get d "TP"; do FP <- get d "FP";
  do c <- qdiv TP (TP + FP); Ok (tp * (1 - c)).
(** wracc_optimistic_estimate_1.py:34-48 *)
Definition wracc_oe1_m (d : params) : res Q :=
  do tp <- get d "tp"; do fp <- get d "fp"; do TP <- get d "TP"; do FP <- get d "FP";
  do a <- qdiv (tp * tp) (tp + fp); do c <- qdiv TP (TP + FP); Ok (a * (1 - c)).

(** The classes of the package (without the two binomial ones). *)
Inductive measure := Coverage | Support | PPV | NPV | Sensitivity | Specificity | F1Score | IRR | Youden
| Qg | WRAcc | AbsoluteWRAcc | PiatetskyShapiro | PSOptimisticEstimate1 | PSOptimisticEstimate2
| WRAccOptimisticEstimate1.
(** [m.compute(dict_of_parameters)] and [m(dict_of_parameters)] ([__call__], e.g. wracc.py:61-67). *)
Definition compute (m : measure) : params -> res Q :=
  match m with
  | Coverage => coverage_m | Support => support_m | PPV => ppv_m | NPV => npv_m
  | Sensitivity => sensitivity_m | Specificity => specificity_m | F1Score => f1_m | IRR => irr_m
  | Youden => youden_m | Qg => qg_m | WRAcc => wracc_m | AbsoluteWRAcc => absolute_wracc_m
  | PiatetskyShapiro => ps_m | PSOptimisticEstimate1 => ps_oe1_m | PSOptimisticEstimate2 => ps_oe2_m
  | WRAccOptimisticEstimate1 => wracc_oe1_m
  end.
(** [m.optimistic_estimate_of()], e.g. wracc.py:59, wracc_optimistic_estimate_1.py:60,
    piatetsky_shapiro_optimistic_estimate_1.py:60, ..._2.py:57. *)
Definition optimistic_estimate_of (m : measure) : list measure :=
  match m with
  | PSOptimisticEstimate1 | PSOptimisticEstimate2 => [PiatetskyShapiro]
  | WRAccOptimisticEstimate1 => [WRAcc]
  | _ => []
  end.
