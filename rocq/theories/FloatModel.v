(** The quality measures in binary64 arithmetic: the same expressions as in QualityModel.v, in the order of evaluation of the source, each
    operation rounded to nearest even.  The counts are Python ints, so int / int is the correctly rounded quotient (Python's true division),
    sums, differences and products of ints are exact, and an int that meets a float is converted to a float.  Overflow cannot occur for the
    sizes in the theorems; the sign of zero is not modelled.  The rounding function is Flocq's. *)
From Coq Require Export Reals.
From Flocq Require Import Core.
From Verif Require Export QualityModel.
Open Scope Z_scope.

(** binary64: 53 bits of precision, smallest positive number 2^-1074, round to nearest, ties to even. *)
Definition b64 (x : R) : R := round radix2 (FLT_exp (-1074) 53) ZnearestE x.
(** [a / b] for ints. *)
Definition fl_div (a b : Z) : res R := if b =? 0 then Err ZeroDivisionError else Ok (b64 (IZR a / IZR b)).
(** The conversion of an int. *)
Definition fl_int (a : Z) : R := b64 (IZR a).
(** The methods [compute] of the classes ([Qg] needs the parameter g, which is not an int: not modelled here). *)
Definition fl_measure (m : measure) (tp fp TP FP : Z) : res R :=
  match m with
  | Coverage => fl_div (tp + fp) (TP + FP) (* coverage.py:47 *)
  | Support => fl_div tp (TP + FP) (* support.py:44 *)
  | PPV => fl_div tp (tp + fp) (* ppv.py:41 *)
  | NPV => fl_div (FP - fp) (FP - fp + TP - tp) (* npv.py:47 *)
  | Sensitivity => fl_div tp TP (* sensitivity.py:41 *)
  | Specificity => fl_div (FP - fp) FP (* specificity.py:41 *)
  | F1Score => fl_div (2 * tp) (tp + fp + TP) (* f1_score.py:44 *)
  | IRR => do a <- fl_div tp (tp + fp); do b <- fl_div (FP - fp) FP; Ok (b64 (b64 (a - 1) + b))%R (* irr.py:44 *)
  | Youden => do a <- fl_div tp TP; do b <- fl_div (FP - fp) FP; Ok (b64 (b64 (a + b) - 1))%R (* youden.py:47 *)
  | Qg => Err Unmodelled
  | WRAcc => do a <- fl_div (tp + fp) (TP + FP); do b <- fl_div tp (tp + fp); do c <- fl_div TP (TP + FP); Ok (b64 (a * b64 (b - c)))%R (* wracc.py:47 *)
  | AbsoluteWRAcc => do a <- fl_div (tp + fp) (TP + FP); do b <- fl_div tp (tp + fp); do c <- fl_div TP (TP + FP); Ok (Rabs (b64 (a * b64 (b - c))))%R (* absolute_wracc.py:33 *)
  | PiatetskyShapiro => do b <- fl_div tp (tp + fp); do c <- fl_div TP (TP + FP); Ok (b64 (fl_int (tp + fp) * b64 (b - c)))%R (* piatetsky_shapiro.py:47 *)
  | PSOptimisticEstimate1 => do c <- fl_div TP (TP + FP); Ok (b64 (fl_int (tp + fp) * b64 (1 - c)))%R (* piatetsky_shapiro_optimistic_estimate_1.py:48 *)
  | PSOptimisticEstimate2 => do c <- fl_div TP (TP + FP); Ok (b64 (fl_int tp * b64 (1 - c)))%R (* piatetsky_shapiro_optimistic_estimate_2.py:45 *)
  | WRAccOptimisticEstimate1 => do a <- fl_div (tp * tp) (tp + fp); do c <- fl_div TP (TP + FP); Ok (b64 (a * b64 (1 - c)))%R (* wracc_optimistic_estimate_1.py:48 *)
  end.
