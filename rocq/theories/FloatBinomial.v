(** BinomialTest, BinomialTestOptimisticEstimate1 and Qg in binary64 arithmetic (continues FloatModel.v).  [math.sqrt] of a float is the
    correctly rounded square root (IEEE 754); of an int, of the int converted to a float. *)
From Coq Require Import Reals.
From Verif Require Export FloatModel.
Open Scope R_scope.

(** [math.sqrt]: ValueError on a negative argument. *)
Definition fl_sqrt (x : R) : res R := if Rlt_dec x 0 then Err ValueError else Ok (b64 (sqrt x)).
(** [a / b] for floats. *)
Definition fl_fdiv (a b : R) : res R := if Req_EM_T b 0 then Err ZeroDivisionError else Ok (b64 (a / b)).
(** binomial_test.py:48-52 *)
Definition fl_binomial (tp fp TP FP : Z) : res R :=
  let n := (tp + fp)%Z in let N := (TP + FP)%Z in
  do p <- fl_div tp n; do p0 <- fl_div TP N;
  do sn <- fl_sqrt (fl_int n);
  do den <- fl_sqrt (b64 (p0 * b64 (1 - p0)));
  do q <- fl_fdiv (b64 (b64 (p - p0) * sn)) den;
  do r <- fl_div N (N - n);
  do sr <- fl_sqrt r;
  Ok (b64 (q * sr)).
(** binomial_test_optimistic_estimate_1.py:46 *)
Definition fl_binomial_oe1 (tp TP FP : Z) : res R :=
  do st <- fl_sqrt (fl_int tp); do c <- fl_div TP (TP + FP); Ok (b64 (st * b64 (1 - c))).
(** qg.py:46 with a float [g] (a real number that binary64 represents) and with an int. *)
Definition fl_qg (tp fp : Z) (g : R) : res R := fl_fdiv (fl_int tp) (b64 (fl_int fp + g)).
Definition fl_qg_int (tp fp g : Z) : res R := fl_div tp (fp + g).
