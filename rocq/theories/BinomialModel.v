(** Model of quality_measures/binomial_test.py and binomial_test_optimistic_estimate_1.py
    over the real numbers (exact sqrt; binary64 rounding is not modelled). *)
From Verif Require Export QualitySpec.
From Coq Require Export Reals Qreals.
Open Scope string_scope.
Open Scope Q_scope.

(** [math.sqrt]: ValueError on a negative argument. *)
Definition py_sqrt (x : Q) : res R := if Qle_bool 0 x then Ok (sqrt (Q2R x)) else Err ValueError.
(** binomial_test.py:34-52.  [sqrt(p0*(1-p0))] is zero exactly when its argument is. *)
Definition binomial_test_m (d : params) : res R :=
  do tp <- get d "tp"; do fp <- get d "fp"; do TP <- get d "TP"; do FP <- get d "FP";
  let n := tp + fp in let N := TP + FP in
  do p <- qdiv tp n; do p0 <- qdiv TP N;
  do sn <- py_sqrt n;
  do den <- py_sqrt (p0 * (1 - p0));
  do _ <- qdiv 1 (p0 * (1 - p0));
  do r <- qdiv N (N - n);
  do sr <- py_sqrt r;
  Ok (((Q2R p - Q2R p0) * sn / den) * sr)%R.
(** binomial_test_optimistic_estimate_1.py:35-46. *)
Definition binomial_oe1_m (d : params) : res R :=
  do tp <- get d "tp"; do TP <- get d "TP"; do FP <- get d "FP";
  do st <- py_sqrt tp; do c <- qdiv TP (TP + FP); Ok (st * (1 - Q2R c))%R.
