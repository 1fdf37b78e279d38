(** Model of utils/mdl.py (real numbers instead of floats) and of the numeric part of gmsl.py, psld.py and dslm.py:
    the configurations of the list learners of ListModel.v with the compression gain of the code. *)
From Verif Require Export ListModel.
From Coq Require Import Reals QArith Qreals.
Open Scope R_scope.

(** numpy.log2 on positive numbers. *)
Definition log2 (x : R) : R := ln x / ln 2.
Definition Rltb (x y : R) : bool := if Rlt_dec x y then true else false.
(** numpy.ceil, int. *)
Definition ceil (x : R) : Z := (1 - up (- x))%Z.

(** mdl.py:26, 29-31: the while loop; each iteration takes a logarithm (fuel: number of iterations). *)
Definition threshold : R := / 1000000.
Fixpoint universal_loop (fuel : nat) (result current : R) : res R :=
  match fuel with
  | O => Err OutOfFuel
  | S f => if Rltb threshold current then universal_loop f (result + current) (log2 current) else Ok result
  end.
(** mdl.py:13-32.  The fuel is sufficient (theorem). *)
Definition universal_code_for_integer (i : Z) : res R :=
  if (i <? 0)%Z then Err ValueError
  else if (i =? 0)%Z then Ok 0
  else universal_loop (Z.to_nat i + 3) (log2 (2865064 / 1000000)) (log2 (IZR i)).

(** mdl.py:42: the sum of the probabilities 2 ** -LN(i) of [m] integers from [i]. *)
Fixpoint probability_sum (m : nat) (i : Z) : res R :=
  match m with
  | O => Ok 0
  | S m' => do u <- universal_code_for_integer i; do r <- probability_sum m' (i + 1); Ok (Rpower 2 (- u) + r)
  end.
(** mdl.py:35-45.  [None]: the argument of the logarithm is not positive (nan or -inf in the code). *)
Definition universal_code_for_integer_with_maximum (i maximum : Z) : res (option R) :=
  do until_max <- probability_sum (Z.to_nat maximum) 1;
  let left := 1 - until_max in
  do u <- universal_code_for_integer i;
  if (maximum =? 0)%Z then Err ZeroDivisionError
  else
    let p := Rpower 2 (- u) + left / IZR maximum in
    Ok (if Rltb 0 p then Some (- log2 p) else None).

(** mdl.py:73. *)
Definition bound (n : nat) : nat := Z.to_nat (ceil (2 + sqrt (2 * INR n * 10 * ln 10))).
(** mdl.py:74-76: [k] runs from [k] over [m] values. *)
Fixpoint sum_loop (n m k : nat) (b sum : R) : R :=
  match m with
  | O => sum
  | S m' => let b' := (INR n - INR k + 1) / INR n * b in sum_loop n m' (S k) b' (sum + b')
  end.
(** mdl.py:78-81: [j] runs from [j] over [m] values. *)
Fixpoint category_loop (n m j : nat) (old sum : R) : R :=
  match m with
  | O => sum
  | S m' => category_loop n m' (S j) sum (sum + INR n * old / (INR j - 2))
  end.
(** mdl.py:50-82. *)
Definition multinomial_with_recurrence (categories samples : Z) : res R :=
  if (categories <=? 0)%Z then Err ValueError
  else if (samples <? 0)%Z then Err ValueError
  else if (categories =? 1)%Z then Ok 1
  else if (samples =? 0)%Z then Ok 0
  else
    let n := Z.to_nat samples in
    Ok (category_loop n (Z.to_nat categories - 2) 3 1 (sum_loop n (bound n) 1 1 1)).
(** mdl.py:85-96. *)
Definition log2_multinomial_with_recurrence (categories samples : Z) : res R :=
  do m <- multinomial_with_recurrence categories samples;
  Ok (if Rltb 0 m then log2 m else 0).

(** * The gains of the list learners *)
(** Floats as far as they occur here: nan, finite numbers and +inf. *)
Inductive gain := GNan | GFin (x : R) | GInf.
Definition gain_gt (x y : gain) : bool :=
  match x, y with
  | GFin a, GFin b => Rltb b a
  | GInf, GFin _ => true
  | _, _ => false
  end.
Definition gain_add (x y : gain) : gain :=
  match x, y with
  | GNan, _ | _, GNan => GNan
  | GInf, _ | _, GInf => GInf
  | GFin a, GFin b => GFin (a + b)
  end.
(** Product with a number that is not negative. *)
Definition gain_scale (x : gain) (r : R) : gain :=
  match x with
  | GNan => GNan
  | GFin a => GFin (a * r)
  | GInf => if Rltb 0 r then GInf else GNan
  end.
(** gmsl.py:107-118; the second argument is at least 1 in [log2_multinomial_with_recurrence], so there is no error. *)
Definition multinomial2 (rows : nat) : R :=
  match log2_multinomial_with_recurrence 2 (Z.of_nat rows) with Ok x => x | Err _ => 0 end.
Definition nlogp (k rows : nat) : R := INR k * log2 (INR k / INR rows).
Definition candidate_value (p q : nat) : R :=
  if (p + q =? 0)%nat then 0
  else if (p =? 0)%nat then - nlogp q (p + q) + multinomial2 (p + q)
  else if (q =? 0)%nat then - nlogp p (p + q) + multinomial2 (p + q)
  else - nlogp p (p + q) - nlogp q (p + q) + multinomial2 (p + q).
(** gmsl.py:94-95, 101-102: the default rule; [log2(0)] is -inf, and its product with 0 is nan (a dataset without positive rows leaves
    no positive rows to the default rule). *)
Definition default_value (TP FP : nat) (d : nat * nat) : gain :=
  if ((TP =? 0) || (FP =? 0))%nat then GNan
  else GFin (- (INR (fst d) * log2 (INR TP / INR (TP + FP))) - INR (snd d) * log2 (INR FP / INR (TP + FP))).
(** gmsl.py:122. *)
Definition mdl_data (TP FP : nat) (before after own : nat * nat) : gain :=
  match default_value TP FP before, default_value TP FP after with
  | GFin x, GFin y => GFin (x - y - candidate_value (fst own) (snd own))
  | _, _ => GNan
  end.
(** math.comb. *)
Fixpoint binom (n k : nat) : nat :=
  match n, k with
  | _, O => 1%nat
  | O, S _ => 0%nat
  | S n', S k' => (binom n' k' + binom n' (S k'))%nat
  end.
(** gmsl.py:139-142. *)
Fixpoint values_loop (df : dataframe) (l : list selector) (r : gain) : res gain :=
  match l with
  | [] => Ok r
  | s :: l' => do col <- df_col df (s_attr s); values_loop df l' (gain_add r (GFin (- log2 (INR (length (distinct_values col))))))
  end.
(** gmsl.py:125-143; [comb] of a description with more selectors than columns is 0 and [- log2(0)] is +inf. *)
Definition mdl_model (df : dataframe) (len : nat) (p : pattern) : res gain :=
  do a <- universal_code_for_integer (Z.of_nat len);
  do b <- universal_code_for_integer (Z.of_nat (S len));
  do d <- universal_code_for_integer (Z.of_nat (length p));
  let k := binom (length (df_cols df) - 1) (length p) in
  let r := if (k =? 0)%nat then GInf else GFin (a - b - d - log2 (INR k)) in
  values_loop df p r.
(** gmsl.py:252, psld.py:149. *)
Definition mdl_gain (beta : R) (m d : gain) (rows : nat) : gain := gain_scale (gain_add m d) (/ Rpower (INR rows) beta).
(** dslm.py:169. *)
Definition mdl_penalty (g : gain) (po no : Q) : gain := gain_scale (gain_scale g (1 - Q2R po)) (1 - Q2R no).
(** gmsl.py:42, psld.py:31, dslm.py:31. *)
Definition mdl_config (cl : list_class) (beta : R) (max_sl size : Z) (mp mn : Q) (h : string -> Z) : list_config gain :=
  LC cl gain_gt (GFin 0) mdl_data mdl_model (mdl_gain beta) mdl_penalty max_sl size (fun f => Qle_bool f mp) (fun f => Qle_bool f mn) h.
