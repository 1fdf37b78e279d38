(** Model of /repo/src/subgroups/algorithms/subgroup_sets/sdiga.py (SDIGA).
    Simplifications: floats are rational numbers; the sum of the two weights is not 0; there is a column besides the target.  A pandas Series
    of genes is the list of its (key, value) pairs; the encoded DataFrame is the list of its rows (the codes in the order of the
    columns and the target value).  numpy.random is an arbitrary sequence of numbers; the order of equal keys in [sort_values] and
    [nlargest] (an unstable sort) is arbitrary. *)
From Verif Require Export SDMapModel.
From Coq Require Export QArith.
Open Scope Q_scope.
Open Scope string_scope.
Open Scope list_scope.
Open Scope nat_scope.

(** * The encoding *)
(** The categories of [astype('category')] are the sorted distinct values; [codes + 1] as uint16 (sdiga.py:37-40). *)
Fixpoint position (v : value) (l : list value) : nat :=
  match l with [] => 0 | w :: r => if py_eq v w then 0 else S (position v r) end.
Definition gene_code (categories : list value) (v : value) : nat := Z.to_nat (Z.of_nat (position v categories + 1) mod 65536).
Definition enc_dict := list (string * list value).
Definition enc_row := (list nat * value)%type.
(** sdiga.py:26-42, _chromosome_encoding_and_dictionary.  [DataFrame.apply] of lists of the same length gives a DataFrame, whose
    [to_dict] has dictionaries from 0, 1, ... instead of lists: the later accesses are the same. *)
Definition encoded_dict (df : dataframe) (tcol : string) : enc_dict :=
  map (fun c => (fst c, group_values (snd c))) (other_columns df tcol).
Definition encoded_rows (df : dataframe) (tcol : string) : res (list enc_row) :=
  do tc <- df_col df tcol;
  Ok (map (fun i => (map (fun c => gene_code (group_values (snd c)) (nth i (snd c) (VStr ""))) (other_columns df tcol), nth i tc (VStr ""))) (seq 0 (df_n df))).

Definition chromosome := list (string * nat).
Fixpoint dict_values (d : enc_dict) (k : string) : option (list value) :=
  match d with [] => None | (a, vs) :: r => if String.eqb k a then Some vs else dict_values r k end.
(** sdiga.py:44-60, _chromosome_decoding. *)
Definition gene_selector (d : enc_dict) (g : string * nat) : res (list selector) :=
  if snd g =? 0 then Ok []
  else
    match dict_values d (fst g) with
    | None => Err KeyError
    | Some vs => match nth_error vs (snd g - 1) with None => Err IndexError | Some v => Ok [Sel (fst g) EQUAL v] end
    end.
Definition decode (c : chromosome) (d : enc_dict) : res pattern :=
  do l <- map_res (gene_selector d) c; Ok (pattern_init (concat l)).

(** * The rows of a chromosome *)
(** sdiga.py:71-78: the genes are compared with the columns at the same positions. *)
Fixpoint genes_match (genes codes : list nat) : bool :=
  match genes, codes with
  | g :: gs, x :: xs => (if g =? 0 then true else x =? g) && genes_match gs xs
  | _, _ => true
  end.
Definition row_in (c : chromosome) (r : enc_row) : bool := genes_match (map snd c) (fst r).
(** sdiga.py:62-80, _filter_rows_with_chromosome; 82-98, _filter_rows_without_chromosome. *)
Definition rows_with (c : chromosome) (rows : list enc_row) : list enc_row := filter (row_in c) rows.
Definition rows_without (c : chromosome) (rows : list enc_row) : list enc_row := filter (fun r => negb (row_in c r)) rows.
(** sum(df[target[0]] == target[1]), sdiga.py:111, 434, 522. *)
Definition positives (tval : string) (rows : list enc_row) : nat := length (filter (fun r => py_eq (snd r) (VStr tval)) rows).
(** sdiga.py:100-113, _get_tp_and_fp. *)
Definition get_tp_fp (c : chromosome) (rows : list enc_row) (tval : string) : nat * nat :=
  let f := rows_with c rows in (positives tval f, length f - positives tval f).
Definition nQ (n : nat) : Q := inject_Z (Z.of_nat n).
(** sdiga.py:116-130, _calculate_support; support.py:44. *)
Definition support_of (tp TP FP : nat) : Q :=
  if (tp =? TP) && (TP =? FP) && (FP =? 0) then 0%Q else (nQ tp / nQ (TP + FP))%Q.
(** sdiga.py:134-147, _calculate_confidence; ppv.py:41. *)
Definition confidence_of (tp fp : nat) : Q :=
  if (tp =? fp) && (fp =? 0) then 0%Q else (nQ tp / nQ (tp + fp))%Q.

(** * The parameters (sdiga.py:190-247) and the environment *)
Record sdiga_config := SGC { gc_generations : nat; gc_population : nat; gc_confidence : Q; gc_support : Q; gc_min_confidence : Q; gc_write : bool }.
Definition individual := (chromosome * Q)%type.
(** numpy.random; sorting by the fitness, descending; the hash of strings. *)
Record environment := Env { en_random : nat -> nat; en_sort : list individual -> list individual; en_hash : string -> Z }.

Section SDIGA.
  Context (cfg : sdiga_config) (env : environment) (dict : enc_dict) (tval : string).
  (** sdiga.py:307-327, _fitness_evaluation. *)
  Definition fitness (encoded unchecked : list enc_row) (TPu FPu : nat) (c : chromosome) : Q :=
    let (tps, _) := get_tp_fp c unchecked tval in
    let s := support_of tps TPu FPu in
    let (tpc, fpc) := get_tp_fp c encoded tval in
    let k := confidence_of tpc fpc in
    ((gc_support cfg * s + gc_confidence cfg * k) / (gc_support cfg + gc_confidence cfg))%Q.

  (** random.randint(lo, hi) and random.choice of range(lo, hi): the [t]-th random number; the range is not empty. *)
  Definition draw (t lo hi : nat) : nat := lo + en_random env t mod (hi - lo).
  (** random.rand() < p with 0 < p < 1: either outcome. *)
  Definition flip (t : nat) : bool := Nat.odd (en_random env t).

  (** sdiga.py:150-167, _generate_population; [t]: the random numbers used so far. *)
  Fixpoint random_chromosome (t : nat) (d : enc_dict) : chromosome * nat :=
    match d with
    | [] => ([], t)
    | (k, vs) :: r => let (c, t') := random_chromosome (S t) r in ((k, draw t 0 (length vs + 1)) :: c, t')
    end.
  Fixpoint generate_population (t n : nat) : list chromosome * nat :=
    match n with
    | O => ([], t)
    | S m => let (c, t') := random_chromosome t dict in let (r, t2) := generate_population t' m in (c :: r, t2)
    end.
  (** population.iloc[i].drop('fitness'): the column 'fitness' (new, or instead of the attribute with this name), sdiga.py:455-466. *)
  Definition drop_fitness (c : chromosome) : chromosome := filter (fun g => negb (String.eqb (fst g) "fitness")) c.
  (** sdiga.py:331-347, _perform_crossover. *)
  Definition crossover (t : nat) (p1 p2 : chromosome) : res (chromosome * chromosome * nat) :=
    if flip t then
      let n := length p1 in
      if n <? 2 then Err ValueError
      else
        let x := draw (t + 1) 0 n in
        let y := (x + draw (t + 2) 1 n) mod n in
        let a := Nat.min x y in
        let b := Nat.max x y in
        Ok (firstn a p1 ++ skipn a (firstn b p2) ++ skipn b p1, firstn a p2 ++ skipn a (firstn b p1) ++ skipn b p2, t + 3)
    else Ok (p1, p2, t + 1).
  Fixpoint set_gene (i : nat) (x : nat) (c : chromosome) : chromosome :=
    match c, i with
    | [], _ => []
    | (k, _) :: r, O => (k, x) :: r
    | g :: r, S j => g :: set_gene j x r
    end.
  (** sdiga.py:349-360, _perform_mutation. *)
  Definition mutation (t : nat) (c : chromosome) : res (chromosome * nat) :=
    if flip t then
      if length c =? 0 then Err ValueError
      else
        let i := draw (t + 1) 0 (length c) in
        if flip (t + 2) then Ok (set_gene i 0 c, t + 3)
        else
          match dict_values dict (fst (nth i c ("", 0))) with
          | None => Err KeyError
          | Some vs => if length vs =? 0 then Err ValueError else Ok (set_gene i (draw (t + 3) 1 (length vs + 1)) c, t + 4)
          end
    else Ok (c, t + 1).
  Definition set_last (x : individual) (l : list individual) : list individual := removelast l ++ [x].
  (** sdiga.py:463-493: one generation. *)
  Definition generation (fit : chromosome -> Q) (t : nat) (pop : list individual) : res (list individual * nat) :=
    match pop with
    | p1 :: p2 :: _ =>
        do r <- crossover t (fst p1) (fst p2);
        let '(c1, c2, t1) := r in
        do m1 <- mutation t1 c1;
        do m2 <- mutation (snd m1) c2;
        let child1 := (fst m1, fit (fst m1)) in
        let child2 := (fst m2, fit (fst m2)) in
        Ok (en_sort env (set_last child2 (set_last child1 pop)), snd m2)
    | _ => Err IndexError
    end.
  Fixpoint generations (fit : chromosome -> Q) (n t : nat) (pop : list individual) : res (list individual * nat) :=
    match n with
    | O => Ok (pop, t)
    | S m => do r <- generation fit t pop; generations fit m (snd r) (fst r)
    end.
  (** sdiga.py:451-493: the population after the evolution. *)
  Definition evolve (fit : chromosome -> Q) (t : nat) : res (list individual * nat) :=
    let (cs, t') := generate_population t (gc_population cfg) in
    generations fit (gc_generations cfg) t' (en_sort env (map (fun c => (drop_fitness c, fit c)) cs)).

  (** sdiga.py:388-419: a metric record is (support, confidence, tp, fp). *)
  Record metrics := Met { me_support : Q; me_confidence : Q; me_tp : nat; me_fp : nat }.
  Definition measure (encoded : list enc_row) (TP FP : nat) (c : chromosome) : metrics :=
    let (tp, fp) := get_tp_fp c encoded tval in Met (support_of tp TP FP) (confidence_of tp fp) tp fp.
  (** The loop over the genes, sdiga.py:394-412. *)
  Fixpoint best_removal (encoded : list enc_row) (TP FP : nat) (c : chromosome) (cur : metrics) (l : list nat)
    (best : option (chromosome * metrics)) (delta : Q) : option (chromosome * metrics) :=
    match l with
    | [] => best
    | i :: r =>
        if snd (nth i c ("", 0)) =? 0 then best_removal encoded TP FP c cur r best delta
        else
          let c' := set_gene i 0 c in
          let m := measure encoded TP FP c' in
          if Qle_bool (me_support cur) (me_support m) && Qle_bool (me_confidence cur) (me_confidence m) && negb (Qle_bool (me_confidence m) 0) then
            let d := (me_support m - me_support cur)%Q in
            if negb (Qle_bool d delta) then best_removal encoded TP FP c cur r (Some (c', m)) d
            else best_removal encoded TP FP c cur r best delta
          else best_removal encoded TP FP c cur r best delta
    end.
  (** The while loop, sdiga.py:385-419 (fuel: number of iterations). *)
  Fixpoint climb (fuel : nat) (encoded : list enc_row) (TP FP : nat) (c : chromosome) (cur : metrics) : res (chromosome * metrics) :=
    match fuel with
    | O => Err OutOfFuel
    | S f =>
        match best_removal encoded TP FP c cur (seq 0 (length c)) None 0 with
        | None => Ok (c, cur)
        | Some (c', m) => climb f encoded TP FP c' m
        end
    end.
  (** sdiga.py:362-425, _local_search: the chromosome, the confidence, tp and fp.  In the last case the confidence is the one of the
      discarded chromosome (its variable has been overwritten in the loop). *)
  Definition local_search (encoded : list enc_row) (TP FP : nat) (c : chromosome) : res (chromosome * Q * nat * nat) :=
    let m0 := measure encoded TP FP c in
    do r <- climb (S (length c)) encoded TP FP c m0;
    let (b, m) := r : chromosome * metrics in
    if Qle_bool (gc_min_confidence cfg) (me_confidence m) then Ok (b, me_confidence m, me_tp m, me_fp m)
    else Ok (c, me_confidence m, me_tp m0, me_fp m0).

  (** * The main loop *)
  (** A line of the output file, sdiga.py:508-518. *)
  Record sg_line := SGL { gl_subgroup : subgroup; gl_fitness : Q; gl_tp : nat; gl_fp : nat; gl_TP : nat; gl_FP : nat;
                          gl_utp : nat; gl_ufp : nat; gl_uTP : nat; gl_uFP : nat }.
  (** The state of the loop: the random numbers used, the unchecked rows, their positives and negatives, the reported descriptions,
      the lines and the counters. *)
  Record sg_loop := SGS { sl_time : nat; sl_unchecked : list enc_row; sl_uTP : nat; sl_uFP : nat; sl_cases : list pattern;
                          sl_lines : list sg_line; sl_unselected : nat; sl_selected : nat }.
  (** sdiga.py:447-523 (fuel: number of iterations). *)
  Fixpoint main_loop (fuel : nat) (tcol : string) (encoded : list enc_row) (TP FP : nat) (s : sg_loop) : res sg_loop :=
    match fuel with
    | O => Err OutOfFuel
    | S f =>
        let fit := fitness encoded (sl_unchecked s) (sl_uTP s) (sl_uFP s) in
        do e <- evolve fit (sl_time s);
        let unselected := sl_unselected s + 2 * gc_generations cfg + (gc_population cfg - 1) in
        match fst e with
        | [] => Err IndexError
        | top :: _ =>
            do r <- local_search encoded TP FP (fst top);
            let '(c, conf, tp, fp) := r in
            do p <- decode c dict;
            let s1 := SGS (snd e) (sl_unchecked s) (sl_uTP s) (sl_uFP s) (sl_cases s) (sl_lines s) unselected (sl_selected s) in
            if existsb (fun case => pattern_is_refinement (en_hash env) case p true) (sl_cases s) then Ok s1
            else if negb (Qle_bool (gc_min_confidence cfg) conf) then Ok s1
            else
              let (utp, ufp) := get_tp_fp c (sl_unchecked s) tval in
              let line := SGL (SG p (Sel tcol EQUAL (VStr tval))) (fit c) tp fp TP FP utp ufp (sl_uTP s) (sl_uFP s) in
              let rest := rows_without c (sl_unchecked s) in
              main_loop f tcol encoded TP FP
                (SGS (snd e) rest (positives tval rest) (length rest - positives tval rest) (sl_cases s ++ [p]) (sl_lines s ++ [line]) unselected (S (sl_selected s)))
        end
    end.
End SDIGA.

(** * fit *)
(** The attributes of the object (sdiga.py:227-247). *)
Record sdiga_state := SDG { dg_unselected : nat; dg_selected : nat; dg_TP : nat; dg_FP : nat; dg_uTP : nat; dg_uFP : nat;
                            dg_dict : option enc_dict; dg_unchecked : option (list enc_row); dg_file : option (list sg_line) }.
Definition sdiga_new : sdiga_state := SDG 0 0 0 0 0 0 None None None.
(** A bound of the number of iterations: the number of chromosomes (theorem). *)
Definition chromosomes (d : enc_dict) : nat := fold_right (fun c n => S (length (snd c)) * n) 1 d.
(** sdiga.py:526-563, fit; 434-445. *)
Definition sdiga_fit (cfg : sdiga_config) (env : environment) (st : sdiga_state) (df : dataframe) (tcol tval : string) : res sdiga_state :=
  if negb (all_nominal df) then Err DatasetAttributeTypeError
  else
    do mask <- target_mask df tcol (VStr tval);
    if negb (any_true mask) then Err ValueError
    else
      do encoded <- encoded_rows df tcol;
      let dict := encoded_dict df tcol in
      let TP := length (filter (fun b => b) mask) in
      let FP := df_n df - TP in
      do s <- main_loop cfg env dict tval (S (S (chromosomes dict))) tcol encoded TP FP
                (SGS 0 encoded TP FP [] [] (dg_unselected st) (dg_selected st));
      Ok (SDG (sl_unselected s) (sl_selected s) TP FP (sl_uTP s) (sl_uFP s) (Some dict) (Some (sl_unchecked s))
              (if gc_write cfg then Some (sl_lines s) else None)).
