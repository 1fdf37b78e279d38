(** Model of utils/file_format_transformations.py, of the input file of the subgroup-list algorithms
    (gmsl.py:34-38, 151-192) and of the text that VLSD and SDMap write (vlsd.py:208-216, sdmap.py:173-181).
    Characters are bytes; a file is the text it contains.  Encoding errors are not modelled. *)
From Verif Require Export ListModel VLSDModel.
Open Scope list_scope.
Open Scope nat_scope.

(** * Python's re module: regular expressions and [fullmatch] *)
(** The constructs used by the two patterns: a character class, concatenation, alternatives, repetition. *)
Inductive re :=
| RNone | REmpty
| RChar (p : ascii -> bool)
| RSeq (a b : re) | RAlt (a b : re) | RStar (a : re).
Definition RPlus (a : re) : re := RSeq a (RStar a).
Fixpoint RText (s : string) : re :=
  match s with EmptyString => REmpty | String c r => RSeq (RChar (Ascii.eqb c)) (RText r) end.
Fixpoint nullable (r : re) : bool :=
  match r with
  | RNone | RChar _ => false
  | REmpty | RStar _ => true
  | RSeq a b => nullable a && nullable b
  | RAlt a b => nullable a || nullable b
  end.
Definition seq_ (a b : re) : re :=
  match a, b with RNone, _ => RNone | _, RNone => RNone | REmpty, _ => b | _, _ => RSeq a b end.
Definition alt_ (a b : re) : re :=
  match a, b with RNone, _ => b | _, RNone => a | _, _ => RAlt a b end.
Fixpoint deriv (c : ascii) (r : re) : re :=
  match r with
  | RNone | REmpty => RNone
  | RChar p => if p c then REmpty else RNone
  | RSeq a b => if nullable a then alt_ (seq_ (deriv c a) b) (deriv c b) else seq_ (deriv c a) b
  | RAlt a b => alt_ (deriv c a) (deriv c b)
  | RStar a => seq_ (deriv c a) (RStar a)
  end.
(** Does the expression match the whole text? *)
Fixpoint re_full (r : re) (s : string) : bool :=
  match s with EmptyString => nullable r | String c s' => re_full (deriv c r) s' end.
(** All the ways to cut a text in two, longest first part first. *)
Fixpoint cuts (s : string) : list (string * string) :=
  match s with
  | EmptyString => [(EmptyString, EmptyString)]
  | String c r => map (fun ab => (String c (fst ab), snd ab)) (cuts r) ++ [(EmptyString, s)]
  end.
Fixpoint first_some {A B} (f : A -> option B) (l : list A) : option B :=
  match l with [] => None | x :: l' => match f x with Some y => Some y | None => first_some f l' end end.
(** [fullmatch] for a concatenation of expressions, with the text matched by each of them: each one takes the longest text
    that lets the rest match (the expressions are greedy). *)
Fixpoint fullmatch (l : list re) (s : string) : option (list string) :=
  match l with
  | [] => match s with EmptyString => Some [] | _ => None end
  | r :: l' => first_some (fun ab => if re_full r (fst ab) then option_map (cons (fst ab)) (fullmatch l' (snd ab)) else None) (cuts s)
  end.

(** * Text files *)
Definition nl : ascii := Ascii.ascii_of_nat 10.
Definition cr : ascii := Ascii.ascii_of_nat 13.
Definition tab : ascii := Ascii.ascii_of_nat 9.
Definition newline : string := String nl EmptyString.
(** [open(path, "r")]: "\r\n" and "\r" are read as "\n". *)
Fixpoint universal_newlines (s : string) : string :=
  match s with
  | EmptyString => EmptyString
  | String c r =>
      if Ascii.eqb c cr then
        match r with
        | String d r' => if Ascii.eqb d nl then String nl (universal_newlines r') else String nl (universal_newlines r)
        | EmptyString => newline
        end
      else String c (universal_newlines r)
  end.
(** [for line in file]: the lines with their newline; the last one may have none. *)
Fixpoint lines_from (cur s : string) : list string :=
  match s with
  | EmptyString => match cur with EmptyString => [] | _ => [cur] end
  | String c r => if Ascii.eqb c nl then (cur ++ newline)%string :: lines_from "" r else lines_from (cur ++ String c "")%string r
  end.
Definition read_lines (text : string) : list string := lines_from "" (universal_newlines text).
(** [line.rstrip("\n")] *)
Fixpoint rstrip_nl (s : string) : string :=
  match s with
  | EmptyString => EmptyString
  | String c r => match rstrip_nl r with
                  | EmptyString => if Ascii.eqb c nl then EmptyString else String c EmptyString
                  | r' => String c r'
                  end
  end.
Definition str_of_nat (n : nat) : string := str_of_Z (Z.of_nat n).

(** * utils/file_format_transformations.py *)
(** "[01]" and "." *)
Definition is_bit (c : ascii) : bool := Ascii.eqb c "0" || Ascii.eqb c "1".
Definition not_nl (c : ascii) : bool := negb (Ascii.eqb c nl).
(** file_format_transformations.py:11: the pieces of the pattern (the anchors ^ and $ hold for a full match). *)
Definition transform_regex : list re :=
  [RPlus (RChar not_nl);
   RText " ; Sequence of instances tp = bitarray('"; RPlus (RChar is_bit);
   RText "') ; Sequence of instances fp = bitarray('"; RPlus (RChar is_bit);
   RText "') ; Quality Measure"; RPlus (RChar not_nl)].
(** file_format_transformations.py:25-33: one line; the text written, and whether it is an error. *)
Definition transform_line (number : nat) (line : string) : string * bool :=
  match fullmatch transform_regex (rstrip_nl line) with
  | Some [subgroup; _; pos; _; neg; _; _] => ((subgroup ++ " ; " ++ pos ++ " ; " ++ neg ++ newline)%string, false)
  | _ => (("ERROR: subgroup in line " ++ str_of_nat number ++ " was not correctly read." ++ newline)%string, true)
  end.
Fixpoint transform_loop (number errors : nat) (out : string) (l : list string) : string * nat * nat :=
  match l with
  | [] => (out, number, errors)
  | line :: l' =>
      let '(t, e) := transform_line number line in
      transform_loop (S number) (if e then S errors else errors) (out ++ t)%string l'
  end.
(** file_format_transformations.py:14-37: the content of the transformed file and the two numbers returned. *)
Definition transform_file (text : string) : string * (Z * Z) :=
  let '(out, number, errors) := transform_loop 1 0 "" (read_lines text) in
  (out, (Z.of_nat number - 1 - Z.of_nat errors, Z.of_nat errors)%Z).

(** * The input file of the subgroup-list algorithms *)
Definition between (a b c : ascii) : bool :=
  (Ascii.nat_of_ascii a <=? Ascii.nat_of_ascii c) && (Ascii.nat_of_ascii c <=? Ascii.nat_of_ascii b).
(** gmsl.py:34, the class [&,\.<>/=A-Za-z0-9_-] *)
Definition is_word (c : ascii) : bool :=
  existsb (Ascii.eqb c) ["&"; ","; "."; "<"; ">"; "/"; "="; "_"; "-"]%char || between "A" "Z" c || between "a" "z" c || between "0" "9" c.
(** gmsl.py:34 *)
Definition selector_regex : re :=
  RSeq (RPlus (RChar is_word)) (RSeq (RText " = ")
    (RAlt (RPlus (RChar is_word)) (RSeq (RText "'") (RSeq (RPlus (RChar is_word)) (RText "'"))))).
(** gmsl.py:35 *)
Definition pattern_regex : re :=
  RSeq (RText "[") (RSeq selector_regex (RSeq (RStar (RSeq (RText ", ") selector_regex)) (RText "]"))).
(** gmsl.py:36-37 *)
Definition input_regex : list re :=
  [RSeq (RText "Description: ") (RSeq pattern_regex (RSeq (RText ", Target: ") selector_regex));
   RText " ; "; RPlus (RChar is_bit); RText " ; "; RPlus (RChar is_bit)].
(** [bitarray("0110")] *)
Fixpoint bits_of_string (s : string) : list bool :=
  match s with EmptyString => [] | String c r => Ascii.eqb c "1" :: bits_of_string r end.
Definition not_loaded (number : nat) (reason : string) : string :=
  ("ERROR: subgroup in line " ++ str_of_nat number ++ " from input file was not loaded." ++ newline
   ++ String tab ("- " ++ reason ++ newline))%string.
(** gmsl.py:166-189: one line; the candidate that is loaded, if any, and what is written in the output file. *)
Definition load_line (n number : nat) (line : string) : res (option candidate3 * string) :=
  match fullmatch input_regex (rstrip_nl line) with
  | Some [subgroup; _; pos; _; neg] =>
      do g <- subgroup_parse subgroup;
      let p := bits_of_string pos in
      let q := bits_of_string neg in
      let ok_p := length p =? n in
      let ok_q := length q =? n in
      Ok (if ok_p && ok_q then Some (g, p, q) else None,
          ((if ok_p then "" else not_loaded number "The length of the positive bitarray is not equal to 'number_of_dataset_instances'.") ++
           (if ok_q then "" else not_loaded number "The length of the negative bitarray is not equal to 'number_of_dataset_instances'."))%string)
  | _ => Ok (None, not_loaded number "Format not valid.")
  end.
Fixpoint load_loop (n number : nat) (l : list string) (xs : list candidate3) (log : string) : res (list candidate3 * string) :=
  match l with
  | [] => Ok (xs, log)
  | line :: l' =>
      do r <- load_line n number line;
      load_loop n (S number) l' (match fst r with Some x => xs ++ [x] | None => xs end) (log ++ snd r)%string
  end.
(** gmsl.py:151-192 (psld.py and dslm.py inherit it): the candidates and what is written in the output file. *)
Definition load_candidates (n : nat) (text : string) : res (list candidate3 * string) :=
  do r <- load_loop n 1 (read_lines text) [] ("Reading input file." ++ newline)%string;
  Ok (fst r, (snd r ++ "Read subgroups: " ++ str_of_nat (length (fst r)) ++ "." ++ newline
              ++ "Input file read." ++ newline ++ newline ++ newline)%string).
(** subgroup_list.py:174-182: one member of the list; [p], [n] its rows by position, [op], [on] its original rows. *)
Definition member_text (index : nat) (g : subgroup) (p n op on : list bool) : string :=
  ("s" ++ str_of_nat (index + 1)%nat ++ ": " ++ subgroup_str g ++ newline ++
   String tab ("Considering its position in the list:" ++ newline) ++
   String tab ("- positive instances covered: " ++ str_of_nat (bits_count p) ++ newline) ++
   String tab ("- negative instances covered: " ++ str_of_nat (bits_count n) ++ newline) ++
   String tab ("- total instances covered: " ++ str_of_nat (bits_count p + bits_count n)%nat ++ newline) ++
   String tab ("Considering it individually:" ++ newline) ++
   String tab ("- positive instances covered: " ++ str_of_nat (bits_count op) ++ newline) ++
   String tab ("- negative instances covered: " ++ str_of_nat (bits_count on) ++ newline) ++
   String tab ("- total instances covered: " ++ str_of_nat (bits_count op + bits_count on)%nat ++ newline))%string.
(** subgroup_list.py:169-182: the loop over the members. *)
Fixpoint members_text (index : nat) (gs : list subgroup) (ps ns ops ons : list (list bool)) : string :=
  match gs, ps, ns, ops, ons with
  | g :: gs', p :: ps', n :: ns', op :: ops', on :: ons' =>
      (member_text index g p n op on ++ members_text (S index) gs' ps' ns' ops' ons')%string
  | _, _, _, _, _ => ""
  end.
(** subgroup_list.py:163-189, [__str__]. *)
Definition sl_str (l : sglist) : string :=
  let p := bits_count (sl_default_pos l) in
  let n := bits_count (sl_default_neg l) in
  ((if (sl_len l =? 1)%nat then "## Subgroup list (1 subgroup) ##" ++ newline
    else "## Subgroup list (" ++ str_of_nat (sl_len l) ++ " subgroups) ##" ++ newline) ++
   members_text 0 (sl_subgroups l) (sl_pos l) (sl_neg l) (sl_orig_pos l) (sl_orig_neg l) ++
   "default rule:" ++ newline ++
   String tab ("positive instances covered: " ++ str_of_nat p ++ newline) ++
   String tab ("negative instances covered: " ++ str_of_nat n ++ newline) ++
   String tab ("total instances covered: " ++ str_of_nat (p + n)%nat ++ newline))%string.
(** gmsl.py:223-228 *)
Definition dataset_text (df : dataframe) (mask : list bool) : string :=
  ("Dataset information:" ++ newline ++
   String tab ("- Number of instances: " ++ str_of_nat (df_n df) ++ "." ++ newline) ++
   String tab ("- Number of positive instances: " ++ str_of_nat (bits_count mask) ++ "." ++ newline) ++
   String tab ("- Number of negative instances: " ++ str_of_nat (length mask - bits_count mask)%nat ++ "." ++ newline) ++
   String tab ("- Total number of attributes (including the target): " ++ str_of_nat (length (df_cols df)) ++ "." ++ newline ++ newline ++ newline))%string.
(** gmsl.py:194-272, psld.py:90-163, dslm.py:97-202: fit with the content of its input file; the result is the content of the
    output file (gmsl.py:149: each list is followed by a newline).  The dataset and the target are checked before the file is
    read; when an exception is raised the partial output file is not modelled. *)
Definition fit_from_file {G} (c : list_config G) (df : dataframe) (tcol tval : string) (text : string) : res string :=
  if df_n df =? 0 then Err ValueError
  else if negb (all_nominal df) then Err DatasetAttributeTypeError
  else
    do mask <- target_mask df tcol (VStr tval);
    do r <- load_candidates (df_n df) text;
    do ls <- learner_fit c df tcol tval (fst r);
    Ok (dataset_text df mask ++ snd r ++ String.concat "" (map (fun l => sl_str l ++ newline) ls))%string.

(** * The text of the output files of the miners *)
(** [str(bitarray)] *)
Fixpoint bits_text (b : list bool) : string :=
  match b with [] => EmptyString | x :: r => String (if x then "1" else "0") (bits_text r) end.
Definition str_bitarray (b : list bool) : string :=
  match b with [] => "bitarray()" | _ => ("bitarray('" ++ bits_text b ++ "')")%string end.
Section Text.
  Context {V : Type} (show : V -> string) (qname oname : string).
  (** vlsd.py:208-216; the names of the measure and of the estimate and the text of a value are parameters. *)
  Definition vlsd_line_text (r : vl_record (list bool) V) : string :=
    let l := vr_line r in
    (subgroup_str (r_subgroup l) ++ " ; " ++
     "Sequence of instances tp = " ++ str_bitarray (vr_seq_tp r) ++ " ; " ++
     "Sequence of instances fp = " ++ str_bitarray (vr_seq_fp r) ++ " ; " ++
     "Quality Measure " ++ qname ++ " = " ++ show (r_quality l) ++ " ; " ++
     "Optimistic Estimate " ++ oname ++ " = " ++ show (vr_oe r) ++ " ; " ++
     "tp = " ++ str_of_Z (r_tp l) ++ " ; " ++ "fp = " ++ str_of_Z (r_fp l) ++ " ; " ++
     "TP = " ++ str_of_Z (r_TP l) ++ " ; " ++ "FP = " ++ str_of_Z (r_FP l) ++ newline)%string.
  (** sdmap.py:174-179 *)
  Definition sdmap_line_text (l : record V) : string :=
    (subgroup_str (r_subgroup l) ++ " ; " ++
     "Quality Measure " ++ qname ++ " = " ++ show (r_quality l) ++ " ; " ++
     "tp = " ++ str_of_Z (r_tp l) ++ " ; " ++ "fp = " ++ str_of_Z (r_fp l) ++ " ; " ++
     "TP = " ++ str_of_Z (r_TP l) ++ " ; " ++ "FP = " ++ str_of_Z (r_FP l) ++ newline)%string.
End Text.
(** The file is what has been written so far. *)
Definition file_text (ls : list string) : string := String.concat "" ls.
