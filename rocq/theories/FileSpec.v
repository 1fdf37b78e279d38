(** Specification vocabulary for the text files: what a regular expression matches, well-formed lines. *)
From Verif Require Export FileModel MiningSpec ListSpec.
Open Scope list_scope.
Open Scope nat_scope.

(** The texts matched by a regular expression. *)
Inductive matches : re -> string -> Prop :=
| m_empty : matches REmpty ""
| m_char : forall p c, p c = true -> matches (RChar p) (String c "")
| m_seq : forall a b s t, matches a s -> matches b t -> matches (RSeq a b) (s ++ t)%string
| m_left : forall a b s, matches a s -> matches (RAlt a b) s
| m_right : forall a b s, matches b s -> matches (RAlt a b) s
| m_stop : forall a, matches (RStar a) ""
| m_more : forall a s t, matches a s -> matches (RStar a) t -> matches (RStar a) (s ++ t)%string.

(** All the characters satisfy [p]. *)
Fixpoint all_chars (p : ascii -> bool) (s : string) : bool :=
  match s with EmptyString => true | String c r => p c && all_chars p r end.
Definition some_bits (s : string) : Prop := s <> EmptyString /\ all_chars is_bit s = true.
(** The line [s] of a miner carries the subgroup text [sub] and the two bit strings. *)
Definition carries (s sub pos neg : string) : Prop :=
  exists rest, s = (sub ++ " ; Sequence of instances tp = bitarray('" ++ pos ++ "') ; Sequence of instances fp = bitarray('" ++ neg ++
                    "') ; Quality Measure" ++ rest)%string /\
    sub <> EmptyString /\ rest <> EmptyString /\ some_bits pos /\ some_bits neg.
(** A text without line breaks. *)
Definition one_line (s : string) : bool := all_chars (fun c => negb (Ascii.eqb c nl) && negb (Ascii.eqb c cr)) s.
(** The lines of a file, without their line breaks. *)
Definition line_contents (text : string) : list string := map rstrip_nl (read_lines text).
(** A name or value made of the characters that the input file of the list algorithms admits. *)
Definition word (s : string) : Prop := s <> EmptyString /\ all_chars is_word s = true.
(** attribute = 'value', both of them words; the attribute does not end with a comma. *)
Definition plain_selector (s : selector) : Prop :=
  s_op s = EQUAL /\ exists v, s_val s = VStr v /\ word v /\ word (s_attr s) /\ last_char (s_attr s) <> Some ","%char.

(** * What the list algorithms write *)
Definition line (s : string) : string := (s ++ newline)%string.
Definition tabbed (s : string) : string := String tab (line s).
Definition num (n : nat) : string := str_of_Z (Z.of_nat n).
(** The report of the member number [k] (from 1): the rows it covers at its position and on its own. *)
Definition member_report (k : nat) (g : subgroup) (own all : nat * nat) : string :=
  (line ("s" ++ num k ++ ": " ++ subgroup_str g) ++
   tabbed "Considering its position in the list:" ++
   tabbed ("- positive instances covered: " ++ num (fst own)) ++
   tabbed ("- negative instances covered: " ++ num (snd own)) ++
   tabbed ("- total instances covered: " ++ num (fst own + snd own)%nat) ++
   tabbed "Considering it individually:" ++
   tabbed ("- positive instances covered: " ++ num (fst all)) ++
   tabbed ("- negative instances covered: " ++ num (snd all)) ++
   tabbed ("- total instances covered: " ++ num (fst all + snd all)%nat))%string.
(** The report of the list of the candidates [st]. *)
Definition list_report (df : dataframe) (tgt : list bool) (st : list candidate3) : string :=
  let rows := seq 0 (df_n df) in
  let ones b := length (filter (bit b) rows) in
  let member k x := member_report (k + 1) (c_group x) (own_rows df tgt (firstn k st) x) (ones (c_pos x), ones (c_neg x)) in
  let rest := default_rows df tgt st in
  (line ("## Subgroup list (" ++ num (length st) ++ (if length st =? 1 then " subgroup" else " subgroups")%nat ++ ") ##") ++
   String.concat "" (map (fun kx => member (fst kx) (snd kx)) (combine (seq 0 (length st)) st)) ++
   line "default rule:" ++
   tabbed ("positive instances covered: " ++ num (fst rest)) ++
   tabbed ("negative instances covered: " ++ num (snd rest)) ++
   tabbed ("total instances covered: " ++ num (fst rest + snd rest)%nat))%string.
(** The head of the file: the size of the dataset. *)
Definition dataset_report (df : dataframe) (pos neg : nat) : string :=
  (line "Dataset information:" ++
   tabbed ("- Number of instances: " ++ num (df_n df) ++ ".") ++
   tabbed ("- Number of positive instances: " ++ num pos ++ ".") ++
   tabbed ("- Number of negative instances: " ++ num neg ++ ".") ++
   tabbed ("- Total number of attributes (including the target): " ++ num (length (df_cols df)) ++ ".") ++ newline ++ newline)%string.

(** * The candidates of an input file *)
(** What happens with a line of the input file: it is loaded, its bitarrays do not have one bit per row, or it has another format. *)
Definition has_format (s g p n : string) : Prop :=
  s = (g ++ " ; " ++ p ++ " ; " ++ n)%string /\ some_bits p /\ some_bits n /\
  matches (RSeq (RText "Description: ") (RSeq pattern_regex (RSeq (RText ", Target: ") selector_regex))) g.
Inductive outcome (rows : nat) (s : string) : option candidate3 -> Prop :=
| loaded : forall g p n x, has_format s g p n -> subgroup_parse g = Ok (c_group x) ->
    bits_text (c_pos x) = p -> bits_text (c_neg x) = n -> length (c_pos x) = rows -> length (c_neg x) = rows -> outcome rows s (Some x)
| wrong_length : forall g p n, has_format s g p n -> (String.length p <> rows \/ String.length n <> rows) -> outcome rows s None
| wrong_format : (forall g p n, ~ has_format s g p n) -> outcome rows s None.
(** What the output file says about the line number [k]. *)
Definition complaint (k : nat) (reason : string) : string :=
  (line ("ERROR: subgroup in line " ++ num k ++ " from input file was not loaded.") ++ tabbed ("- " ++ reason))%string.
Inductive said (rows k : nat) (s : string) : string -> Prop :=
| said_format : (forall g p n, ~ has_format s g p n) -> said rows k s (complaint k "Format not valid.")
| said_lengths : forall g p n t u, has_format s g p n ->
    (String.length p = rows /\ t = ""%string \/
     String.length p <> rows /\ t = complaint k "The length of the positive bitarray is not equal to 'number_of_dataset_instances'.") ->
    (String.length n = rows /\ u = ""%string \/
     String.length n <> rows /\ u = complaint k "The length of the negative bitarray is not equal to 'number_of_dataset_instances'.") ->
    said rows k s (t ++ u)%string.
Fixpoint somes {A} (l : list (option A)) : list A :=
  match l with [] => [] | Some x :: l' => x :: somes l' | None :: l' => somes l' end.
(** A dataset whose column names and values the input file admits. *)
Definition plain_dataset (df : dataframe) : Prop :=
  forall a col, In (a, col) (df_cols df) -> word a /\ last_char a <> Some ","%char /\ forall v, In (VStr v) col -> word v.
