(** C52, C61, C62: the text files: transformation of the miners' output, candidates of the list algorithms, their output. *)
From Verif Require Import FileSpec FileProofs FileLoad VLSDLength MiningProofs ListProofs SubgroupListProofs FPTreeProofs SDMapProofs CoreText Properties_SDMap Properties_VLSD Properties_Lists.
From Coq Require Import Lia.
Open Scope list_scope.
Open Scope nat_scope.
Open Scope string_scope.

(** * C52: the transformation accounts for every line *)
(** One output line per input line.  For a line that carries a subgroup and two bit strings, the subgroup and the bit strings
    separated by " ; " (when there are several ways to read the line, the one with the longest subgroup text); for any other line,
    an error with the number of the line. *)
Theorem C52_line_by_line : forall text, let ins := line_contents text in let outs := line_contents (fst (transform_file text)) in
  length outs = length ins /\
  forall i s, nth_error ins i = Some s ->
    (exists sub pos neg, carries s sub pos neg /\ (forall sub' pos' neg', carries s sub' pos' neg' -> (String.length sub' <= String.length sub)%nat) /\
       nth_error outs i = Some (sub ++ " ; " ++ pos ++ " ; " ++ neg)) \/
    ((forall sub pos neg, ~ carries s sub pos neg) /\
       nth_error outs i = Some ("ERROR: subgroup in line " ++ str_of_Z (Z.of_nat (i + 1)) ++ " was not correctly read.")).
Proof.
  intros text ins outs. unfold outs. rewrite transform_lines. split; [apply numbered_length|]. intros i s E. fold ins. rewrite numbered_nth, E. cbn [option_map].
  assert (O : one_line s = true). { pose proof (line_contents_one text) as F. rewrite Forall_forall in F. apply F. apply nth_error_In in E. exact E. }
  destruct (well_formedb s) eqn:W.
  - left. destruct (transformed_ok (1 + i) s O W) as (sub & pos & neg & C & L & T). exists sub, pos, neg. split; auto. split; auto. rewrite T. reflexivity.
  - right. split; [|rewrite transformed_err by auto; unfold str_of_nat; rewrite Nat.add_comm; reflexivity]. intros sub pos neg C. 
    assert (W' : well_formedb s = true) by (apply well_formed_carries; eauto). congruence.
Qed.
(** The numbers that are returned: lines that carry a subgroup, other lines. *)
Theorem C52_counts : forall text good bad, snd (transform_file text) = (good, bad) ->
  (good + bad = Z.of_nat (length (line_contents text)))%Z /\
  forall ok : string -> bool, (forall s, In s (line_contents text) -> (ok s = true <-> exists sub pos neg, carries s sub pos neg)) ->
    good = Z.of_nat (length (filter ok (line_contents text))) /\ bad = Z.of_nat (length (filter (fun s => negb (ok s)) (line_contents text))).
Proof.
  intros text good bad E. rewrite transform_spec in E. cbn [snd] in E. injection E as <- <-. split.
  - pose proof (filter_negb_length well_formedb (line_contents text)). lia.
  - intros ok H. assert (K : forall s, In s (line_contents text) -> well_formedb s = ok s).
    { intros s I. pose proof (line_contents_one text) as F. rewrite Forall_forall in F. pose proof (well_formed_carries s (F s I)) as W. specialize (H s I).
      destruct (well_formedb s), (ok s); auto; [symmetry; apply H, W; auto|apply W, H; auto]. }
    rewrite (filter_ext_in _ _ _ K). split; auto. f_equal. f_equal. apply filter_ext_in. intros s I. now rewrite K.
Qed.
(** Lines end with "\n", with "\r\n" or with "\r" (the same in the whole file); the last one may end with the file. *)
Lemma newlines_break : forall brk, In brk [newline; String cr newline; String cr EmptyString] -> forall s t, one_line s = true ->
  (forall t', t <> String nl t') -> universal_newlines ((s ++ brk) ++ t) = s ++ String nl (universal_newlines t).
Proof.
  intros brk I s t. induction s as [|c s IH]; intros O N.
  - destruct I as [<-|[<-|[<-|[]]]]; cbn [append newline universal_newlines]; [reflexivity|reflexivity|]. destruct t as [|d t]; [reflexivity|].
    change (Ascii.eqb cr cr) with true. cbv iota. destruct (Ascii.eqb d nl) eqn:E; [apply Ascii.eqb_eq in E; subst d; exfalso; apply (N t); auto|reflexivity].
  - rewrite one_line_cons, !Bool.andb_true_iff, !Bool.negb_true_iff in O. destruct O as [[A B] C]. cbn [append universal_newlines]. rewrite B, IH by auto. reflexivity.
Qed.
Lemma newlines_one : forall s, one_line s = true -> universal_newlines s = s.
Proof.
  induction s as [|c s IH]; [reflexivity|]. rewrite one_line_cons, !Bool.andb_true_iff, !Bool.negb_true_iff. intros [[A B] C]. cbn [universal_newlines]. rewrite B, IH; auto.
Qed.
Lemma lines_from_last : forall s cur, one_line s = true -> lines_from cur s = match cur ++ s with EmptyString => [] | _ => [cur ++ s] end.
Proof.
  induction s as [|c s IH]; intros cur.
  - intros _. rewrite app_nil_r_str. reflexivity.
  - rewrite one_line_cons, !Bool.andb_true_iff, !Bool.negb_true_iff. intros [[A B] C]. cbn [lines_from]. rewrite A, IH by auto. rewrite app_assoc_str. reflexivity.
Qed.
Lemma break_start : forall brk ls last, In brk [String cr newline; String cr EmptyString] -> Forall (fun s => one_line s = true) ls -> one_line last = true ->
  forall t, file_text (map (fun s => s ++ brk) ls) ++ last <> String nl t.
Proof.
  intros brk ls last I F O t E. unfold file_text in E. destruct ls as [|s ls]; cbn [map] in E.
  - cbn in E. subst last. cbn in O. discriminate.
  - inversion F as [|? ? Os F']; subst. rewrite FileProofs.concat_cons in E. destruct s as [|c s].
    + destruct I as [<-|[<-|[]]]; discriminate E.
    + cbn in E. injection E as -> _. cbn in Os. discriminate.
Qed.
Theorem C52_newlines : forall brk ls last, In brk [newline; String cr newline; String cr EmptyString] ->
  Forall (fun s => one_line s = true) ls -> one_line last = true ->
  line_contents (file_text (map (fun s => s ++ brk) ls) ++ last) = (ls ++ match last with EmptyString => [] | _ => [last] end)%list.
Proof.
  intros brk ls last I F O. unfold line_contents, read_lines. induction F as [|s ls Os F IH].
  - cbn [map file_text String.concat append app]. change (String.concat "" []) with "". cbn [append]. rewrite (newlines_one last O), lines_from_last by auto. cbn [append].
    destruct last; [reflexivity|]. cbn [map]. rewrite rstrip_nl_id; auto.
  - unfold file_text in *. cbn [map]. rewrite FileProofs.concat_cons, app_assoc_str.
    assert (E : universal_newlines ((s ++ brk) ++ String.concat "" (map (fun s => s ++ brk) ls) ++ last) =
                s ++ String nl (universal_newlines (String.concat "" (map (fun s => s ++ brk) ls) ++ last))).
    { destruct I as [<-|I]; [|apply newlines_break; [right; exact I|exact Os|apply (break_start brk ls last); auto]]. rewrite app_assoc_str. cbn [newline append].
      apply universal_newlines_app. exact Os. }
    rewrite E, lines_from_app by auto. cbn [append map app]. rewrite rstrip_nl_app by auto. f_equal. exact IH.
Qed.
(** Lines without the text "bitarray(" (those of the other miners) are errors. *)
Lemma contains_mid : forall p a b, contains p (a ++ p ++ b) = true.
Proof. intros p a b. apply contains_suffix, prefix_contains, prefix_refl_app. Qed.
Lemma contains_part : forall a p b s, contains (a ++ p ++ b) s = true -> contains p s = true.
Proof.
  intros a p b s. assert (Q : forall s, String.prefix (a ++ p ++ b) s = true -> contains p s = true).
  { induction a as [|c a IH]; intros s0 H.
    - cbn [append] in H. apply prefix_contains. revert s0 H. induction p as [|d p IH]; intros s0 H; [destruct s0; reflexivity|]. destruct s0 as [|e s0]; [discriminate|].
      cbn [append String.prefix] in *. destruct (ascii_dec d e); [auto|discriminate].
    - destruct s0 as [|e s0]; [discriminate|]. cbn [append String.prefix] in H. destruct (ascii_dec c e); [|discriminate]. cbn [contains]. rewrite (IH s0 H). apply Bool.orb_true_r. }
  induction s as [|c s IH]; cbn [contains]; rewrite Bool.orb_true_iff.
  - intros [H|H]; [|discriminate]. specialize (Q "" H). exact Q.
  - intros [H|H]; [exact (Q _ H)|]. rewrite IH by auto. apply Bool.orb_true_r.
Qed.
Theorem C52_no_bitarray : forall text i s, nth_error (line_contents text) i = Some s -> contains "bitarray(" s = false ->
  nth_error (line_contents (fst (transform_file text))) i = Some ("ERROR: subgroup in line " ++ str_of_Z (Z.of_nat (i + 1)) ++ " was not correctly read.").
Proof.
  intros text i s E N. destruct (C52_line_by_line text) as [_ H]. destruct (H i s E) as [(sub & pos & neg & (rest & Es & _) & _)|[_ T]]; [|exact T]. exfalso.
  assert (C : contains " ; Sequence of instances tp = bitarray('" s = true) by (rewrite Es; apply contains_mid).
  change " ; Sequence of instances tp = bitarray('" with (" ; Sequence of instances tp = " ++ "bitarray(" ++ "'") in C. apply contains_part in C. congruence.
Qed.
(** The lines of VLSD with bitsets: the subgroup and its two bitarrays, whatever the names of the dataset are (without line breaks),
    when the names of the measures and the printed values have neither ";" nor line breaks. *)
Theorem C52_vlsd : forall V (show : V -> string) qname oname ls, tidy qname -> tidy oname -> (forall v, tidy (show v)) ->
  Forall (fun r => one_line (subgroup_str (r_subgroup (vr_line r))) = true /\ vr_seq_tp r <> [] /\ vr_seq_fp r <> []) ls ->
  transform_file (file_text (map (vlsd_line_text show qname oname) ls)) =
    (file_text (map (fun r => subgroup_str (r_subgroup (vr_line r)) ++ " ; " ++ bits_text (vr_seq_tp r) ++ " ; " ++ bits_text (vr_seq_fp r) ++ newline) ls),
     (Z.of_nat (length ls), 0%Z)).
Proof.
  intros V show qname oname ls Hq Ho Hv F.
  set (body := fun r : vl_record (list bool) V => subgroup_str (r_subgroup (vr_line r)) ++ SEP1 ++ bits_text (vr_seq_tp r) ++ SEP2 ++ bits_text (vr_seq_fp r) ++ SEP3 ++ after_measure show qname oname r).
  assert (B : forall r, In r ls -> one_line (body r) = true /\ well_formedb (body r) = true /\
    forall k, transformed k (body r) = subgroup_str (r_subgroup (vr_line r)) ++ " ; " ++ bits_text (vr_seq_tp r) ++ " ; " ++ bits_text (vr_seq_fp r)).
  { intros r I. rewrite Forall_forall in F. destruct (F r I) as (O & N1 & N2). destruct (after_clean show qname oname Hq Ho Hv r) as [A1 A2].
    assert (OB : one_line (body r) = true).
    { unfold body. rewrite !one_line_app, O, A2, (bits_one_line _ (bits_text_bits (vr_seq_tp r))), (bits_one_line _ (bits_text_bits (vr_seq_fp r))). reflexivity. }
    split; auto. assert (K : forall k, well_formedb (body r) = true /\ transformed k (body r) = subgroup_str (r_subgroup (vr_line r)) ++ " ; " ++ bits_text (vr_seq_tp r) ++ " ; " ++ bits_text (vr_seq_fp r)).
    { intros k. apply transformed_line; auto using some_bits_text; unfold after_measure, subgroup_str; discriminate. }
    split; [apply (K 0)|intros k; apply K]. }
  assert (E : file_text (map (vlsd_line_text show qname oname) ls) = file_text (map (fun s => s ++ newline) (map body ls))).
  { rewrite map_map. f_equal. apply map_ext_in. intros r I. rewrite Forall_forall in F. destruct (F r I) as (_ & N1 & N2). apply vlsd_line_shape; auto. }
  rewrite E, transform_spec. rewrite line_contents_file by (apply Forall_map, Forall_forall; intros r I; apply B; auto). clear E F.
  assert (W : forall l, incl l ls -> filter well_formedb (map body l) = map body l /\ filter (fun s => negb (well_formedb s)) (map body l) = []).
  { induction l as [|r l IH]; intros I; cbn [map filter]; auto. destruct (B r (I r (or_introl eq_refl))) as (_ & W & _). rewrite W. cbn [negb].
    destruct IH as [-> ->]; auto. intros x Ix. apply I. right; auto. }
  destruct (W ls (incl_refl ls)) as [-> ->]. rewrite map_length. cbn [length]. f_equal. f_equal.
  assert (T : forall l k, incl l ls -> map (fun s => s ++ newline) (numbered transformed k (map body l)) =
    map (fun r => subgroup_str (r_subgroup (vr_line r)) ++ " ; " ++ bits_text (vr_seq_tp r) ++ " ; " ++ bits_text (vr_seq_fp r) ++ newline) l).
  { induction l as [|r l IH]; intros k I; cbn [map numbered]; auto. destruct (B r (I r (or_introl eq_refl))) as (_ & _ & ->). rewrite IH by (intros x Ix; apply I; right; auto).
    rewrite !app_assoc_str. reflexivity. }
  apply T, incl_refl.
Qed.

(** * C61: the candidates that are loaded *)
Lemma format_unique : forall s g p n g' p' n', has_format s g p n -> has_format s g' p' n' -> g = g' /\ p = p' /\ n = n'.
Proof.
  intros s g p n g' p' n' (E & B1 & B2 & M) (E' & B1' & B2' & M').
  pose proof (input_match g p n M B1 B2) as H. pose proof (input_match g' p' n' M' B1' B2') as H'. rewrite <- E in H. rewrite <- E' in H'. rewrite H in H'. injection H' as <- <- <-. auto.
Qed.
Lemma input_format : forall s gs, fullmatch input_regex s = Some gs -> exists g p n, gs = [g; " ; "; p; " ; "; n] /\ has_format s g p n.
Proof.
  intros s gs E. destruct (input_groups s gs E) as (g & p & n & -> & Es & _ & B1 & B2). exists g, p, n. split; auto. split; auto. split; auto. split; auto.
  destruct (fullmatch_ok _ _ _ E) as [_ F]. inversion F; auto.
Qed.
Lemma bits_back : forall s, all_chars is_bit s = true -> bits_text (bits_of_string s) = s.
Proof.
  induction s as [|c s IH]; [reflexivity|]. cbn [all_chars]. rewrite Bool.andb_true_iff. intros [A B]. cbn [bits_of_string bits_text]. rewrite IH by auto. f_equal.
  apply Bool.orb_true_iff in A. destruct A as [A|A]; apply Ascii.eqb_eq in A; subst c; reflexivity.
Qed.
Lemma bits_length : forall s, length (bits_of_string s) = String.length s.
Proof. induction s; cbn; auto. Qed.
Lemma load_line_outcome : forall rows k line, match load_line rows k line with
  | Ok (r, _) => outcome rows (rstrip_nl line) r
  | Err e => exists g p n, has_format (rstrip_nl line) g p n /\ subgroup_parse g = Err e
  end.
Proof.
  intros rows k line. unfold load_line. destruct (fullmatch input_regex (rstrip_nl line)) as [gs|] eqn:E.
  - destruct (input_format _ _ E) as (g & p & n & -> & H). destruct (subgroup_parse g) as [x|e] eqn:P; cbn [bind]; [|exists g, p, n; auto].
    cbv zeta. destruct H as (H & B1 & B2 & M). assert (HF : has_format (rstrip_nl line) g p n) by (repeat split; auto; apply B1 || apply B2).
    destruct (length (bits_of_string p) =? rows)%nat eqn:L1; cbn [andb].
    + destruct (length (bits_of_string n) =? rows)%nat eqn:L2.
      * apply Nat.eqb_eq in L1, L2. apply (loaded rows _ g p n (x, bits_of_string p, bits_of_string n)); auto; cbn [c_group c_pos c_neg fst snd]; auto using bits_back.
        -- apply bits_back, B1.
        -- apply bits_back, B2.
      * apply (wrong_length rows _ g p n); auto. right. apply Nat.eqb_neq in L2. rewrite bits_length in L2. auto.
    + apply (wrong_length rows _ g p n); auto. left. apply Nat.eqb_neq in L1. rewrite bits_length in L1. auto.
  - apply wrong_format. intros g p n (Es & B1 & B2 & M). pose proof (input_match g p n M B1 B2) as H. rewrite <- Es in H. congruence.
Qed.
Lemma load_loop_outcome : forall rows l k xs log, match load_loop rows k l xs log with
  | Ok (ys, _) => exists os, Forall2 (outcome rows) (map rstrip_nl l) os /\ ys = (xs ++ somes os)%list
  | Err e => exists s g p n, In s (map rstrip_nl l) /\ has_format s g p n /\ subgroup_parse g = Err e
  end.
Proof.
  intros rows. induction l as [|line l IH]; intros k xs log; cbn [load_loop map].
  - exists []. split; [constructor|]. cbn [somes]. now rewrite app_nil_r.
  - pose proof (load_line_outcome rows k line) as H. destruct (load_line rows k line) as [[r t]|e]; cbn [bind fst snd].
    + specialize (IH (S k) (match r with Some x => (xs ++ [x])%list | None => xs end) (log ++ t)).
      destruct (load_loop rows (S k) l _ (log ++ t)) as [[ys t']|e].
      * destruct IH as (os & F & ->). exists (r :: os). split; [constructor; auto|]. destruct r; cbn [somes]; auto. rewrite <- app_assoc. reflexivity.
      * destruct IH as (s & g & p & n & I & H1). exists s, g, p, n. split; [right; auto|auto].
    + destruct H as (g & p & n & H). exists (rstrip_nl line), g, p, n. split; [left; auto|auto].
Qed.
(** For every input file: each line is loaded, has bitarrays of another length, or has another format; the candidates are the
    loaded ones, in order; each has one bit per row in both bitarrays. *)
Theorem C61_outcomes : forall rows text xs log, load_candidates rows text = Ok (xs, log) ->
  (exists os, Forall2 (outcome rows) (line_contents text) os /\ xs = somes os) /\
  forall x, In x xs -> length (c_pos x) = rows /\ length (c_neg x) = rows.
Proof.
  intros rows text xs log E. unfold load_candidates in E. pose proof (load_loop_outcome rows (read_lines text) 1 [] ("Reading input file." ++ newline)) as H.
  destruct (load_loop rows 1 (read_lines text) [] _) as [[ys t]|e]; cbn [bind fst snd] in E; [|discriminate]. injection E as <- _. destruct H as (os & F & ->). cbn [app].
  split; [exists os; split; auto|]. intros x I. clear -F I. induction F as [|s o l os H F IH]; [destruct I|]. destruct o as [y|]; cbn [somes] in I; auto.
  destruct I as [<-|I]; auto. inversion H; auto.
Qed.
(** ... and what happens with a line is determined by the line. *)
Theorem C61_outcome_unique : forall rows s a b, outcome rows s a -> outcome rows s b -> a = b.
Proof.
  intros rows s a b A B. destruct A as [g p n x H P E1 E2 L1 L2|g p n H L|N]; destruct B as [g' p' n' x' H' P' E1' E2' L1' L2'|g' p' n' H' L'|N']; auto.
  - destruct (format_unique _ _ _ _ _ _ _ H H') as (<- & <- & <-). rewrite P in P'. injection P' as Q.
    assert (R1 : c_pos x = c_pos x') by (rewrite <- (bits_text_back (c_pos x)), <- (bits_text_back (c_pos x')); congruence).
    assert (R2 : c_neg x = c_neg x') by (rewrite <- (bits_text_back (c_neg x)), <- (bits_text_back (c_neg x')); congruence).
    destruct x as [[a1 a2] a3], x' as [[b1 b2] b3]. cbn in *. congruence.
  - exfalso. destruct (format_unique _ _ _ _ _ _ _ H H') as (<- & <- & <-). subst p n. rewrite <- !bits_length, !bits_text_back in L'. tauto.
  - exfalso. eapply N'; eauto.
  - exfalso. destruct (format_unique _ _ _ _ _ _ _ H H') as (<- & <- & <-). subst p n. rewrite <- !bits_length, !bits_text_back in L. tauto.
  - exfalso. eapply N; eauto.
Qed.
(** Loading raises only for a line in the right format whose subgroup text cannot be read. *)
Theorem C61_errors : forall rows text e, load_candidates rows text = Err e ->
  exists s g p n, In s (line_contents text) /\ has_format s g p n /\ subgroup_parse g = Err e.
Proof.
  intros rows text e E. unfold load_candidates in E. pose proof (load_loop_outcome rows (read_lines text) 1 [] ("Reading input file." ++ newline)) as H.
  destruct (load_loop rows 1 (read_lines text) [] _) as [[ys t]|e']; cbn [bind] in E; [discriminate|]. injection E as <-. exact H.
Qed.
(** Such a line exists: an attribute name that ends with a comma. *)
Theorem C61_comma_refuted : exists g, Forall (fun s => s_op s = EQUAL /\ exists v, s_val s = VStr v /\ word v /\ word (s_attr s)) (g_target g :: g_desc g) /\
  load_candidates 2 (subgroup_str g ++ " ; 10 ; 01" ++ newline) = Err IndexError.
Proof.
  exists (SG [Sel "a," EQUAL (VStr "b")] (Sel "t" EQUAL (VStr "y"))). split; [|vm_compute; reflexivity].
  constructor; [|constructor; [|constructor]]; (split; [reflexivity|]; eexists; split; [reflexivity|]; split; (split; [discriminate|reflexivity])).
Qed.
(** A value with a space, which every miner writes, makes its line invalid: the candidate is lost (only a message in the output file). *)
Theorem C61_space_refuted : exists x : candidate3, length (c_pos x) = 2%nat /\ length (c_neg x) = 2%nat /\ (exists log, load_candidates 2 (candidate_line x ++ newline) = Ok ([], log)) /\
  subgroup_parse (subgroup_str (c_group x)) = Ok (c_group x).
Proof.
  exists (SG [Sel "a" EQUAL (VStr "b c")] (Sel "t" EQUAL (VStr "y")), [true; false], [false; true]). split; [reflexivity|]. split; [reflexivity|]. split; [eexists|]; vm_compute; reflexivity.
Qed.
Lemma load_loop_lines : forall rows (xs : list candidate3) k ys log,
  Forall (fun x => plain_group (c_group x) /\ length (c_pos x) = rows /\ length (c_neg x) = rows) xs -> (0 < rows)%nat ->
  Forall (fun x => one_line (candidate_line x) = true) xs ->
  load_loop rows k (map (fun s => s ++ newline) (map candidate_line xs)) ys log = Ok ((ys ++ xs)%list, log).
Proof.
  intros rows. induction xs as [|x xs IH]; intros k ys log F P O; cbn [map load_loop].
  - now rewrite app_nil_r.
  - inversion F as [|? ? (G & L1 & L2) F']; subst. inversion O as [|? ? Ox O']; subst.
    rewrite (load_line_candidate _ _ x); [|auto|destruct (c_pos x); [cbn in P; lia|discriminate]|destruct (c_neg x); [cbn in *; lia|discriminate]|apply rstrip_nl_app; auto].
    rewrite L2, Nat.eqb_refl. cbn [andb bind fst snd]. rewrite app_nil_r_str. change ("" ++ "") with "". rewrite ?app_nil_r_str. rewrite IH by auto. rewrite <- app_assoc. reflexivity.
Qed.
Lemma plain_one_line : forall s, plain_selector s -> one_line (sel_str s) = true.
Proof.
  intros [a o v] (E & t & Ev & [_ W] & [_ Wa] & L). cbn in *. subst o v. unfold sel_str. cbn [s_attr s_op s_val op_str quoted].
  assert (K : forall s, all_chars is_word s = true -> one_line s = true).
  { intros s. apply all_chars_impl. intros c H. destruct (Ascii.eqb c nl) eqn:E1; [apply Ascii.eqb_eq in E1; subst c; discriminate|].
    destruct (Ascii.eqb c cr) eqn:E2; [apply Ascii.eqb_eq in E2; subst c; discriminate|reflexivity]. }
  change (one_line (a ++ " = '" ++ t ++ "'") = true). rewrite !one_line_app, (K a Wa), (K t W). reflexivity.
Qed.
Lemma group_one_line : forall g, plain_group g -> one_line (subgroup_str g) = true.
Proof.
  intros g (N & _ & F & T). unfold subgroup_str. rewrite !one_line_app, (plain_one_line _ T). destruct (g_desc g) as [|s p]; [reflexivity|]. unfold pattern_str.
  rewrite pattern_str_loop_joined by discriminate. rewrite !one_line_app. assert (K : one_line (joined (s :: p)) = true); [|rewrite K; reflexivity].
  clear N T. revert s F. induction p as [|u p IH]; intros s F; inversion F; subst; [apply plain_one_line; auto|].
  change (joined (s :: u :: p)) with (sel_str s ++ ", " ++ joined (u :: p)). rewrite !one_line_app, plain_one_line, IH by auto. reflexivity.
Qed.
(** Candidates whose names and values are made of the admitted characters are read back as they were written, all of them and in order. *)
Theorem C61_round_trip : forall rows xs, (0 < rows)%nat ->
  Forall (fun x => plain_group (c_group x) /\ length (c_pos x) = rows /\ length (c_neg x) = rows) xs ->
  load_candidates rows (file_text (map (fun x => candidate_line x ++ newline) xs)) =
    Ok (xs, line "Reading input file." ++ line ("Read subgroups: " ++ num (length xs) ++ ".") ++ line "Input file read." ++ newline ++ newline).
Proof.
  intros rows xs P F. assert (O : Forall (fun x => one_line (candidate_line x) = true) xs).
  { eapply Forall_impl; [|exact F]. intros x (G & _). unfold candidate_line. rewrite !one_line_app, (group_one_line _ G), (bits_one_line _ (bits_text_bits (c_pos x))), (bits_one_line _ (bits_text_bits (c_neg x))). reflexivity. }
  unfold load_candidates. rewrite <- (map_map candidate_line (fun s => s ++ newline)). rewrite read_lines_file by (apply Forall_map; auto).
  rewrite load_loop_lines by auto. cbn [bind fst snd app]. unfold line, num, str_of_nat. rewrite !app_assoc_str. reflexivity.
Qed.

Definition tab_text : string := String tab EmptyString.
Lemma tab_app : forall s, String tab s = tab_text ++ s.
Proof. reflexivity. Qed.
(** What the output file says about the input file: one message for each line that is not loaded, in order. *)
Lemma not_loaded_complaint : forall k r, not_loaded k r = complaint k r.
Proof. intros k r. unfold not_loaded, complaint, line, tabbed, line, num, str_of_nat. rewrite !tab_app, !app_assoc_str. reflexivity. Qed.
Lemma load_line_said : forall rows k l r t, load_line rows k l = Ok (r, t) -> said rows k (rstrip_nl l) t.
Proof.
  intros rows k l r t. unfold load_line. destruct (fullmatch input_regex (rstrip_nl l)) as [gs|] eqn:E.
  - destruct (input_format _ _ E) as (g & p & n & -> & H). destruct (subgroup_parse g) as [x|e] eqn:P; cbn [bind]; [|discriminate].
    cbv zeta. rewrite !not_loaded_complaint, !bits_length. intros K. apply f_equal with (f := fun r => match r with Ok (_, t) => t | Err _ => "" end) in K. cbv beta iota in K. rewrite <- K.
    apply (said_lengths rows k _ g p n); auto; [destruct (String.length p =? rows)%nat eqn:L|destruct (String.length n =? rows)%nat eqn:L]; apply Nat.eqb_eq in L || apply Nat.eqb_neq in L; auto.
  - intros K. apply f_equal with (f := fun r => match r with Ok (_, t) => t | Err _ => "" end) in K. cbv beta iota in K. rewrite <- K. rewrite not_loaded_complaint. apply said_format.
    intros g p n (Es & B1 & B2 & M). pose proof (input_match g p n M B1 B2) as H. rewrite <- Es in H. congruence.
Qed.
Lemma load_loop_said : forall rows l k xs log ys log', load_loop rows k l xs log = Ok (ys, log') ->
  exists ts, Forall2 (fun ks t => said rows (fst ks) (snd ks) t) (combine (seq k (length l)) (map rstrip_nl l)) ts /\ log' = log ++ String.concat "" ts.
Proof.
  intros rows. induction l as [|s l IH]; intros k xs log ys log' E; cbn [load_loop] in E.
  - exists []. split; [constructor|]. change (String.concat "" []) with "". rewrite app_nil_r_str. congruence.
  - destruct (load_line rows k s) as [[r t]|e] eqn:L; cbn [bind fst snd] in E; [|discriminate]. apply IH in E. destruct E as (ts & F & ->).
    exists (t :: ts). split; [|rewrite FileProofs.concat_cons, app_assoc_str; reflexivity]. cbn [length seq map combine]. constructor; auto. apply (load_line_said _ _ _ _ _ L).
Qed.
Theorem C61_messages : forall rows text xs log, load_candidates rows text = Ok (xs, log) ->
  exists ts, Forall2 (fun ks t => said rows (fst ks) (snd ks) t) (combine (seq 1 (length (line_contents text))) (line_contents text)) ts /\
    log = line "Reading input file." ++ String.concat "" ts ++ line ("Read subgroups: " ++ num (length xs) ++ ".") ++ line "Input file read." ++ newline ++ newline.
Proof.
  intros rows text xs log E. unfold load_candidates in E. destruct (load_loop rows 1 (read_lines text) [] _) as [[ys t]|e] eqn:L; cbn [bind fst snd] in E; [|discriminate].
  destruct (load_loop_said _ _ _ _ _ _ _ L) as (ts & F & ->). exists ts. unfold line_contents at 1. rewrite map_length. split; [exact F|].
  assert (X : xs = ys) by congruence. subst xs.
  match type of E with Ok (_, ?a) = Ok (_, log) => assert (K : log = a) by congruence end. rewrite K. unfold line, num, str_of_nat. rewrite !app_assoc_str. reflexivity.
Qed.
(** The characters that the input file admits in names and values. *)
Theorem C61_characters : forall c, is_word c = true <->
  In c (list_ascii_of_string "ABCDEFGHIJKLMNOPQRSTUVWXYZabcdefghijklmnopqrstuvwxyz0123456789_-&,.<>/=").
Proof.
  assert (H : forall c, is_word c = existsb (Ascii.eqb c) (list_ascii_of_string "ABCDEFGHIJKLMNOPQRSTUVWXYZabcdefghijklmnopqrstuvwxyz0123456789_-&,.<>/=")).
  { intros [[] [] [] [] [] [] [] []]; vm_compute; reflexivity. }
  intros c. rewrite H, existsb_exists. split.
  - intros (d & I & E). apply Ascii.eqb_eq in E. subst d. exact I.
  - intros I. exists c. split; auto. apply Ascii.eqb_refl.
Qed.

(** * From VLSD to the list algorithms *)
Lemma covered_value : forall df X s, (1 <= coverage df X)%nat -> In s X -> s_op s = EQUAL -> is_str (s_val s) = true ->
  exists col v, col_get (df_cols df) (s_attr s) = Some col /\ s_val s = VStr v /\ In (VStr v) col.
Proof.
  intros df X s C I E V. unfold coverage in C. destruct (filter _ _) as [|i l] eqn:F; [cbn in C; lia|].
  assert (K : In i (filter (fun i => forallb (row_matchesb df i) X) (seq 0 (df_n df)))) by (rewrite F; left; auto).
  apply filter_In in K. destruct K as [_ K]. rewrite forallb_forall in K. specialize (K s I). unfold row_matchesb, cell in K. rewrite E in K.
  destruct (col_get (df_cols df) (s_attr s)) as [col|]; [|discriminate]. destruct (nth_error col i) as [w|] eqn:N; [|discriminate]. exists col.
  destruct (s_val s) as [v| |]; try discriminate. exists v. split; auto. split; auto. apply nth_error_In in N. cbn [op_evaluate] in K.
  destruct w as [w| |]; cbn [py_eq] in K; try discriminate. apply String.eqb_eq in K. subst w. exact N.
Qed.
Lemma candidate_plain : forall df tcol tval X, categorical df -> plain_dataset df -> has_column df tcol -> word tval -> candidate df tcol X ->
  plain_group (SG X (Sel tcol EQUAL (VStr tval))).
Proof.
  intros df tcol tval X Hcat HP Hcol Ht ((N & Q & H) & C). split; auto. split; auto. split.
  - apply Forall_forall. intros s I. cbn [g_desc] in I. destruct (H s I) as (E & V & _ & _). destruct (covered_value df X s C I E V) as (col & v & Ec & Ev & Iv).
    apply col_get_in in Ec; [|apply Hcat]. destruct (HP _ _ Ec) as (W & L & Wv). split; auto. exists v. auto.
  - destruct Hcol as [col Ec]. apply col_get_in in Ec; [|apply Hcat]. destruct (HP _ _ Ec) as (W & L & Wv). split; auto. exists tval. auto.
Qed.
(** The file of VLSD with bitsets, transformed, is loaded completely: the candidates are the subgroups of VLSD, in the same order, each
    with one bit per row, set for the rows of the description with and without the target. *)
Theorem C61_pipeline : forall V (c : vl_config V) (show : V -> string) qname oname st df tcol tval st' ls,
  categorical df -> plain_dataset df -> has_column df tcol -> word tval -> (0 < df_n df)%nat ->
  tidy qname -> tidy oname -> (forall v, tidy (show v)) ->
  vc_write c = true -> vlsd_fit with_bitsets c st df tcol tval = Ok st' -> vs_file st' = Some ls ->
  exists out xs log, transform_file (file_text (map (vlsd_line_text show qname oname) ls)) = (out, (Z.of_nat (length ls), 0%Z)) /\
    load_candidates (df_n df) out = Ok (xs, log) /\ contains "ERROR" log = false /\
    map c_group xs = map (fun r => r_subgroup (vr_line r)) ls /\
    forall x, In x xs -> length (c_pos x) = df_n df /\ length (c_neg x) = df_n df /\
      exists X, candidate df tcol X /\ c_group x = SG X (Sel tcol EQUAL (VStr tval)) /\
        (forall i, bit (c_pos x) i = true <-> In i (pos_rows df (Sel tcol EQUAL (VStr tval)) X)) /\
        (forall i, bit (c_neg x) i = true <-> In i (neg_rows df (Sel tcol EQUAL (VStr tval)) X)).
Proof.
  intros V c show qname oname st df tcol tval st' ls Hcat HP Hcol Ht Hn Hq Ho Hv W E F.
  destruct (C29_sound _ _ _ bitsets_of_rows V c df tcol tval st st' Hcat Hcol W E) as (ls' & F' & _ & HR). rewrite F in F'. injection F' as <-.
  pose proof (vlsd_full V c st df tcol tval st' ls W E F) as FL. rewrite Forall_forall in FL.
  set (cd := fun r : vl_record (list bool) V => (r_subgroup (vr_line r), vr_seq_tp r, vr_seq_fp r) : candidate3).
  assert (K : forall r, In r ls -> exists X, candidate df tcol X /\ r_subgroup (vr_line r) = SG X (Sel tcol EQUAL (VStr tval)) /\ plain_group (r_subgroup (vr_line r)) /\
     (forall i, bit (vr_seq_tp r) i = true <-> In i (pos_rows df (Sel tcol EQUAL (VStr tval)) X)) /\ (forall i, bit (vr_seq_fp r) i = true <-> In i (neg_rows df (Sel tcol EQUAL (VStr tval)) X))).
  { intros r I. destruct (HR r I) as (X & q & C & _ & _ & (El & _ & R1 & R2)). exists X. split; auto. assert (Eg : r_subgroup (vr_line r) = SG X (Sel tcol EQUAL (VStr tval))) by (rewrite El; reflexivity).
    split; auto. split; [rewrite Eg; apply (candidate_plain df); auto|]. split; auto. }
  eexists. exists (map cd ls). eexists. split; [|split; [|split; [|split]]].
  - apply C52_vlsd; auto. apply Forall_forall. intros r I. destruct (K r I) as (X & _ & _ & PG & _). split; [apply group_one_line; auto|]. destruct (FL r I) as [L1 L2].
    split; [destruct (vr_seq_tp r)|destruct (vr_seq_fp r)]; try discriminate; cbn in L1, L2; lia.
  - rewrite <- (C61_round_trip (df_n df) (map cd ls)); auto.
    + rewrite map_map. f_equal. f_equal. apply map_ext. intros r. unfold candidate_line, cd. cbn [c_group c_pos c_neg fst snd]. rewrite !app_assoc_str. reflexivity.
    + apply Forall_map, Forall_forall. intros r I. destruct (K r I) as (X & _ & _ & PG & _). unfold cd. cbn [c_group c_pos c_neg fst snd]. split; auto. exact (FL r I).
  - unfold line, num. rewrite !app_assoc_str.
    match goal with |- contains _ ?t = _ => replace t with (("Reading input file." ++ newline ++ "Read subgroups: ") ++ str_of_Z (Z.of_nat (length (map cd ls))) ++ ("." ++ newline ++ "Input file read." ++ newline ++ newline ++ newline)) by (rewrite !app_assoc_str; reflexivity) end.
    rewrite clashes_contains by reflexivity. change "ERROR" with (String "E" "RROR"). rewrite contains_app_l; [reflexivity|].
    rewrite str_of_Z_sign, has_char_app. rewrite (all_digits_no_char "E" (str_of_N (Z.abs_N (Z.of_nat (length (map cd ls)))))) by (auto using str_of_N_digits; reflexivity). destruct (_ <? 0)%Z; reflexivity.
  - rewrite map_map. reflexivity.
  - intros x I. apply in_map_iff in I. destruct I as (r & <- & I). destruct (FL r I) as [L1 L2]. split; auto. split; auto. destruct (K r I) as (X & C & Eg & _ & R1 & R2). exists X. unfold cd. cbn [c_group c_pos c_neg fst snd]. auto.
Qed.

(** * C62: the output file of the list algorithms *)
Lemma members_text_app : forall gs ps ns ops ons k g p n op on, length ps = length gs -> length ns = length gs -> length ops = length gs -> length ons = length gs ->
  members_text k (gs ++ [g]) (ps ++ [p]) (ns ++ [n]) (ops ++ [op]) (ons ++ [on]) = members_text k gs ps ns ops ons ++ member_text (k + length gs) g p n op on.
Proof.
  induction gs as [|g0 gs IH]; intros [|p0 ps] [|n0 ns] [|o0 ops] [|q0 ons] k g p n op on L1 L2 L3 L4; try discriminate.
  - cbn [app members_text length]. rewrite Nat.add_0_r. cbn [append]. apply app_nil_r_str.
  - cbn [app members_text]. rewrite IH by (cbn in *; lia). rewrite app_assoc_str. cbn [length]. replace (S k + length gs)%nat with (k + S (length gs))%nat by lia. reflexivity.
Qed.
Lemma app_both : forall a b c d : string, a = c -> b = d -> a ++ b = c ++ d.
Proof. intros. subst. reflexivity. Qed.
Lemma positional_length : forall t os, length (positional t os) = length os.
Proof. intros t os. revert t. induction os as [|o os IH]; intros t; cbn; auto. Qed.
Lemma member_text_report : forall k g p n op on, member_text k g p n op on = member_report (k + 1) g (bits_count p, bits_count n) (bits_count op, bits_count on).
Proof. intros. unfold member_text, member_report, line, tabbed, num, str_of_nat. cbn [fst snd]. unfold line. rewrite !tab_app, !app_assoc_str. reflexivity. Qed.
Lemma concat_app : forall a b, String.concat "" (a ++ b) = String.concat "" a ++ String.concat "" b.
Proof. induction a as [|s a IH]; intros b; cbn [app]; [reflexivity|]. rewrite !FileProofs.concat_cons, IH, app_assoc_str. reflexivity. Qed.
Lemma combine_app_one : forall {A B} (l : list A) (m : list B) a b, length l = length m -> combine (l ++ [a]) (m ++ [b]) = (combine l m ++ [(a, b)])%list.
Proof. induction l as [|x l IH]; intros [|y m] a b E; try discriminate; auto. cbn. rewrite IH by (cbn in *; lia). reflexivity. Qed.
Lemma combine_in_lt : forall {B} (m : list B) s k x, In (k, x) (combine (seq s (length m)) m) -> (k < s + length m)%nat.
Proof. intros B m s k x I. apply in_combine_l in I. apply in_seq in I. lia. Qed.
Lemma sl_str_report : forall df tgt st, length tgt = df_n df -> Forall (sized df) st -> sl_str (SLS df tgt st) = list_report df tgt st.
Proof.
  intros df tgt st Ht F. unfold sl_str, list_report. cbv zeta. unfold sl_len. cbn [SLS sl_subgroups sl_pos sl_neg sl_orig_pos sl_orig_neg sl_default_pos sl_default_neg].
  rewrite !map_length. rewrite (count_free_pos df tgt Ht st F), (count_free_neg df tgt Ht st F).
  assert (H : (if (length st =? 1)%nat then "## Subgroup list (1 subgroup) ##" ++ newline else "## Subgroup list (" ++ str_of_nat (length st) ++ " subgroups) ##" ++ newline) =
    line ("## Subgroup list (" ++ num (length st) ++ (if (length st =? 1)%nat then " subgroup" else " subgroups") ++ ") ##")).
  { unfold line, num, str_of_nat. destruct (length st =? 1)%nat eqn:E; [apply Nat.eqb_eq in E; rewrite E; reflexivity|]. rewrite !app_assoc_str. reflexivity. }
  rewrite H. f_equal. assert (M : forall st, Forall (sized df) st ->
    members_text 0 (map c_group st) (positional tgt (map c_pos st)) (positional (map negb tgt) (map c_neg st)) (map c_pos st) (map c_neg st) =
    String.concat "" (map (fun kx => member_report (fst kx + 1) (c_group (snd kx)) (own_rows df tgt (firstn (fst kx) st) (snd kx))
       (length (filter (bit (c_pos (snd kx))) (seq 0 (df_n df))), length (filter (bit (c_neg (snd kx))) (seq 0 (df_n df))))) (combine (seq 0 (length st)) st))).
  { clear st F H. intros st. induction st as [|x st IH] using rev_ind; intros F; [reflexivity|]. apply Forall_app in F. destruct F as [F Fx]. inversion Fx as [|? ? Sx _]; subst.
    rewrite !map_app. cbn [map]. rewrite !positional_app. rewrite members_text_app by (rewrite ?positional_length, !map_length; reflexivity). rewrite IH by auto.
    rewrite app_length. cbn [length]. rewrite Nat.add_1_r, seq_S, combine_app_one by (now rewrite seq_length). rewrite map_app, concat_app. f_equal.
    - f_equal. apply map_ext_in. intros [k y] I. cbn [fst snd]. apply combine_in_lt in I. rewrite firstn_app. replace (k - length st)%nat with 0%nat by lia. rewrite app_nil_r. reflexivity.
    - cbn [map fst snd Nat.add String.concat]. rewrite ?app_nil_r_str. rewrite map_length. rewrite member_text_report. cbn [Nat.add]. f_equal.
      + rewrite (count_own_pos df tgt Ht st x F Sx), (count_own_neg df tgt Ht st x F Sx). rewrite firstn_app, Nat.sub_diag, firstn_all. cbn [firstn]. rewrite app_nil_r. reflexivity.
      + destruct Sx as [S1 S2]. rewrite !count_bits, S1, S2. reflexivity. }
  rewrite M by auto. f_equal.
Qed.
(** The output file: the size of the dataset, the messages about the input file, and the report of each list: each member with the numbers of rows that it
    covers at its position and on its own, and the rows left to the default rule.  The lists are those of C39-C41 for the loaded candidates. *)
Theorem C62_output_file : forall {G} (c : list_config G) df tcol tval text out, categorical df -> has_column df tcol -> (0 < df_n df)%nat -> strict_order (lc_gt c) ->
  fit_from_file c df tcol tval text = Ok out ->
  exists xs log lists runs, load_candidates (df_n df) text = Ok (xs, log) /\ learner_input c df tcol xs /\ learner_fit c df tcol tval xs = Ok lists /\
    explains c df tcol tval xs lists runs /\ length runs = Z.to_nat (lc_max_sl c) /\
    let tgt := target_bits df tcol tval in
    let rows := seq 0 (df_n df) in
    out = dataset_report df (length (filter (bit tgt) rows)) (length (filter (fun i => negb (bit tgt i)) rows)) ++ log ++
          String.concat "" (map (fun r => list_report df tgt (map (cand xs) r) ++ newline) runs).
Proof.
  intros G c df tcol tval text out Hcat Hcol Hn Ho E. unfold fit_from_file in E. replace (df_n df =? 0)%nat with false in E by (symmetry; apply Nat.eqb_neq; lia).
  rewrite (categorical_nominal df Hcat) in E. cbn [negb] in E. rewrite (target_mask_bits df tcol tval Hcat Hcol) in E. cbn [bind] in E.
  destruct (load_candidates (df_n df) text) as [[xs log]|e] eqn:L; cbn [bind fst snd] in E; [|discriminate].
  destruct (learner_fit c df tcol tval xs) as [ls|e] eqn:Ef; cbn [bind] in E; [|discriminate]. match type of E with Ok ?t = Ok out => assert (EO : out = t) by congruence end. clear E. subst out.
  assert (HI : learner_input c df tcol xs). { split; auto. split; auto. split; auto. split; auto. apply (C61_outcomes _ _ _ _ L). }
  destruct (fit_explained c df tcol tval xs ls HI Ef) as (runs & Lr & (l0 & E0 & El & Hr) & Fr & _). exists xs, log, ls, runs. split; auto. split; auto. split; auto. split; [exists l0; auto|]. split; auto.
  cbv zeta. assert (E0' : l0 = SLS df (target_bits df tcol tval) []). { pose proof (empty_SLS df tcol tval) as K. unfold empty_list in *. congruence. }
  assert (SZ : Forall (sized df) xs) by (apply (input_sized c df tcol); auto).
  apply app_both.
  - unfold dataset_text, dataset_report, line, tabbed, num, str_of_nat. pose proof (target_bits_length df tcol tval) as Lt.
    assert (C1 : bits_count (target_bits df tcol tval) = length (filter (bit (target_bits df tcol tval)) (seq 0 (df_n df)))) by (rewrite count_bits, Lt; reflexivity).
    rewrite Lt, C1. replace (df_n df - length (filter (bit (target_bits df tcol tval)) (seq 0 (df_n df))))%nat with (length (filter (fun i => negb (bit (target_bits df tcol tval) i)) (seq 0 (df_n df)))).
    + unfold line. rewrite !tab_app, !app_assoc_str. reflexivity.
    + pose proof (filter_negb_length (bit (target_bits df tcol tval)) (seq 0 (df_n df))) as FN. rewrite seq_length in FN. lia.
  - apply app_both; [reflexivity|]. rewrite El, map_map. f_equal. apply map_ext_in. intros r I. apply app_both; [|reflexivity]. rewrite <- sl_str_report; [|apply target_bits_length|apply cands_sized; auto; rewrite Forall_forall in Fr; auto].
    f_equal. unfold with_members. rewrite E0'. symmetry. apply SLS_history. apply cands_sized; auto. rewrite Forall_forall in Fr; auto.
Qed.
(** fit raises only when the loading raises or when the algorithm raises on the loaded candidates (C39). *)
Theorem C62_errors : forall {G} (c : list_config G) df tcol tval text e, categorical df -> has_column df tcol -> (0 < df_n df)%nat ->
  fit_from_file c df tcol tval text = Err e ->
  load_candidates (df_n df) text = Err e \/ exists xs log, load_candidates (df_n df) text = Ok (xs, log) /\ learner_fit c df tcol tval xs = Err e.
Proof.
  intros G c df tcol tval text e Hcat Hcol Hn E. unfold fit_from_file in E. replace (df_n df =? 0)%nat with false in E by (symmetry; apply Nat.eqb_neq; lia).
  rewrite (categorical_nominal df Hcat) in E. cbn [negb] in E. rewrite (target_mask_bits df tcol tval Hcat Hcol) in E. cbn [bind] in E.
  destruct (load_candidates (df_n df) text) as [[xs log]|e'] eqn:L; cbn [bind fst snd] in E; [|left; congruence].
  right. exists xs, log. split; auto. destruct (learner_fit c df tcol tval xs) as [ls|e'] eqn:Ef; cbn [bind] in E; [discriminate|congruence].
Qed.
(** Datasets that are rejected, before anything is written: no rows, a column that is not nominal, no target column. *)
Theorem C62_invalid : forall {G} (c : list_config G) df tcol tval text,
  (df_n df = 0%nat -> fit_from_file c df tcol tval text = Err ValueError) /\
  ((0 < df_n df)%nat -> (exists a col v, In (a, col) (df_cols df) /\ In v col /\ is_str v = false) -> fit_from_file c df tcol tval text = Err DatasetAttributeTypeError) /\
  ((0 < df_n df)%nat -> categorical df -> ~ has_column df tcol -> fit_from_file c df tcol tval text = Err KeyError).
Proof.
  intros G c df tcol tval text. unfold fit_from_file. split; [|split].
  - intros ->. reflexivity.
  - intros H (a & col & v & I & J & K). replace (df_n df =? 0)%nat with false by (symmetry; apply Nat.eqb_neq; lia).
    assert (N : all_nominal df = false).
    { destruct (all_nominal df) eqn:E; auto. unfold all_nominal in E. rewrite forallb_forall in E. specialize (E _ I). rewrite forallb_forall in E. specialize (E _ J). cbn in E. congruence. }
    rewrite N. reflexivity.
  - intros H Hc N. replace (df_n df =? 0)%nat with false by (symmetry; apply Nat.eqb_neq; lia). rewrite (categorical_nominal df Hc). cbn [negb].
    unfold target_mask, df_col. destruct (col_get (df_cols df) tcol) as [col|] eqn:E; [exfalso; apply N; exists col; auto|]. reflexivity.
Qed.

(** * Examples *)
From Verif Require Import QualityModel.
Open Scope string_scope.
(** A line of VLSD, an empty line and a line of a miner without bitarrays. *)
Definition some_text : string :=
  "Description: [a = 'x; y'], Target: class = 'p' ; Sequence of instances tp = bitarray('110') ; Sequence of instances fp = bitarray('001') ; Quality Measure WRAcc = 0.1 ; tp = 2" ++ newline ++
  newline ++
  "Description: [a = 'x'], Target: class = 'p' ; Quality Measure WRAcc = 0.1 ; tp = 2 ; fp = 1 ; TP = 2 ; FP = 1" ++ newline.
Example C52_nonvacuous : transform_file some_text =
  ("Description: [a = 'x; y'], Target: class = 'p' ; 110 ; 001" ++ newline ++
   "ERROR: subgroup in line 2 was not correctly read." ++ newline ++ "ERROR: subgroup in line 3 was not correctly read." ++ newline, (1%Z, 2%Z)).
Proof. vm_compute. reflexivity. Qed.
Example C61_nonvacuous : exists log, load_candidates 3 ("Description: [a = 'x', b = '0.5'], Target: class = 'p' ; 110 ; 001" ++ newline ++
    "Description: [a = 'x'], Target: class = 'p' ; 11 ; 00" ++ newline ++ "Description: [], Target: class = 'p' ; 110 ; 001" ++ newline) =
  Ok ([(gx [("a", "x"); ("b", "0.5")], [true; true; false], [false; false; true])], log) /\
  contains "ERROR: subgroup in line 2 from input file was not loaded." log = true /\ contains "Read subgroups: 1." log = true.
Proof. eexists. split; [vm_compute; reflexivity|]. split; vm_compute; reflexivity. Qed.
Lemma toy_plain : plain_dataset toy.
Proof.
  intros a col H. cbn in H. destruct H as [H|[H|[H|[]]]]; injection H as <- <-; (split; [split; [discriminate|reflexivity]|split; [discriminate|]]); intros v I; cbn in I;
  repeat (destruct I as [I|I]; [injection I as <-; split; [discriminate|reflexivity]|]); destruct I.
Qed.
(** From the dataset to the lists through the two files. *)
Example C61_pipeline_nonvacuous : let c := vlsd_config PiatetskyShapiro PSOptimisticEstimate2 0 0 QUALITY_DESCENDING QUALITY_ASCENDING true in
  plain_dataset toy /\ categorical toy /\ has_column toy "class" /\ word "p" /\ tidy "PiatetskyShapiro" /\
  exists st' ls, vlsd_fit with_bitsets c vlsd_new toy "class" "p" = Ok st' /\ vs_file st' = Some ls /\
  exists out xs log, transform_file (file_text (map (vlsd_line_text (fun _ => "0.5") "PiatetskyShapiro" "PiatetskyShapiroOptimisticEstimate2") ls)) = (out, (3%Z, 0%Z)) /\
    load_candidates 4 out = Ok (xs, log) /\ map c_group xs = [gx [("a", "x")]; gx [("b", "u")]; gx [("a", "x"); ("b", "u")]] /\
    exists file, fit_from_file (zconf GMSL 1 0 0 0) toy "class" "p" out = Ok file /\
      contains ("## Subgroup list (2 subgroups) ##" ++ newline ++ "s1: Description: [a = 'x'], Target: class = 'p'" ++ newline) file = true /\
      contains ("default rule:" ++ newline ++ String tab "positive instances covered: 0") file = true.
Proof.
  cbv zeta. split; [apply toy_plain|]. split; [apply toy_ok|]. split; [apply toy_ok|]. split; [split; [discriminate|reflexivity]|]. split; [split; reflexivity|].
  eexists _, _. split; [vm_compute; reflexivity|]. split; [vm_compute; reflexivity|]. eexists _, _, _. split; [vm_compute; reflexivity|]. split; [vm_compute; reflexivity|].
  split; [reflexivity|]. eexists. split; [vm_compute; reflexivity|]. split; vm_compute; reflexivity.
Qed.
Print Assumptions C52_line_by_line. Print Assumptions C52_counts. Print Assumptions C52_no_bitarray. Print Assumptions C52_vlsd.
Print Assumptions C61_outcomes. Print Assumptions C61_outcome_unique. Print Assumptions C61_errors. Print Assumptions C61_comma_refuted. Print Assumptions C61_space_refuted.
Print Assumptions C61_round_trip. Print Assumptions C61_pipeline. Print Assumptions C62_output_file. Print Assumptions C62_errors.
Print Assumptions C52_newlines. Print Assumptions C61_messages. Print Assumptions C61_characters. Print Assumptions C62_invalid.
