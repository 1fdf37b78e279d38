(** The lines of VLSD, and the candidates loaded from a file. *)
From Verif Require Import FileSpec FileProofs CoreText FPTreeProofs SDMapProofs.
Open Scope list_scope.
Open Scope nat_scope.
Open Scope string_scope.

Notation SEP1 := " ; Sequence of instances tp = bitarray('".
Notation SEP2 := "') ; Sequence of instances fp = bitarray('".
Notation SEP3 := "') ; Quality Measure".
(** * One decomposition only *)
Lemma bits_no_space : forall s, all_chars is_bit s = true -> has_char " " s = false /\ has_char "'" s = false.
Proof. intros s H. split; apply (all_chars_has is_bit s); auto. Qed.
Lemma prefix_contains : forall p s, String.prefix p s = true -> contains p s = true.
Proof. intros p s H. destruct s; cbn [contains]; rewrite H; reflexivity. Qed.
Lemma contains_suffix : forall p u s, contains p s = true -> contains p (u ++ s) = true.
Proof. induction u as [|c u IH]; intros s H; auto. cbn [append contains]. rewrite IH by auto. apply Bool.orb_true_r. Qed.
Lemma app_longer : forall a b x y, a ++ x = b ++ y -> String.length a < String.length b -> exists c d, b = a ++ String c d /\ x = String c d ++ y.
Proof.
  induction a as [|e a IH]; intros b x y E L.
  - destruct b as [|c d]; [cbn in L; lia|]. exists c, d. auto.
  - destruct b as [|f b]; [cbn in L; lia|]. cbn in E. injection E as <- E. cbn in L. destruct (IH b x y E) as (c & d & -> & Ex); [lia|]. exists c, d. auto.
Qed.
Lemma app_same_length : forall a b x y, a ++ x = b ++ y -> String.length a = String.length b -> a = b /\ x = y.
Proof.
  induction a as [|e a IH]; intros [|f b] x y E L; try discriminate L; auto. cbn in E. injection E as <- E. cbn in L. destruct (IH b x y E) as [-> ->]; auto.
Qed.
(** The text [p] does not begin inside the constant text [u]. *)
Fixpoint clash (p v : string) : bool :=
  match p, v with String a p', String b v' => if Ascii.eqb a b then clash p' v' else true | _, _ => false end.
Fixpoint clashes (p u : string) : bool :=
  match u with EmptyString => true | String c r => clash p u && clashes p r end.
Lemma clash_prefix : forall p v x, clash p v = true -> String.prefix p (v ++ x) = false.
Proof.
  induction p as [|a p IH]; intros [|b v] x H; try discriminate H. cbn [clash] in H. cbn [append String.prefix]. destruct (ascii_dec a b) as [->|N]; auto.
  rewrite Ascii.eqb_refl in H. auto.
Qed.
Lemma clashes_contains : forall p u x, clashes p u = true -> contains p (u ++ x) = contains p x.
Proof.
  induction u as [|c u IH]; intros x H; auto. cbn [clashes] in H. apply Bool.andb_true_iff in H. destruct H as [H1 H2].
  change (String c u ++ x) with (String c (u ++ x)). cbn [contains]. change (String c (u ++ x)) with (String c u ++ x). rewrite (clash_prefix p (String c u) x H1), IH by auto. reflexivity.
Qed.
Lemma contains_tail : forall p d t, contains p (d ++ t) = false -> contains p t = false.
Proof. intros p d t H. destruct (contains p t) eqn:E; auto. rewrite (contains_suffix p d t E) in H. discriminate. Qed.
Lemma tail_clean : forall pos neg rest, all_chars is_bit pos = true -> all_chars is_bit neg = true -> contains SEP1 rest = false ->
  forall c d t, SEP1 ++ pos ++ SEP2 ++ neg ++ SEP3 ++ rest = String c d ++ t -> contains SEP1 t = false.
Proof.
  intros pos neg rest B1 B2 R c d t E.
  destruct (bits_no_space pos B1) as [P _]. destruct (bits_no_space neg B2) as [N _].
  assert (K : contains SEP1 ("; Sequence of instances tp = bitarray('" ++ pos ++ SEP2 ++ neg ++ SEP3 ++ rest) = false).
  { rewrite clashes_contains by reflexivity. change SEP1 with (String " " "; Sequence of instances tp = bitarray('").
    rewrite contains_app_l by exact P. rewrite clashes_contains by reflexivity. rewrite contains_app_l by exact N.
    rewrite clashes_contains by reflexivity. exact R. }
  change SEP1 with (String " " "; Sequence of instances tp = bitarray('") in E. cbn [append] in E. injection E as _ E. 
  apply (contains_tail _ d). rewrite <- E. exact K.
Qed.
(** When the text after the measure does not contain the separator, what the line carries is determined. *)
Lemma bits_run : forall a b x y, all_chars is_bit a = true -> all_chars is_bit b = true -> a ++ String "'" x = b ++ String "'" y -> a = b /\ x = y.
Proof.
  induction a as [|c a IH]; intros [|d b] x y A B E; cbn in E.
  - injection E as <-. auto.
  - injection E as <- _. discriminate B.
  - injection E as -> _. discriminate A.
  - injection E as <- E. cbn [all_chars] in A, B. apply Bool.andb_true_iff in A, B. destruct (IH b x y) as [-> ->]; tauto.
Qed.
Lemma carries_unique : forall s sub pos neg rest sub' pos' neg',
  s = sub ++ SEP1 ++ pos ++ SEP2 ++ neg ++ SEP3 ++ rest -> all_chars is_bit pos = true -> all_chars is_bit neg = true -> contains SEP1 rest = false ->
  carries s sub' pos' neg' -> String.length sub <= String.length sub' -> sub' = sub /\ pos' = pos /\ neg' = neg.
Proof.
  intros s sub pos neg rest sub' pos' neg' E B1 B2 R (rest' & E' & _ & _ & [_ B1'] & [_ B2']) L. rewrite E' in E. clear E'.
  destruct (Nat.eq_dec (String.length sub) (String.length sub')) as [Q|Q].
  - symmetry in Q. destruct (app_same_length _ _ _ _ E Q) as [-> E1]. split; auto.
    apply app_same_length in E1; [|reflexivity]. destruct E1 as [_ E1]. change SEP2 with (String "'" ") ; Sequence of instances fp = bitarray('") in E1.
    cbn [append] in E1. apply bits_run in E1; auto. destruct E1 as [-> E2]. split; auto.
    change ") ; Sequence of instances fp = bitarray('" with (") ; Sequence of instances fp = bitarray('" ++ "") in E2. 
    repeat (injection E2 as E2). cbn [append] in E2. apply bits_run in E2; tauto.
  - exfalso. symmetry in E. apply app_longer in E; [|lia]. destruct E as (c & d & -> & E).
    pose proof (tail_clean pos neg rest B1 B2 R c d _ E) as K. rewrite prefix_contains in K; [discriminate|]. apply prefix_refl_app.
Qed.
Lemma transformed_line : forall number sub pos neg rest, let s := sub ++ SEP1 ++ pos ++ SEP2 ++ neg ++ SEP3 ++ rest in
  one_line s = true -> sub <> "" -> rest <> "" -> some_bits pos -> some_bits neg -> contains SEP1 rest = false ->
  well_formedb s = true /\ transformed number s = sub ++ " ; " ++ pos ++ " ; " ++ neg.
Proof.
  intros number sub pos neg rest s O N1 N2 B1 B2 R.
  assert (C : carries s sub pos neg) by (exists rest; auto).
  assert (W : well_formedb s = true) by (apply well_formed_carries; eauto). split; auto.
  destruct (transformed_ok number s O W) as (sub' & pos' & neg' & C' & L & ->).
  destruct B1 as [_ B1]. destruct B2 as [_ B2]. destruct (carries_unique s sub pos neg rest sub' pos' neg' eq_refl B1 B2 R C') as (-> & -> & ->); auto.
  eapply L; eauto.
Qed.

(** * The lines of VLSD *)
Lemma bits_text_bits : forall b, all_chars is_bit (bits_text b) = true.
Proof. induction b as [|[] b IH]; cbn; auto. Qed.
Lemma bits_text_back : forall b, bits_of_string (bits_text b) = b.
Proof. induction b as [|[] b IH]; cbn; now rewrite ?IH. Qed.
Lemma bits_text_length : forall b, length (bits_of_string (bits_text b)) = length b.
Proof. intros b. now rewrite bits_text_back. Qed.
Section Lines.
  Context {V : Type} (show : V -> string) (qname oname : string).
  (** The names and the values are printed without ";" and without line breaks. *)
  Definition tidy (s : string) : Prop := has_char ";" s = false /\ one_line s = true.
  Hypothesis Hq : tidy qname.
  Hypothesis Ho : tidy oname.
  Hypothesis Hv : forall v, tidy (show v).
  Lemma str_of_Z_tidy : forall z, tidy (str_of_Z z).
  Proof.
    intros z. split; [|apply str_of_Z_one]. rewrite str_of_Z_sign, has_char_app. rewrite (all_digits_no_char ";" (str_of_N (Z.abs_N z))) by (auto using str_of_N_digits; reflexivity).
    destruct (z <? 0)%Z; reflexivity.
  Qed.
  Definition after_measure (r : vl_record (list bool) V) : string :=
    let l := vr_line r in
    " " ++ qname ++ " = " ++ show (r_quality l) ++ " ; Optimistic Estimate " ++ oname ++ " = " ++ show (vr_oe r) ++ " ; tp = " ++ str_of_Z (r_tp l) ++ " ; fp = " ++ str_of_Z (r_fp l) ++ " ; TP = " ++ str_of_Z (r_TP l) ++ " ; FP = " ++ str_of_Z (r_FP l).
  Lemma vlsd_line_shape : forall r, vr_seq_tp r <> [] -> vr_seq_fp r <> [] ->
    vlsd_line_text show qname oname r =
    (subgroup_str (r_subgroup (vr_line r)) ++ SEP1 ++ bits_text (vr_seq_tp r) ++ SEP2 ++ bits_text (vr_seq_fp r) ++ SEP3 ++ after_measure r) ++ newline.
  Proof.
    intros r N1 N2. unfold vlsd_line_text, after_measure. destruct (vr_seq_tp r) as [|x a]; [congruence|]. destruct (vr_seq_fp r) as [|y b]; [congruence|].
    cbn [str_bitarray]. rewrite !app_assoc_str. reflexivity.
  Qed.
  Lemma after_clean : forall r, contains SEP1 (after_measure r) = false /\ one_line (after_measure r) = true.
  Proof.
    intros r. unfold after_measure. cbv zeta.
    pose proof (Hv (r_quality (vr_line r))) as [v1 v2]. pose proof (Hv (vr_oe r)) as [v3 v4]. destruct Hq as [q1 q2]. destruct Ho as [o1 o2].
    pose proof (str_of_Z_tidy (r_tp (vr_line r))) as [a1 a2]. pose proof (str_of_Z_tidy (r_fp (vr_line r))) as [b1 b2].
    pose proof (str_of_Z_tidy (r_TP (vr_line r))) as [c1 c2]. pose proof (str_of_Z_tidy (r_FP (vr_line r))) as [d1 d2].
    split; [|rewrite !one_line_app, q2, v2, o2, v4, a2, b2, c2, d2; reflexivity].
    generalize dependent (show (r_quality (vr_line r))). generalize dependent (show (vr_oe r)).
    generalize dependent (str_of_Z (r_tp (vr_line r))). generalize dependent (str_of_Z (r_fp (vr_line r))).
    generalize dependent (str_of_Z (r_TP (vr_line r))). generalize dependent (str_of_Z (r_FP (vr_line r))).
    intros F f1 _ T t1 _ f fh1 _ t th1 _ o oh1 _ q qh1 _.
    change SEP1 with (String " " (String ";" " Sequence of instances tp = bitarray('")).
    replace (" " ++ qname ++ " = " ++ q ++ " ; Optimistic Estimate " ++ oname ++ " = " ++ o ++ " ; tp = " ++ t ++ " ; fp = " ++ f ++ " ; TP = " ++ T ++ " ; FP = " ++ F)
      with ((" " ++ qname ++ " = " ++ q) ++ String " " ("; Optimistic Estimate" ++ (" " ++ oname ++ " = " ++ o) ++ String " " ("; tp =" ++ (" " ++ t) ++ String " " ("; fp =" ++ (" " ++ f) ++ String " " ("; TP =" ++ (" " ++ T) ++ String " " ("; FP =" ++ " " ++ F))))))
      by (rewrite !app_assoc_str; reflexivity).
    assert (Z : forall a b, has_char ";" (a ++ b) = has_char ";" a || has_char ";" b) by (intros; apply has_char_app).
    rewrite contains_skip; [|rewrite !Z, q1, qh1; reflexivity|reflexivity].
    match goal with |- contains ?p (String " " ("; Optimistic Estimate" ++ ?x)) = _ => change (contains p (" ; Optimistic Estimate" ++ x) = false) end. rewrite clashes_contains by reflexivity.
    rewrite contains_skip; [|rewrite !Z, o1, oh1; reflexivity|reflexivity].
    match goal with |- contains ?p (String " " ("; tp =" ++ ?x)) = _ => change (contains p (" ; tp =" ++ x) = false) end. rewrite clashes_contains by reflexivity.
    rewrite contains_skip; [|rewrite !Z, th1; reflexivity|reflexivity].
    match goal with |- contains ?p (String " " ("; fp =" ++ ?x)) = _ => change (contains p (" ; fp =" ++ x) = false) end. rewrite clashes_contains by reflexivity.
    rewrite contains_skip; [|rewrite !Z, fh1; reflexivity|reflexivity].
    match goal with |- contains ?p (String " " ("; TP =" ++ ?x)) = _ => change (contains p (" ; TP =" ++ x) = false) end. rewrite clashes_contains by reflexivity.
    rewrite contains_skip; [|rewrite !Z, t1; reflexivity|reflexivity].
    match goal with |- contains ?p (String " " ("; FP =" ++ ?x)) = _ => change (contains p (" ; FP =" ++ x) = false) end. rewrite clashes_contains by reflexivity.
    clear -f1. assert (G : forall u, has_char ";" u = false -> contains (String " " (String ";" " Sequence of instances tp = bitarray('")) u = false).
    { induction u as [|c u IH]; intros H; [reflexivity|]. cbn [has_char] in H. apply Bool.orb_false_iff in H. destruct H as [H1 H2]. cbn [contains]. rewrite IH by auto.
      rewrite Bool.orb_false_r. cbn [String.prefix]. destruct (ascii_dec " " c); auto. destruct u as [|d u]; auto. cbn [String.prefix]. destruct (ascii_dec ";" d) as [<-|]; auto.
      cbn [has_char] in H2. rewrite Ascii.eqb_refl in H2. discriminate. }
    apply G. rewrite has_char_app, f1. reflexivity.
  Qed.
End Lines.

(** * Loading *)
(** The expression never matches a text with the character [c]. *)
Fixpoint avoids (c : ascii) (r : re) : bool :=
  match r with
  | RNone | REmpty => true
  | RChar p => negb (p c)
  | RSeq a b | RAlt a b => avoids c a && avoids c b
  | RStar a => avoids c a
  end.
Lemma avoids_ok : forall c r s, matches r s -> avoids c r = true -> has_char c s = false.
Proof.
  intros c r s H. induction H as [|p d E|a b s t A IA B IB|a b s A IA|a b s B IB|a|a s t A IA B IB]; cbn [avoids]; auto.
  - intros N. cbn [has_char]. rewrite Bool.orb_false_r. destruct (Ascii.eqb c d) eqn:Q; auto. apply Ascii.eqb_eq in Q. subst d. rewrite E in N. discriminate.
  - rewrite Bool.andb_true_iff, has_char_app. intros [X Y]. rewrite IA, IB; auto.
  - rewrite Bool.andb_true_iff. tauto.
  - rewrite Bool.andb_true_iff. tauto.
  - intros N. rewrite has_char_app, IA, IB; auto.
Qed.
Lemma cut_char : forall c a b x y, has_char c a = false -> has_char c b = false -> a ++ String c x = b ++ String c y -> a = b /\ x = y.
Proof.
  intros c. induction a as [|d a IH]; intros [|e b] x y A B E; cbn in E; cbn [has_char] in A, B.
  - injection E as <-. auto.
  - injection E as <- _. rewrite Ascii.eqb_refl in B. discriminate.
  - injection E as -> _. rewrite Ascii.eqb_refl in A. discriminate.
  - injection E as <- E. apply Bool.orb_false_iff in A, B. destruct (IH b x y) as [-> ->]; tauto.
Qed.
Lemma app_char_inj : forall c a b, a ++ String c "" = b ++ String c "" -> a = b.
Proof.
  induction a as [|d a IH]; intros [|e b] E; auto; cbn in E.
  - injection E as <- E. destruct b; discriminate.
  - injection E as -> E. destruct a; discriminate.
  - injection E as <- E. f_equal. auto.
Qed.
Lemma F2_5 : forall {A B} (R : A -> B -> Prop) a b c d e l, Forall2 R [a;b;c;d;e] l ->
  exists a' b' c' d' e', l = [a';b';c';d';e'] /\ R a a' /\ R b b' /\ R c c' /\ R d d' /\ R e e'.
Proof.
  intros A B R a b c d e l H. inversion H as [|? a' ? l1 Ha H1]; subst. inversion H1 as [|? b' ? l2 Hb H2]; subst.
  inversion H2 as [|? c' ? l3 Hc H3]; subst. inversion H3 as [|? d' ? l4 Hd H4]; subst. inversion H4 as [|? e' ? l5 He H5]; subst.
  inversion H5; subst. exists a', b', c', d', e'. auto 12.
Qed.
Lemma input_groups : forall s gs, fullmatch input_regex s = Some gs -> exists g p n, gs = [g; " ; "; p; " ; "; n] /\ s = g ++ " ; " ++ p ++ " ; " ++ n /\
  has_char ";" g = false /\ some_bits p /\ some_bits n.
Proof.
  intros s gs E. destruct (fullmatch_ok _ _ _ E) as [Es F]. unfold input_regex in F. 
  apply F2_5 in F. destruct F as (g & t1 & p & t2 & n & -> & M1 & M2 & M3 & M4 & M5).
  apply text_matches in M2, M4. apply plus_chars in M3, M5. subst t1 t2. exists g, p, n. split; auto. split; [rewrite Es; rewrite !FileProofs.concat_cons; cbn [String.concat]; now rewrite app_nil_r_str|].
  split; [apply (avoids_ok ";" _ _ M1); reflexivity|]. unfold some_bits. tauto.
Qed.
Lemma input_match : forall g p n, matches (RSeq (RText "Description: ") (RSeq pattern_regex (RSeq (RText ", Target: ") selector_regex))) g -> some_bits p -> some_bits n ->
  fullmatch input_regex (g ++ " ; " ++ p ++ " ; " ++ n) = Some [g; " ; "; p; " ; "; n].
Proof.
  intros g p n M B1 B2. pose proof (avoids_ok ";" _ _ M eq_refl) as A.
  assert (F : Forall2 matches input_regex [g; " ; "; p; " ; "; n]).
  { unfold input_regex. constructor; [exact M|]. constructor; [apply text_matches; auto|]. constructor; [apply plus_chars; exact B1|].
    constructor; [apply text_matches; auto|]. constructor; [apply plus_chars; exact B2|]. constructor. }
  destruct (fullmatch input_regex (g ++ " ; " ++ p ++ " ; " ++ n)) as [gs|] eqn:E.
  - destruct (input_groups _ _ E) as (g' & p' & n' & -> & Es & A' & [_ B1'] & [_ B2']). destruct B1 as [_ B1]. destruct B2 as [_ B2].
    change (" ; " ++ p ++ " ; " ++ n) with (String " " "" ++ String ";" (" " ++ p ++ " ; " ++ n)) in Es.
    change (" ; " ++ p' ++ " ; " ++ n') with (String " " "" ++ String ";" (" " ++ p' ++ " ; " ++ n')) in Es. rewrite <- !app_assoc_str in Es.
    apply cut_char in Es; [|rewrite has_char_app, A; reflexivity|rewrite has_char_app, A'; reflexivity]. destruct Es as [E1 E2].
    apply app_char_inj in E1. subst g'. rewrite !app_assoc_str in E2. cbn [append] in E2. injection E2 as E2.
    apply cut_char in E2; [|apply (bits_no_space p B1)|apply (bits_no_space p' B1')]. destruct E2 as [<- E2]. injection E2 as <-. reflexivity.
  - exfalso. apply (fullmatch_none _ _ E _ F). rewrite !FileProofs.concat_cons. cbn [String.concat]. now rewrite app_nil_r_str.
Qed.
(** The text of a plain subgroup has the format of the input file. *)
Lemma word_chars : forall s, word s -> matches (RPlus (RChar is_word)) s.
Proof. intros s H. apply plus_chars. exact H. Qed.
Lemma selector_match : forall s, plain_selector s -> matches selector_regex (sel_str s).
Proof.
  intros [a o v] (E & t & Ev & W & Wa & _). cbn in *. subst o v. unfold selector_regex, sel_str. cbn [s_attr s_op s_val op_str quoted].
  apply seq_matches. exists a, (" = '" ++ t ++ "'"). split; auto. split; [apply word_chars; auto|].
  apply seq_matches. exists " = ", ("'" ++ t ++ "'"). split; auto. split; [apply text_matches; auto|]. apply alt_matches. right.
  apply seq_matches. exists "'", (t ++ "'"). split; auto. split; [apply text_matches; auto|]. apply seq_matches. exists t, "'". split; auto. split; [apply word_chars; auto|apply text_matches; auto].
Qed.
Lemma pattern_match : forall p, p <> [] -> Forall plain_selector p -> matches pattern_regex (pattern_str p).
Proof.
  intros p N F. unfold pattern_str. destruct p as [|s p]; [congruence|]. rewrite pattern_str_loop_joined by discriminate. unfold pattern_regex.
  apply seq_matches. exists "[", (joined (s :: p) ++ "]"). split; auto. split; [apply text_matches; auto|]. clear N.
  assert (K : exists t, joined (s :: p) = sel_str s ++ t /\ matches (RStar (RSeq (RText ", ") selector_regex)) t).
  { revert s F. induction p as [|u p IH]; intros s F.
    - exists "". split; [cbn; now rewrite app_nil_r_str|constructor].
    - inversion F; subst. destruct (IH u) as (t & E & M); auto. exists (", " ++ joined (u :: p)). split; [reflexivity|]. rewrite E, <- app_assoc_str.
      constructor; auto. constructor; [apply text_matches; auto|]. apply selector_match. inversion H2; auto. }
  destruct K as (t & -> & M). inversion F; subst. rewrite app_assoc_str. constructor; [apply selector_match; auto|]. constructor; auto. apply text_matches; auto.
Qed.
Definition plain_group (g : subgroup) : Prop := g_desc g <> [] /\ sorted_strictly (g_desc g) /\ Forall plain_selector (g_desc g) /\ plain_selector (g_target g).
Lemma group_match : forall g, plain_group g -> matches (RSeq (RText "Description: ") (RSeq pattern_regex (RSeq (RText ", Target: ") selector_regex))) (subgroup_str g).
Proof.
  intros g (N & _ & F & T). unfold subgroup_str. constructor; [apply text_matches; auto|]. constructor; [apply pattern_match; auto|].
  constructor; [apply text_matches; auto|]. apply selector_match; auto.
Qed.
(** ... and is read back. *)
Lemma contains_char : forall c p s, has_char c p = true -> has_char c s = false -> contains p s = false.
Proof.
  intros c p s P N. assert (Q : forall p s, has_char c p = true -> has_char c s = false -> String.prefix p s = false).
  { clear. induction p as [|a p IH]; intros [|b s] P N; try discriminate P; auto. cbn [String.prefix]. destruct (ascii_dec a b) as [->|]; auto.
    cbn [has_char] in P, N. apply Bool.orb_false_iff in N. destruct N as [N1 N2]. rewrite N1 in P. auto. }
  induction s as [|b s IH]; cbn [contains]; [rewrite (Q p ""); auto|]. rewrite (Q p (String b s)) by auto. cbn [orb]. apply IH.
  cbn [has_char] in N. apply Bool.orb_false_iff in N. apply N.
Qed.
Lemma word_no : forall c s, word s -> is_word c = false -> has_char c s = false.
Proof. intros c s [_ H] N. exact (all_chars_has is_word s c H N). Qed.
Lemma comma_space : forall u x, has_char " " u = false -> last_char u <> Some ","%char -> contains ", " (u ++ String " " x) = contains ", " (String " " x).
Proof.
  induction u as [|c u IH]; intros x H L; auto. cbn [has_char] in H. apply Bool.orb_false_iff in H. destruct H as [H1 H2]. cbn [append contains].
  rewrite IH; auto.
  - replace (String.prefix ", " (String c (u ++ String " " x))) with false; [reflexivity|]. symmetry. cbn [String.prefix]. destruct (ascii_dec "," c) as [<-|]; auto.
    destruct u as [|d u]; [cbn in L; congruence|]. cbn [append String.prefix]. destruct (ascii_dec " " d) as [<-|]; auto. cbn in H2. discriminate.
  - cbn [last_char] in L. destruct u; [discriminate|auto].
Qed.
Lemma plain_no_sep : forall s, plain_selector s -> contains ", " (sel_str s) = false.
Proof.
  intros [a o v] (E & t & Ev & W & Wa & L). cbn in *. subst o v. unfold sel_str. cbn [s_attr s_op s_val op_str quoted].
  change (a ++ " " ++ "=" ++ " " ++ "'" ++ t ++ "'") with (a ++ String " " ("= '" ++ t ++ "'")).
  rewrite comma_space; auto; [|apply word_no; auto; reflexivity].
  change (contains ", " (" = '" ++ (t ++ "'")) = false). rewrite clashes_contains by reflexivity. apply (contains_char " "); auto.
  rewrite has_char_app, (word_no " " t W eq_refl). reflexivity.
Qed.
Lemma plain_constructible : forall s, plain_selector s -> constructible s /\ no_space (s_attr s) /\ nominal s.
Proof.
  intros [a o v] (E & t & Ev & W & Wa & L). cbn in *. subst o v. split; [split; [reflexivity|exact I]|]. split; [|split; reflexivity].
  apply word_no; auto. 
Qed.
Lemma plain_colon : forall s, plain_selector s -> has_char ":" (sel_str s) = false.
Proof.
  intros [a o v] (E & t & Ev & W & Wa & L). cbn in *. subst o v. unfold sel_str. cbn [s_attr s_op s_val op_str quoted].
  change (has_char ":" (a ++ " = '" ++ t ++ "'") = false).
  rewrite !has_char_app, (word_no ":" t W eq_refl), (word_no ":" a Wa eq_refl). reflexivity.
Qed.
Lemma pattern_colon : forall p, Forall plain_selector p -> has_char ":" (pattern_str p) = false.
Proof.
  intros p F. destruct p as [|s p]; [reflexivity|]. unfold pattern_str. rewrite pattern_str_loop_joined by discriminate.
  rewrite !has_char_app. cbn [has_char]. rewrite Bool.orb_false_r.
  assert (K : has_char ":" (joined (s :: p)) = false); [|rewrite K; reflexivity].
  revert s F. induction p as [|u p IH]; intros s F; inversion F; subst; [apply plain_colon; auto|].
  change (joined (s :: u :: p)) with (sel_str s ++ ", " ++ joined (u :: p)). rewrite !has_char_app, plain_colon, IH by auto. reflexivity.
Qed.
Lemma group_parse : forall g, plain_group g -> subgroup_parse (subgroup_str g) = Ok g.
Proof.
  intros g (N & Q & F & T). assert (F' : Forall plain_selector (g_target g :: g_desc g)) by (constructor; auto).
  apply subgroup_parse_str; auto.
  - eapply Forall_impl; [|exact F']. intros s H. apply plain_constructible; auto.
  - eapply Forall_impl; [|exact F']. intros s H. apply plain_constructible; auto.
  - eapply Forall_impl; [|exact F]. intros s H. apply plain_no_sep; auto.
  - apply (contains_char ":"); [reflexivity|]. apply pattern_colon; auto.
  - apply (contains_char ":"); [reflexivity|]. apply plain_colon; auto.
Qed.
(** A line of the input file for a candidate. *)
Definition candidate_line (x : candidate3) : string := subgroup_str (c_group x) ++ " ; " ++ bits_text (c_pos x) ++ " ; " ++ bits_text (c_neg x).
Lemma some_bits_text : forall b, b <> [] -> some_bits (bits_text b).
Proof. intros b N. split; [destruct b; [congruence|discriminate]|apply bits_text_bits]. Qed.
Lemma load_line_candidate : forall n number x line, plain_group (c_group x) -> c_pos x <> [] -> c_neg x <> [] -> rstrip_nl line = candidate_line x ->
  load_line n number line = Ok (if (length (c_pos x) =? n)%nat && (length (c_neg x) =? n)%nat then Some x else None,
    (if (length (c_pos x) =? n)%nat then "" else not_loaded number "The length of the positive bitarray is not equal to 'number_of_dataset_instances'.") ++
    (if (length (c_neg x) =? n)%nat then "" else not_loaded number "The length of the negative bitarray is not equal to 'number_of_dataset_instances'.")).
Proof.
  intros n number x line P N1 N2 E. unfold load_line. rewrite E. unfold candidate_line. rewrite input_match by (auto using group_match, some_bits_text).
  rewrite group_parse by auto. cbn [bind]. rewrite !bits_text_back. destruct x as [[g p] q]. reflexivity.
Qed.
