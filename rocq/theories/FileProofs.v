(** Proofs about regular expressions and text files. *)
From Verif Require Import FileSpec CoreText.
Open Scope list_scope.
Open Scope nat_scope.
Open Scope string_scope.

(** * Regular expressions *)
Lemma nullable_ok : forall r, nullable r = true <-> matches r "".
Proof.
  induction r as [| |p|a IHa b IHb|a IHa b IHb|a IHa]; cbn [nullable].
  - split; [discriminate|]. intros H. inversion H.
  - split; [intros; constructor|auto].
  - split; [discriminate|]. intros H. inversion H.
  - rewrite Bool.andb_true_iff, IHa, IHb. split.
    + intros [A B]. exact (m_seq a b "" "" A B).
    + intros H. inversion H as [| |a' b' s t A B E1 E2| | | |]; subst. destruct s; [|discriminate]. destruct t; [|discriminate]. auto.
  - rewrite Bool.orb_true_iff, IHa, IHb. split.
    + intros [A|B]; [apply m_left|apply m_right]; auto.
    + intros H. inversion H; subst; auto.
  - split; [intros; constructor|auto].
Qed.
Lemma none_matches : forall s, ~ matches RNone s.
Proof. intros s H. inversion H. Qed.
Lemma empty_matches : forall s, matches REmpty s <-> s = "".
Proof. intros s. split; [intros H; inversion H; auto|intros ->; constructor]. Qed.
Lemma seq_matches : forall a b s, matches (RSeq a b) s <-> exists x y, s = x ++ y /\ matches a x /\ matches b y.
Proof.
  intros a b s. split.
  - intros H. inversion H; subst. eauto.
  - intros (x & y & -> & A & B). constructor; auto.
Qed.
Lemma alt_matches : forall a b s, matches (RAlt a b) s <-> matches a s \/ matches b s.
Proof. intros a b s. split; [intros H; inversion H; subst; auto|intros [A|B]; [apply m_left|apply m_right]; auto]. Qed.
Lemma seq__matches : forall a b s, matches (seq_ a b) s <-> matches (RSeq a b) s.
Proof.
  intros a b s. assert (N : forall b, matches RNone s <-> matches (RSeq RNone b) s).
  { intros b'. split; [intros H; inversion H|]. rewrite seq_matches. intros (x & y & _ & H & _). inversion H. }
  assert (N' : forall a, matches RNone s <-> matches (RSeq a RNone) s).
  { intros a'. split; [intros H; inversion H|]. rewrite seq_matches. intros (x & y & _ & _ & H). inversion H. }
  assert (E : forall b, matches b s <-> matches (RSeq REmpty b) s).
  { intros b'. rewrite seq_matches. split; [intros H; exists "", s; repeat split; auto; constructor|].
    intros (x & y & -> & H & H'). apply empty_matches in H. subst x. exact H'. }
  destruct a; destruct b; cbn [seq_]; try tauto; try (apply N); try (apply N'); try (apply E).
Qed.
Lemma alt__matches : forall a b s, matches (alt_ a b) s <-> matches (RAlt a b) s.
Proof.
  intros a b s. rewrite alt_matches. pose proof (none_matches s) as N. destruct a; destruct b; cbn [alt_]; rewrite ?alt_matches; tauto.
Qed.
Lemma star_cons : forall a c s, matches (RStar a) (String c s) <-> exists x y, s = x ++ y /\ matches a (String c x) /\ matches (RStar a) y.
Proof.
  intros a c s. split.
  - intros H. remember (RStar a) as r eqn:Er. remember (String c s) as t eqn:Et. revert a c s Er Et.
    induction H as [| | | | | |a' x y A _ B IH]; intros a0 c0 s0 Er Et; try discriminate.
    injection Er as ->. destruct x as [|d x].
    + cbn in Et. exact (IH a0 c0 s0 eq_refl Et).
    + cbn in Et. injection Et as -> <-. exists x, y. auto.
  - intros (x & y & -> & A & B). exact (m_more a (String c x) y A B).
Qed.
Lemma deriv_ok : forall c r s, matches (deriv c r) s <-> matches r (String c s).
Proof.
  intros c r. induction r as [| |p|a IHa b IHb|a IHa b IHb|a IHa]; intros s; cbn [deriv].
  - split; intros H; inversion H.
  - split; intros H; inversion H.
  - destruct (p c) eqn:E.
    + rewrite empty_matches. split; [intros ->; now constructor|]. intros H. inversion H; subst; auto.
    + split; [intros H; inversion H|]. intros H. inversion H; subst. congruence.
  - assert (K : matches (seq_ (deriv c a) b) s <-> exists x y, s = x ++ y /\ matches a (String c x) /\ matches b y).
    { rewrite seq__matches, seq_matches. split; intros (x & y & E & A & B); exists x, y; (split; [exact E|]; split; [apply IHa; exact A|exact B]). }
    destruct (nullable a) eqn:Na.
    + rewrite alt__matches, alt_matches, K, IHb. rewrite seq_matches. split.
      * intros [(x & y & -> & A & B)|B].
        -- exists (String c x), y. auto.
        -- exists "", (String c s). split; auto. split; auto. apply nullable_ok; auto.
      * intros (x & y & E & A & B). destruct x as [|d x]; cbn in E.
        -- right. rewrite E. exact B.
        -- injection E as <- ->. left. exists x, y. auto.
    + rewrite K, seq_matches. split.
      * intros (x & y & -> & A & B). exists (String c x), y. auto.
      * intros (x & y & E & A & B). destruct x as [|d x]; cbn in E.
        -- exfalso. apply nullable_ok in A. congruence.
        -- injection E as <- ->. exists x, y. auto.
  - rewrite alt__matches, !alt_matches, IHa, IHb. tauto.
  - rewrite seq__matches, seq_matches, star_cons. split; intros (x & y & E & A & B); exists x, y; (split; [exact E|]; split; [apply IHa; exact A|exact B]).
Qed.
Theorem re_full_ok : forall s r, re_full r s = true <-> matches r s.
Proof.
  induction s as [|c s IH]; intros r; cbn [re_full]; [apply nullable_ok|]. rewrite IH. apply deriv_ok.
Qed.

(** Simple expressions *)
Lemma text_matches : forall t s, matches (RText t) s <-> s = t.
Proof.
  induction t as [|c t IH]; intros s; cbn [RText]; [apply empty_matches|]. rewrite seq_matches. split.
  - intros (x & y & -> & A & B). apply IH in B. subst y. inversion A as [|p d Ep| | | | |]; subst. apply Ascii.eqb_eq in Ep. subst d. reflexivity.
  - intros ->. exists (String c ""), t. split; auto. split; [constructor; apply Ascii.eqb_refl|]. apply IH; auto.
Qed.
Lemma all_chars_app : forall p a b, all_chars p (a ++ b) = all_chars p a && all_chars p b.
Proof. induction a as [|c a IH]; intros b; cbn; auto. rewrite IH, Bool.andb_assoc. reflexivity. Qed.
Lemma star_chars : forall p s, matches (RStar (RChar p)) s <-> all_chars p s = true.
Proof.
  intros p s. split.
  - intros H. remember (RStar (RChar p)) as r eqn:Er. induction H as [| | | | | |a x y A _ B IH]; try discriminate; auto.
    injection Er as ->. rewrite all_chars_app, IH by auto. inversion A; subst. cbn. rewrite H0. reflexivity.
  - induction s as [|c s IH]; cbn [all_chars]; [constructor|]. rewrite Bool.andb_true_iff. intros [A B].
    apply (m_more (RChar p) (String c "") s); [constructor; auto|auto].
Qed.
Lemma plus_chars : forall p s, matches (RPlus (RChar p)) s <-> s <> "" /\ all_chars p s = true.
Proof.
  intros p s. unfold RPlus. rewrite seq_matches. split.
  - intros (x & y & -> & A & B). inversion A; subst. apply star_chars in B. cbn. rewrite H0, B. split; [discriminate|auto].
  - intros [N A]. destruct s as [|c s]; [congruence|]. cbn [all_chars] in A. apply Bool.andb_true_iff in A. destruct A as [A B].
    exists (String c ""), s. split; auto. split; [constructor; auto|apply star_chars; auto].
Qed.

(** * Matching with groups *)
Lemma cuts_in : forall s a b, In (a, b) (cuts s) <-> s = a ++ b.
Proof.
  induction s as [|c s IH]; intros a b; cbn [cuts].
  - cbn. split; [intros [E|[]]; injection E as <- <-; auto|]. intros E. destruct a; [|discriminate]. cbn in E. subst b. auto.
  - rewrite in_app_iff, in_map_iff. split.
    + intros [([x y] & E & I)|[E|[]]].
      * cbn in E. injection E as <- <-. apply IH in I. subst s. reflexivity.
      * injection E as <- <-. reflexivity.
    + intros E. destruct a as [|d a]; cbn in E.
      * right. left. subst b. reflexivity.
      * injection E as <- ->. left. exists (a, b). split; auto. apply IH; auto.
Qed.
Lemma first_some_spec : forall {A B} (f : A -> option B) l,
  match first_some f l with
  | Some y => exists l1 x l2, l = (l1 ++ x :: l2)%list /\ f x = Some y /\ forall z, In z l1 -> f z = None
  | None => forall x, In x l -> f x = None
  end.
Proof.
  induction l as [|x l IH]; cbn [first_some]; [intros x []|]. destruct (f x) as [y|] eqn:E.
  - exists [], x, l. split; auto. split; auto. intros z [].
  - destruct (first_some f l) as [y|].
    + destruct IH as (l1 & z & l2 & -> & Ez & H). exists (x :: l1), z, l2. split; auto. split; auto. intros w [<-|I]; auto.
    + intros z [<-|I]; auto.
Qed.
(** Earlier cuts have a longer first part. *)
Lemma cuts_longer : forall s l1 x l2 y, cuts s = (l1 ++ x :: l2)%list -> In y (cuts s) -> (String.length (fst x) < String.length (fst y))%nat -> In y l1.
Proof.
  induction s as [|c s IH]; intros l1 x l2 y E I L.
  - cbn in E. destruct l1 as [|z l1]; [|destruct l1; discriminate]. cbn in E. injection E as <- _. cbn in I. destruct I as [<-|[]]. lia.
  - cbn [cuts] in E, I. destruct (rev l2) as [|z r] eqn:R.
    + assert (l2 = []) by (rewrite <- (rev_involutive l2), R; reflexivity). subst l2. apply app_inj_tail in E. destruct E as [<- <-].
      rewrite in_app_iff in I. destruct I as [I|[<-|[]]]; [auto|cbn in L; lia].
    + assert (E2 : l2 = (rev r ++ [z])%list) by (rewrite <- (rev_involutive l2), R; reflexivity). rewrite E2 in E. clear R E2 l2.
      change (x :: (rev r ++ [z]))%list with ((x :: rev r) ++ [z])%list in E. rewrite app_assoc in E. apply app_inj_tail in E. destruct E as [E <-].
      (* map f (cuts s) = l1 ++ x :: rev r *)
      apply map_eq_app in E. destruct E as (k1 & k2 & E & <- & E2). destruct k2 as [|x' k2]; [discriminate|]. cbn [map] in E2. injection E2 as <- _.
      rewrite in_app_iff in I. destruct I as [I|[<-|[]]]; [|cbn in L; lia].
      apply in_map_iff in I. destruct I as (y' & <- & I). apply (in_map (fun ab : string * string => (String c (fst ab), snd ab))). apply (IH k1 x' k2 y'); auto. cbn in L. lia.
Qed.
Lemma fullmatch_ok : forall l s gs, fullmatch l s = Some gs -> s = String.concat "" gs /\ Forall2 matches l gs.
Proof.
  induction l as [|r l IH]; intros s gs; cbn [fullmatch].
  - destruct s; [|discriminate]. intros E. injection E as <-. split; auto.
  - intros E. set (f := fun ab : string * string => _) in E. pose proof (first_some_spec f (cuts s)) as H. rewrite E in H.
    destruct H as (l1 & [a b] & l2 & Ec & Ef & _). unfold f in Ef. cbn [fst snd] in Ef. destruct (re_full r a) eqn:Ra; [|discriminate].
    destruct (fullmatch l b) as [gs'|] eqn:Eb; [|discriminate]. cbn [option_map] in Ef. injection Ef as <-.
    destruct (IH b gs' Eb) as [-> F]. assert (Is : In (a, String.concat "" gs') (cuts s)) by (rewrite Ec; apply in_elt).
    apply cuts_in in Is. split; [|constructor; auto; apply re_full_ok; auto]. subst s. clear. destruct gs'; cbn; [now rewrite app_nil_r_str|reflexivity].
Qed.
Lemma concat_cons : forall a l, String.concat "" (a :: l) = a ++ String.concat "" l.
Proof. intros a l. destruct l; cbn; [now rewrite app_nil_r_str|reflexivity]. Qed.
Lemma fullmatch_none : forall l s, fullmatch l s = None -> forall gs, Forall2 matches l gs -> s <> String.concat "" gs.
Proof.
  induction l as [|r l IH]; intros s E gs F.
  - inversion F; subst. cbn [fullmatch] in E. destruct s; [discriminate|]. cbn. discriminate.
  - inversion F as [|? g ? gs' A F' E1 E2]; subst. rewrite concat_cons. intros ->. cbn [fullmatch] in E. set (f := fun ab : string * string => _) in E.
    pose proof (first_some_spec f (cuts (g ++ String.concat "" gs'))) as H. rewrite E in H. specialize (H (g, String.concat "" gs')).
    assert (I : In (g, String.concat "" gs') (cuts (g ++ String.concat "" gs'))) by (apply cuts_in; auto). specialize (H I).
    unfold f in H. cbn [fst snd] in H. apply re_full_ok in A. rewrite A in H. destruct (fullmatch l (String.concat "" gs')) eqn:E'; [discriminate|].
    exact (IH _ E' gs' F' eq_refl).
Qed.
(** The first group is the longest possible one. *)
Lemma fullmatch_longest : forall r l s g gs, fullmatch (r :: l) s = Some (g :: gs) ->
  forall h hs, s = String.concat "" (h :: hs) -> Forall2 matches (r :: l) (h :: hs) -> (String.length h <= String.length g)%nat.
Proof.
  intros r l s g gs E h hs Es F. inversion F as [|? ? ? ? A F' E1 E2]; subst. rewrite concat_cons in E. cbn [fullmatch] in E. set (f := fun ab : string * string => _) in E.
  pose proof (first_some_spec f (cuts (h ++ String.concat "" hs))) as H. rewrite E in H. destruct H as (l1 & [a b] & l2 & Ec & Ef & Hn).
  unfold f in Ef. cbn [fst snd] in Ef. destruct (re_full r a) eqn:Ra; [|discriminate]. destruct (fullmatch l b) as [gs'|] eqn:Eb; [|discriminate].
  cbn [option_map] in Ef. injection Ef as -> ->. destruct (Nat.le_gt_cases (String.length h) (String.length g)) as [L|L]; auto. exfalso.
  assert (I : In (h, String.concat "" hs) (cuts (h ++ String.concat "" hs))) by (apply cuts_in; auto).
  pose proof (cuts_longer _ _ _ _ _ Ec I) as K. cbn [fst] in K. specialize (K L). specialize (Hn _ K). unfold f in Hn. cbn [fst snd] in Hn.
  apply re_full_ok in A. rewrite A in Hn. destruct (fullmatch l (String.concat "" hs)) eqn:E'; [discriminate|]. exact (fullmatch_none _ _ E' hs F' eq_refl).
Qed.

(** * Lines of a text file *)
Lemma all_chars_has : forall p s c, all_chars p s = true -> p c = false -> has_char c s = false.
Proof.
  induction s as [|d s IH]; intros c; cbn [all_chars has_char]; auto. rewrite Bool.andb_true_iff. intros [A B] N.
  rewrite (IH c B N), Bool.orb_false_r. destruct (Ascii.eqb c d) eqn:E; auto. apply Ascii.eqb_eq in E. subst d. congruence.
Qed.
Lemma all_chars_impl : forall p q s, (forall c, p c = true -> q c = true) -> all_chars p s = true -> all_chars q s = true.
Proof. induction s as [|d s IH]; cbn; auto. intros H. rewrite !Bool.andb_true_iff. intros [A B]. auto. Qed.
Lemma one_line_app : forall a b, one_line (a ++ b) = one_line a && one_line b.
Proof. intros. unfold one_line. apply all_chars_app. Qed.
Lemma one_line_cons : forall c s, one_line (String c s) = (negb (Ascii.eqb c nl) && negb (Ascii.eqb c cr)) && one_line s.
Proof. reflexivity. Qed.
Lemma rstrip_nl_app : forall s, one_line s = true -> rstrip_nl (s ++ newline) = s.
Proof.
  induction s as [|c s IH]; [reflexivity|]. rewrite one_line_cons, Bool.andb_true_iff. intros [A B]. cbn [append rstrip_nl]. rewrite IH by auto.
  destruct s; [|reflexivity]. apply Bool.andb_true_iff in A. destruct A as [A _]. apply Bool.negb_true_iff in A. rewrite A. reflexivity.
Qed.
Lemma rstrip_nl_id : forall s, one_line s = true -> rstrip_nl s = s.
Proof.
  induction s as [|c s IH]; [reflexivity|]. rewrite one_line_cons, Bool.andb_true_iff. intros [A B]. cbn [rstrip_nl]. rewrite IH by auto.
  destruct s; [|reflexivity]. apply Bool.andb_true_iff in A. destruct A as [A _]. apply Bool.negb_true_iff in A. rewrite A. reflexivity.
Qed.
Lemma universal_newlines_app : forall s t, one_line s = true -> universal_newlines (s ++ String nl t) = s ++ String nl (universal_newlines t).
Proof.
  induction s as [|c s IH]; intros t; [reflexivity|]. rewrite one_line_cons, !Bool.andb_true_iff, !Bool.negb_true_iff. intros [[A B] C].
  cbn [append universal_newlines]. rewrite B, IH by auto. reflexivity.
Qed.
Lemma lines_from_app : forall s cur t, one_line s = true -> lines_from cur (s ++ String nl t) = ((cur ++ s) ++ newline) :: lines_from "" t.
Proof.
  induction s as [|c s IH]; intros cur t.
  - intros _. cbn [append lines_from]. rewrite app_nil_r_str. reflexivity.
  - rewrite one_line_cons, !Bool.andb_true_iff, !Bool.negb_true_iff. intros [[A B] C]. cbn [append lines_from]. rewrite A, IH by auto.
    f_equal. f_equal. rewrite app_assoc_str. reflexivity.
Qed.
Lemma read_lines_cons : forall s t, one_line s = true -> read_lines ((s ++ newline) ++ t) = (s ++ newline) :: read_lines t.
Proof.
  intros s t H. unfold read_lines. rewrite app_assoc_str. cbn [newline append]. rewrite universal_newlines_app, lines_from_app by auto. reflexivity.
Qed.
Lemma read_lines_file : forall ls, Forall (fun s => one_line s = true) ls -> read_lines (file_text (map (fun s => s ++ newline) ls)) = map (fun s => s ++ newline) ls.
Proof.
  unfold file_text. induction ls as [|s ls IH]; intros F; [reflexivity|]. inversion F; subst. cbn [map]. rewrite concat_cons, read_lines_cons, IH by auto. reflexivity.
Qed.
Lemma map_rstrip : forall ls, Forall (fun s => one_line s = true) ls -> map rstrip_nl (map (fun s => s ++ newline) ls) = ls.
Proof. induction ls as [|s ls IH]; intros F; [reflexivity|]. inversion F; subst. cbn [map]. rewrite IH, rstrip_nl_app by auto. reflexivity. Qed.
Lemma line_contents_file : forall ls, Forall (fun s => one_line s = true) ls -> line_contents (file_text (map (fun s => s ++ newline) ls)) = ls.
Proof. intros ls F. unfold line_contents. rewrite read_lines_file by auto. apply map_rstrip; auto. Qed.
(** All the lines that are read are single lines. *)
Lemma universal_no_cr : forall s, all_chars (fun c => negb (Ascii.eqb c cr)) (universal_newlines s) = true.
Proof.
  assert (H : forall n s, String.length s <= n -> all_chars (fun c => negb (Ascii.eqb c cr)) (universal_newlines s) = true).
  { induction n as [|n IH]; intros [|c s] L; cbn in L; try lia; auto. cbn [universal_newlines]. destruct (Ascii.eqb c cr) eqn:E.
    - destruct s as [|d s]; [reflexivity|]. destruct (Ascii.eqb d nl); cbn [all_chars]; rewrite IH by (cbn in *; lia); reflexivity.
    - cbn [all_chars]. rewrite E, IH by lia. reflexivity. }
  intros s. apply (H (String.length s)). lia.
Qed.
Lemma lines_from_one : forall s cur, one_line cur = true -> all_chars (fun c => negb (Ascii.eqb c cr)) s = true ->
  exists ls last, Forall (fun s => one_line s = true) ls /\ one_line last = true /\
    lines_from cur s = (map (fun s => s ++ newline)%string ls ++ match last with EmptyString => [] | _ => [last] end)%list.
Proof.
  induction s as [|c s IH]; intros cur O N; cbn [lines_from].
  - exists [], cur. split; auto.
  - cbn [all_chars] in N. apply Bool.andb_true_iff in N. destruct N as [N1 N2]. destruct (Ascii.eqb c nl) eqn:E.
    + destruct (IH "" eq_refl N2) as (ls & last & F & O' & El). exists (cur :: ls), last. split; [constructor; auto|]. split; auto. rewrite El. reflexivity.
    + apply IH; auto. rewrite one_line_app, O, one_line_cons, E, N1. reflexivity.
Qed.
Lemma read_lines_one : forall text, exists ls last, Forall (fun s => one_line s = true) ls /\ one_line last = true /\
    read_lines text = (map (fun s => s ++ newline)%string ls ++ match last with EmptyString => [] | _ => [last] end)%list.
Proof. intros text. apply lines_from_one; [reflexivity|apply universal_no_cr]. Qed.
Lemma line_contents_one : forall text, Forall (fun s => one_line s = true) (line_contents text).
Proof.
  intros text. unfold line_contents. destruct (read_lines_one text) as (ls & last & F & O & E). rewrite E, map_app, map_rstrip by auto.
  apply Forall_app. split; auto. destruct last; constructor; auto. rewrite rstrip_nl_id; auto.
Qed.

(** * The transformation *)
Definition transformed (number : nat) (s : string) : string :=
  match fullmatch transform_regex s with
  | Some [subgroup; _; pos; _; neg; _; _] => subgroup ++ " ; " ++ pos ++ " ; " ++ neg
  | _ => "ERROR: subgroup in line " ++ str_of_nat number ++ " was not correctly read."
  end.
Definition well_formedb (s : string) : bool := match fullmatch transform_regex s with Some _ => true | None => false end.
Lemma F2_7 : forall {A B} (R : A -> B -> Prop) a b c d e f g l, Forall2 R [a;b;c;d;e;f;g] l ->
  exists a' b' c' d' e' f' g', l = [a';b';c';d';e';f';g'] /\ R a a' /\ R b b' /\ R c c' /\ R d d' /\ R e e' /\ R f f' /\ R g g'.
Proof.
  intros A B R a b c d e f g l H. inversion H as [|? a' ? l1 Ha H1]; subst. inversion H1 as [|? b' ? l2 Hb H2]; subst.
  inversion H2 as [|? c' ? l3 Hc H3]; subst. inversion H3 as [|? d' ? l4 Hd H4]; subst. inversion H4 as [|? e' ? l5 He H5]; subst.
  inversion H5 as [|? f' ? l6 Hf H6]; subst. inversion H6 as [|? g' ? l7 Hg H7]; subst. inversion H7; subst.
  exists a', b', c', d', e', f', g'. auto 12.
Qed.
Lemma one_line_not_nl : forall s, one_line s = true -> all_chars not_nl s = true.
Proof. intros s. apply all_chars_impl. intros c H. apply Bool.andb_true_iff in H. apply H. Qed.
Lemma carries_groups : forall s, one_line s = true -> forall sub pos neg, carries s sub pos neg -> exists rest, 
  s = String.concat "" [sub; " ; Sequence of instances tp = bitarray('"; pos; "') ; Sequence of instances fp = bitarray('"; neg; "') ; Quality Measure"; rest] /\
  Forall2 matches transform_regex [sub; " ; Sequence of instances tp = bitarray('"; pos; "') ; Sequence of instances fp = bitarray('"; neg; "') ; Quality Measure"; rest].
Proof.
  intros s O sub pos neg (rest & E & N1 & N2 & B1 & B2). exists rest. split.
  - rewrite !concat_cons. cbn [String.concat]. rewrite app_nil_r_str. exact E.
  - subst s. rewrite !one_line_app, !Bool.andb_true_iff in O. destruct O as (O1 & _ & _ & _ & _ & _ & O7).
    unfold transform_regex. repeat constructor; try (apply text_matches; reflexivity); apply plus_chars; try (split; auto using one_line_not_nl; fail); auto.
Qed.
Lemma groups_carry : forall s gs, fullmatch transform_regex s = Some gs -> exists sub pos neg rest, carries s sub pos neg /\
  gs = [sub; " ; Sequence of instances tp = bitarray('"; pos; "') ; Sequence of instances fp = bitarray('"; neg; "') ; Quality Measure"; rest] /\
  forall sub' pos' neg', one_line s = true -> carries s sub' pos' neg' -> String.length sub' <= String.length sub.
Proof.
  intros s gs E. pose proof (fullmatch_ok _ _ _ E) as [Es F]. unfold transform_regex in F. apply F2_7 in F.
  destruct F as (sub & t1 & pos & t2 & neg & t3 & rest & -> & M1 & M2 & M3 & M4 & M5 & M6 & M7).
  apply text_matches in M2, M4, M6. subst t1 t2 t3. apply plus_chars in M1, M3, M5, M7. exists sub, pos, neg, rest. split; [|split; auto].
  - exists rest. rewrite !concat_cons in Es. cbn [String.concat] in Es. rewrite app_nil_r_str in Es. split; [exact Es|]. unfold some_bits. tauto.
  - intros sub' pos' neg' O C. destruct (carries_groups s O _ _ _ C) as (rest' & Es' & F'). exact (fullmatch_longest _ _ _ _ _ E _ _ Es' F').
Qed.
Lemma well_formed_carries : forall s, one_line s = true -> (well_formedb s = true <-> exists sub pos neg, carries s sub pos neg).
Proof.
  intros s O. unfold well_formedb. destruct (fullmatch transform_regex s) as [gs|] eqn:E.
  - split; auto. intros _. destruct (groups_carry s gs E) as (sub & pos & neg & rest & C & _). eauto.
  - split; [discriminate|]. intros (sub & pos & neg & C). destruct (carries_groups s O _ _ _ C) as (rest & Es & F). destruct (fullmatch_none _ _ E _ F Es).
Qed.
Lemma transformed_ok : forall number s, one_line s = true -> well_formedb s = true -> exists sub pos neg, carries s sub pos neg /\
  (forall sub' pos' neg', carries s sub' pos' neg' -> String.length sub' <= String.length sub) /\ transformed number s = sub ++ " ; " ++ pos ++ " ; " ++ neg.
Proof.
  intros number s O. unfold well_formedb, transformed. destruct (fullmatch transform_regex s) as [gs|] eqn:E; [|discriminate]. intros _.
  destruct (groups_carry s gs E) as (sub & pos & neg & rest & C & -> & L). exists sub, pos, neg. split; auto. split; auto. intros. eapply L; eauto.
Qed.
Lemma transformed_err : forall number s, well_formedb s = false -> transformed number s = "ERROR: subgroup in line " ++ str_of_nat number ++ " was not correctly read.".
Proof. intros number s. unfold well_formedb, transformed. destruct (fullmatch transform_regex s); [discriminate|auto]. Qed.
Lemma transform_line_spec : forall number line, transform_line number line = (transformed number (rstrip_nl line) ++ newline, negb (well_formedb (rstrip_nl line))).
Proof.
  intros number line. unfold transform_line, transformed, well_formedb. destruct (fullmatch transform_regex (rstrip_nl line)) as [gs|] eqn:E.
  - destruct (groups_carry _ gs E) as (sub & pos & neg & rest & _ & -> & _). cbn [negb]. rewrite !app_assoc_str. reflexivity.
  - rewrite !app_assoc_str. reflexivity.
Qed.
Fixpoint numbered {A} (f : nat -> A -> string) (k : nat) (l : list A) : list string :=
  match l with [] => [] | x :: l' => f k x :: numbered f (S k) l' end.
Lemma transform_loop_spec : forall l number errors out, transform_loop number errors out l =
  (out ++ file_text (map (fun s => s ++ newline) (numbered transformed number (map rstrip_nl l))), (number + length l)%nat,
   (errors + length (filter (fun s => negb (well_formedb s)) (map rstrip_nl l)))%nat).
Proof.
  induction l as [|line l IH]; intros number errors out; cbn [transform_loop map numbered].
  - unfold file_text. cbn. rewrite app_nil_r_str, !Nat.add_0_r. reflexivity.
  - rewrite transform_line_spec, IH. cbn [filter]. unfold file_text. rewrite concat_cons, app_assoc_str. f_equal; [f_equal|].
    + cbn [length]. lia.
    + destruct (negb (well_formedb (rstrip_nl line))); cbn [length]; lia.
Qed.
Lemma filter_negb_length : forall {A} (f : A -> bool) l, length (filter f l) + length (filter (fun x => negb (f x)) l) = length l.
Proof. induction l as [|x l IH]; cbn [filter]; auto. destruct (f x); cbn [negb length]; lia. Qed.
Lemma transform_spec : forall text, let ls := line_contents text in
  transform_file text = (file_text (map (fun s => s ++ newline) (numbered transformed 1 ls)),
    (Z.of_nat (length (filter well_formedb ls)), Z.of_nat (length (filter (fun s => negb (well_formedb s)) ls)))).
Proof.
  intros text ls. unfold transform_file. rewrite transform_loop_spec. fold (line_contents text). fold ls. cbn [append]. f_equal. f_equal.
  assert (L : length (read_lines text) = length ls) by (unfold ls, line_contents; now rewrite map_length). rewrite L.
  pose proof (filter_negb_length well_formedb ls) as H. lia.
Qed.
Lemma str_of_Z_one : forall z, one_line (str_of_Z z) = true.
Proof.
  intros z. assert (D : forall n, one_line (str_of_N n) = true).
  { intros n. pose proof (str_of_N_digits n) as H. unfold one_line. revert H. generalize (str_of_N n) as s. clear.
    induction s as [|c s IH]; cbn [all_digits all_chars]; auto. rewrite !Bool.andb_true_iff. intros [A B]. split; auto.
    split; apply Bool.negb_true_iff; destruct (Ascii.eqb c _) eqn:E; auto; apply Ascii.eqb_eq in E; subst c; discriminate. }
  rewrite str_of_Z_sign, one_line_app, D. destruct (z <? 0)%Z; reflexivity.
Qed.
Lemma bits_one_line : forall s, all_chars is_bit s = true -> one_line s = true.
Proof.
  intros s. apply all_chars_impl. intros c H. apply Bool.orb_true_iff in H. destruct H as [H|H]; apply Ascii.eqb_eq in H; subst c; reflexivity.
Qed.
Lemma transformed_one : forall number s, one_line s = true -> one_line (transformed number s) = true.
Proof.
  intros number s O. destruct (well_formedb s) eqn:W.
  - destruct (transformed_ok number s O W) as (sub & pos & neg & (rest & E & _ & _ & [_ B1] & [_ B2]) & _ & ->).
    subst s. rewrite !one_line_app, !Bool.andb_true_iff in O. destruct O as (O1 & _). rewrite !one_line_app, O1, (bits_one_line pos B1), (bits_one_line neg B2). reflexivity.
  - rewrite transformed_err by auto. unfold str_of_nat. rewrite !one_line_app, str_of_Z_one. reflexivity.
Qed.
Lemma numbered_one : forall l number, Forall (fun s => one_line s = true) l -> Forall (fun s => one_line s = true) (numbered transformed number l).
Proof. induction l as [|s l IH]; intros number F; cbn [numbered]; constructor; inversion F; subst; auto using transformed_one. Qed.
Lemma transform_lines : forall text, line_contents (fst (transform_file text)) = numbered transformed 1 (line_contents text).
Proof. intros text. rewrite transform_spec. cbn [fst]. apply line_contents_file. apply numbered_one, line_contents_one. Qed.
Lemma numbered_length : forall {A} (f : nat -> A -> string) l k, length (numbered f k l) = length l.
Proof. induction l; intros; cbn; auto. Qed.
Lemma numbered_nth : forall {A} (f : nat -> A -> string) l k i, nth_error (numbered f k l) i = option_map (f (k + i)%nat) (nth_error l i).
Proof.
  induction l as [|x l IH]; intros k i; [destruct i; reflexivity|]. destruct i as [|i]; cbn [numbered nth_error]; [cbn; now rewrite Nat.add_0_r|].
  rewrite IH. replace (S k + i)%nat with (k + S i)%nat by lia. reflexivity.
Qed.

(** * Occurrences of the separator *)
Lemma contains_skip : forall a d r e x u, has_char d u = false -> Ascii.eqb d e = false ->
  contains (String a (String d r)) (u ++ String e x) = contains (String a (String d r)) (String e x).
Proof.
  intros a d r e x. induction u as [|c u IH]; intros H N; [reflexivity|]. cbn [has_char] in H. apply Bool.orb_false_iff in H. destruct H as [H1 H2].
  cbn [append]. cbn [contains]. fold (contains (String a (String d r))). rewrite IH by auto.
  assert (P : String.prefix (String a (String d r)) (String c (u ++ String e x)) = false).
  { cbn [String.prefix]. destruct (ascii_dec a c); auto. destruct u as [|f u]; cbn [append String.prefix].
    - destruct (ascii_dec d e) as [->|]; auto. rewrite Ascii.eqb_refl in N. discriminate.
    - destruct (ascii_dec d f) as [->|]; auto. cbn [has_char] in H2. rewrite Ascii.eqb_refl in H2. discriminate. }
  rewrite P. reflexivity.
Qed.
