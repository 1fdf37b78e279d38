(** Lemmas about the texts of the output files. *)
From Coq Require Import Lia.
From Verif Require Import ReportModel ReportSpec CoreText CoreExact FileProofs FileLoad MiningProofs.
Open Scope list_scope.
Open Scope string_scope.

(** * Splitting at " ; " *)
Lemma prefix_within : forall p u r, String.length p <= String.length u -> String.prefix p (u ++ r) = String.prefix p u.
Proof.
  induction p as [|a p IH]; intros u r L; [destruct u, r; reflexivity|]. destruct u as [|b u]; [cbn in L; lia|]. cbn [append String.prefix].
  destruct (ascii_dec a b); auto. apply IH. cbn in L. lia.
Qed.
Lemma split_field : forall x rest cur, contains " ; " (x ++ " ;") = false -> split_aux " ; " 0 cur (x ++ " ; " ++ rest) = (cur ++ x) :: split_aux " ; " 0 "" rest.
Proof.
  induction x as [|d x IH]; intros rest cur H.
  - change ("" ++ " ; " ++ rest) with (String " " ("; " ++ rest)). cbn [split_aux]. change (String " " ("; " ++ rest)) with (" ; " ++ rest). rewrite prefix_refl_app, app_nil_r_str.
    f_equal.
  - change (String d x ++ " ; " ++ rest) with (String d (x ++ " ; " ++ rest)). cbn [split_aux]. change (String d x ++ " ;") with (String d (x ++ " ;")) in H. cbn [contains] in H.
    apply Bool.orb_false_iff in H. destruct H as [P H].
    assert (P' : String.prefix " ; " (String d (x ++ " ; " ++ rest)) = false).
    { etransitivity; [|exact P]. replace (String d (x ++ " ; " ++ rest)) with (String d (x ++ " ;") ++ (" " ++ rest)).
      - apply prefix_within. cbn [String.length]. rewrite length_app_str. cbn. lia.
      - cbn [append]. rewrite !app_assoc_str. reflexivity. }
    rewrite P', IH by auto. rewrite app_assoc_str. reflexivity.
Qed.
Lemma no_semicolon : forall x, has_char ";" x = false -> contains " ; " (x ++ " ;") = false /\ contains " ; " x = false.
Proof.
  intros x H. split; [|apply (contains_no_char ";"); auto]. induction x as [|d x IH]; [reflexivity|]. cbn [has_char] in H. apply Bool.orb_false_iff in H. destruct H as [H1 H2].
  cbn [append contains]. rewrite IH by auto. rewrite Bool.orb_false_r. destruct x as [|e x]; cbn [append String.prefix].
  - destruct (ascii_dec " " d); auto.
  - cbn [has_char] in H2. apply Bool.orb_false_iff in H2. destruct H2 as [H2 _]. destruct (ascii_dec " " d); auto. destruct (ascii_dec ";" e) as [<-|]; auto. discriminate.
Qed.
Lemma split_fields : forall fs cur, Forall (fun f => has_char ";" f = false) fs -> fs <> [] -> has_char ";" cur = false ->
  split_aux " ; " 0 cur (String.concat " ; " fs) = match fs with f :: fs' => (cur ++ f) :: fs' | [] => [] end.
Proof.
  induction fs as [|f fs IH]; intros cur F N C; [congruence|]. inversion F; subst. destruct fs as [|g fs].
  - cbn [String.concat]. apply split_end. apply no_semicolon; auto.
  - change (String.concat " ; " (f :: g :: fs)) with (f ++ " ; " ++ String.concat " ; " (g :: fs)). rewrite split_field by (exact (proj1 (no_semicolon f ltac:(auto)))). rewrite IH; auto; discriminate.
Qed.

(** * The text of a clear subgroup *)
Lemma clear_text : forall s, clear_selector s -> exists a v, s = Sel a EQUAL (VStr v) /\ clear_name a /\ clear_value v /\ sel_str s = a ++ " = '" ++ v ++ "'".
Proof. intros [a o w] (E & N & v & Ev & Cv). cbn in *. subst. exists a, v. repeat split; auto; apply N || apply Cv. Qed.
(** Without spaces, the only separator around a name is the name itself. *)
Lemma no_space_tail : forall w a, no_space a -> contains (String " " w) (a ++ " ") = true -> w = "".
Proof.
  intros w a N H. rewrite contains_app_l in H by exact N. cbn [contains append] in H. rewrite Bool.orb_false_r in H. cbn [String.prefix] in H. destruct w; auto. discriminate.
Qed.
Lemma spaced_name : forall a, no_space a -> a <> ";" -> contains " ; " (" " ++ a ++ " ") = false.
Proof.
  intros a N D. apply Bool.not_true_is_false. intros H. change (" " ++ a ++ " ") with (String " " (a ++ " ")) in H. cbn [contains] in H. apply Bool.orb_true_iff in H. destruct H as [H|H].
  - cbn [String.prefix] in H. destruct (ascii_dec " " " "); [|congruence]. destruct a as [|b a]; [discriminate|]. cbn [append String.prefix] in H. destruct (ascii_dec ";" b) as [<-|]; [|discriminate].
    destruct a as [|c a]; [congruence|]. cbn [append String.prefix] in H. destruct (ascii_dec " " c) as [<-|]; [|discriminate]. discriminate N.
  - apply no_space_tail in H; auto. discriminate.
Qed.
Lemma cut_off : forall c w u r, has_char c w = false -> contains w u = false -> contains w r = false -> contains w (u ++ String c r) = false.
Proof. intros c w u r H U R. apply Bool.not_true_is_false. intros K. apply contains_cut in K; auto. destruct K; congruence. Qed.
Lemma name_tail : forall a, no_space a -> contains " ; " (a ++ " ") = false.
Proof. intros a N. apply Bool.not_true_is_false. intros H. apply no_space_tail in H; auto. discriminate. Qed.
(** The text of a selector, with what precedes and follows it. *)
Lemma selector_clear : forall s r, clear_selector s -> contains " ; " r = false -> contains " ; " (" " ++ sel_str s ++ r) = false /\ contains " ; " (sel_str s ++ r) = false.
Proof.
  intros s r C R. destruct (clear_text s C) as (a & v & _ & (N & _ & D & _) & (_ & V & _) & ->).
  assert (T : contains " ; " (" '" ++ v ++ "'" ++ r) = false).
  { change (" '" ++ v ++ "'" ++ r) with (" " ++ String "'" (v ++ String "'" r)). apply cut_off; auto. apply cut_off; auto. }
  split.
  - replace (" " ++ (a ++ " = '" ++ v ++ "'") ++ r) with ((" " ++ a ++ " ") ++ String "=" (" '" ++ v ++ "'" ++ r)) by (rewrite !app_assoc_str; reflexivity).
    apply cut_off; auto. apply spaced_name; auto.
  - replace ((a ++ " = '" ++ v ++ "'") ++ r) with ((a ++ " ") ++ String "=" (" '" ++ v ++ "'" ++ r)) by (rewrite !app_assoc_str; reflexivity).
    apply cut_off; auto. apply name_tail; auto.
Qed.
Lemma joined_clear : forall p r, p <> [] -> Forall clear_selector p -> contains " ; " r = false -> contains " ; " (joined p ++ r) = false /\ contains " ; " (" " ++ joined p ++ r) = false.
Proof.
  induction p as [|s [|s' p] IH]; intros r N F R; [congruence| |].
  - inversion F; subst. cbn [joined]. split; apply selector_clear; auto.
  - inversion F; subst. change (joined (s :: s' :: p)) with (sel_str s ++ ", " ++ joined (s' :: p)).
    assert (K : contains " ; " (", " ++ joined (s' :: p) ++ r) = false).
    { change (", " ++ joined (s' :: p) ++ r) with ("" ++ String "," (" " ++ joined (s' :: p) ++ r)). apply cut_off; auto. apply IH; auto; discriminate. }
    rewrite !app_assoc_str. split; apply selector_clear; auto.
Qed.
Lemma group_clear : forall g, clear_group g -> contains " ; " (subgroup_str g ++ " ;") = false.
Proof.
  intros g (_ & F). inversion F as [|t p Ct Fp]; subst. unfold subgroup_str.
  assert (T : contains " ; " (", Target: " ++ sel_str (g_target g) ++ " ;") = false).
  { change (", Target: " ++ sel_str (g_target g) ++ " ;") with (", Target" ++ String ":" (" " ++ sel_str (g_target g) ++ " ;")). apply cut_off; auto.
    destruct (clear_text _ Ct) as (a & v & _ & (N & _ & D & _) & (_ & V & _) & ->).
    replace (" " ++ (a ++ " = '" ++ v ++ "'") ++ " ;") with ((" " ++ a ++ " ") ++ String "=" (" " ++ String "'" (v ++ String "'" " ;"))) by (rewrite !app_assoc_str; reflexivity).
    apply cut_off; auto; [apply spaced_name; auto|]. apply cut_off; auto. apply cut_off; auto. }
  rewrite !app_assoc_str. unfold pattern_str. destruct (g_desc g) as [|s p] eqn:E.
  - change ("Description: " ++ "[]" ++ ", Target: " ++ sel_str (g_target g) ++ " ;") with ("Description: [" ++ String "]" (", Target: " ++ sel_str (g_target g) ++ " ;")). apply cut_off; auto.
  - rewrite pattern_str_loop_joined by discriminate. rewrite !app_assoc_str. set (J := joined (s :: p) ++ "]" ++ ", Target: " ++ sel_str (g_target g) ++ " ;").
    change ("Description: " ++ "[" ++ J) with ("Description: " ++ String "[" J). apply cut_off; auto. unfold J. apply joined_clear; [discriminate|auto|].
    change ("]" ++ ", Target: " ++ sel_str (g_target g) ++ " ;") with ("" ++ String "]" (", Target: " ++ sel_str (g_target g) ++ " ;")). apply cut_off; auto.
Qed.
Lemma group_apart : forall g, clear_group g -> contains " ; " (subgroup_str g) = false.
Proof. intros g C. apply Bool.not_true_is_false. intros H. apply (contains_before _ _ " ;") in H. rewrite (group_clear g C) in H. discriminate. Qed.
(** * A clear subgroup is read back *)
Lemma comma_free : forall s, clear_selector s -> contains ", " (sel_str s) = false.
Proof.
  intros s C. destruct (clear_text s C) as (a & v & _ & (N & L & _) & (V & _) & ->).
  replace (a ++ " = '" ++ v ++ "'") with ((a ++ " ") ++ String "=" (" " ++ String "'" (v ++ String "'" ""))) by (rewrite !app_assoc_str; reflexivity).
  apply cut_off; auto; [|apply cut_off; auto; apply cut_off; auto]. clear V C. induction a as [|b a IH]; [reflexivity|]. unfold no_space in *. cbn [has_char] in N. apply Bool.orb_false_iff in N. destruct N as [N1 N2].
  cbn [append contains]. destruct a as [|c a].
  - cbn [append contains String.prefix]. destruct (ascii_dec "," b) as [<-|]; [|reflexivity]. exfalso. apply L. reflexivity.
  - rewrite IH; auto. rewrite Bool.orb_false_r. cbn [append String.prefix]. destruct (ascii_dec "," b); auto. cbn [has_char] in N2. destruct (ascii_dec " " c) as [<-|]; auto. discriminate.
Qed.
Lemma comma_split : forall c w s, contains (String c w) s = false -> forall u, contains (String c (w ++ u)) s = false.
Proof.
  intros c w s H u. apply Bool.not_true_is_false. intros K. apply contains_split in K. destruct K as (x & r & ->).
  assert (T : contains (String c w) (x ++ String c (w ++ u) ++ r) = true); [|congruence].
  apply contains_after, contains_here. change (String c (w ++ u) ++ r) with (String c ((w ++ u) ++ r)). rewrite app_assoc_str. apply (prefix_refl_app (String c w)).
Qed.
Lemma target_free : forall s, clear_selector s -> contains ", Target: " (sel_str s) = false.
Proof. intros s C. apply (comma_split "," " " _ (comma_free s C) "Target: "). Qed.
(** ", name = " holds ", Target: " only for the name "Target:". *)
Lemma target_name : forall s r, clear_selector s -> contains ", Target: " r = false -> contains ", Target: " (", " ++ sel_str s ++ r) = false /\ contains ", Target: " (sel_str s ++ r) = false.
Proof.
  intros s r C R. destruct (clear_text s C) as (a & v & _ & (N & L & _ & D & _) & (V & _) & E).
  assert (T : contains ", Target: " (" '" ++ v ++ "'" ++ r) = false).
  { change (" '" ++ v ++ "'" ++ r) with (" " ++ String "'" (v ++ String "'" r)). apply cut_off; auto. apply cut_off; auto. apply (comma_split "," " " v V "Target: "). }
  assert (A : contains ", Target: " (a ++ " ") = false).
  { apply (comma_split "," " " (a ++ " ")) with (u := "Target: "). pose proof (comma_free s C) as K. rewrite E in K. apply Bool.not_true_is_false. intros H.
    assert (X : contains (String "," " ") ((a ++ " ") ++ "= '" ++ v ++ "'") = true) by (apply contains_before, H). rewrite app_assoc_str in X. change (a ++ " " ++ "= '" ++ v ++ "'") with (a ++ " = '" ++ v ++ "'") in X. change (String "," " ") with ", " in X. congruence. }
  rewrite E. split.
  - replace (", " ++ (a ++ " = '" ++ v ++ "'") ++ r) with ((", " ++ a ++ " ") ++ String "=" (" '" ++ v ++ "'" ++ r)) by (rewrite !app_assoc_str; reflexivity).
    apply cut_off; auto. apply Bool.not_true_is_false. intros H. change (", " ++ a ++ " ") with (String "," (String " " (a ++ " "))) in H. cbn [contains] in H. apply Bool.orb_true_iff in H. destruct H as [H|H].
    + change ", Target: " with (String "," (String " " ("Target:" ++ " "))) in H. cbn [String.prefix] in H. repeat match type of H with context [ascii_dec ?x ?x] => destruct (ascii_dec x x); [|congruence] end.
      assert (G : forall u b, no_space u -> no_space b -> String.prefix (u ++ " ") (b ++ " ") = true -> b = u).
      { induction u as [|x u IHu]; intros b Nu Nb P; destruct b as [|y b]; auto; unfold no_space in *; cbn [append String.prefix has_char] in *.
        - apply Bool.orb_false_iff in Nb. destruct Nb as [Nb _]. destruct (ascii_dec " " y) as [<-|]; discriminate.
        - apply Bool.orb_false_iff in Nu. destruct Nu as [Nu _]. destruct (ascii_dec x " ") as [->|]; discriminate.
        - apply Bool.orb_false_iff in Nu, Nb. destruct Nu, Nb. destruct (ascii_dec x y) as [->|]; [|discriminate]. f_equal. apply IHu; auto. }
      apply G in H; auto. reflexivity.
    + apply Bool.orb_true_iff in H. destruct H as [H|H]; [discriminate|congruence].
  - replace ((a ++ " = '" ++ v ++ "'") ++ r) with ((a ++ " ") ++ String "=" (" '" ++ v ++ "'" ++ r)) by (rewrite !app_assoc_str; reflexivity). apply cut_off; auto.
Qed.
Lemma joined_target : forall p r, p <> [] -> Forall clear_selector p -> contains ", Target: " r = false -> contains ", Target: " (joined p ++ r) = false /\ contains ", Target: " (", " ++ joined p ++ r) = false.
Proof.
  induction p as [|s [|s' p] IH]; intros r N F R; [congruence| |].
  - inversion F; subst. cbn [joined]. split; apply target_name; auto.
  - inversion F; subst. change (joined (s :: s' :: p)) with (sel_str s ++ ", " ++ joined (s' :: p)). rewrite !app_assoc_str.
    assert (K : contains ", Target: " (", " ++ joined (s' :: p) ++ r) = false) by (apply IH; auto; discriminate).
    split; apply target_name; auto.
Qed.
Lemma clear_parse : forall g, clear_group g -> subgroup_parse (subgroup_str g) = Ok g.
Proof.
  intros g (Q & F). inversion F as [|t p Ct Fp]; subst. apply subgroup_parse_str; auto.
  - eapply Forall_impl; [|exact F]. intros s C. destruct (clear_text s C) as (a & v & -> & _). repeat split; discriminate.
  - eapply Forall_impl; [|exact F]. intros s C. apply C.
  - eapply Forall_impl; [|exact Fp]. apply comma_free.
  - unfold pattern_str. destruct (g_desc g) as [|s p] eqn:E; [reflexivity|]. rewrite pattern_str_loop_joined by discriminate.
    change ("[" ++ joined (s :: p) ++ "]") with ("" ++ String "[" (joined (s :: p) ++ "]")). apply cut_off; auto. apply joined_target; auto. discriminate.
  - apply target_free; auto.
Qed.
Lemma clear_one_line : forall g, clear_group g -> one_line (subgroup_str g) = true.
Proof.
  intros g (_ & F). assert (L : forall s, clear_selector s -> one_line (sel_str s) = true).
  { intros s C. destruct (clear_text s C) as (a & v & _ & (_ & _ & _ & _ & A) & (_ & _ & V) & ->). rewrite !one_line_app, A, V. reflexivity. }
  inversion F as [|t p Ct Fp]; subst. unfold subgroup_str. rewrite !one_line_app, (L _ Ct). unfold pattern_str. destruct (g_desc g) as [|s p]; [reflexivity|].
  rewrite pattern_str_loop_joined by discriminate. rewrite !one_line_app. assert (K : one_line (joined (s :: p)) = true); [|rewrite K; reflexivity].
  clear F. revert s Fp. induction p as [|s' p IH]; intros s Fp; inversion Fp; subst; [apply L; auto|]. change (joined (s :: s' :: p)) with (sel_str s ++ ", " ++ joined (s' :: p)). rewrite !one_line_app, L, IH by auto. reflexivity.
Qed.
(** * Reading a file *)
Lemma concat_tidy : forall fs, Forall tidy fs -> one_line (String.concat " ; " fs) = true.
Proof.
  induction fs as [|f fs IH]; intros F; [reflexivity|]. inversion F as [|? ? [_ O] F']; subst. destruct fs as [|g fs]; [exact O|].
  change (String.concat " ; " (f :: g :: fs)) with (f ++ " ; " ++ String.concat " ; " (g :: fs)). rewrite !one_line_app, O, IH by auto. reflexivity.
Qed.
Lemma report_lines : forall A (text : A -> string) (group : A -> subgroup) (fields : A -> list string) ls,
  (forall x, In x ls -> text x = (subgroup_str (group x) ++ " ; " ++ String.concat " ; " (fields x)) ++ newline) ->
  (forall x, In x ls -> clear_group (group x) /\ fields x <> [] /\ Forall tidy (fields x)) ->
  read_report (file_text (map text ls)) = Ok (map (fun x => (group x, fields x)) ls).
Proof.
  intros A text group fields ls T C. unfold read_report.
  assert (E : map text ls = map (fun s => s ++ newline) (map (fun x => subgroup_str (group x) ++ " ; " ++ String.concat " ; " (fields x)) ls)) by (rewrite map_map; apply map_ext_in; auto).
  rewrite E, line_contents_file.
  - clear E T. induction ls as [|x ls IH]; [reflexivity|]. cbn [map map_res]. destruct (C x (or_introl eq_refl)) as (G & N & F). rewrite IH by (intros; apply C; right; auto).
    assert (R : read_line (subgroup_str (group x) ++ " ; " ++ String.concat " ; " (fields x)) = Ok (group x, fields x)).
    { unfold read_line, py_split. rewrite split_field by (apply group_clear; auto). cbn [append]. rewrite clear_parse by auto. cbn [bind].
      rewrite split_fields; auto; [|eapply Forall_impl; [|exact F]; intros f [H _]; exact H]. destruct (fields x); [congruence|]. reflexivity. }
    rewrite R. reflexivity.
  - apply Forall_forall. intros s I. apply in_map_iff in I. destruct I as (x & <- & Ix). destruct (C x Ix) as (G & N & F). rewrite !one_line_app, clear_one_line, concat_tidy by auto. reflexivity.
Qed.
Lemma tidy_app : forall a b, tidy a -> tidy b -> tidy (a ++ b).
Proof. intros a b [A1 A2] [B1 B2]. split; [rewrite has_char_app, A1, B1; reflexivity|rewrite one_line_app, A2, B2; reflexivity]. Qed.
(** The candidates of a clear dataset are clear. *)
Lemma clear_nominal : forall df s, categorical df -> clear_dataset df -> s_op s = EQUAL -> (exists col v, col_get (df_cols df) (s_attr s) = Some col /\ s_val s = VStr v /\ In (VStr v) col) -> clear_selector s.
Proof. intros df s Hcat HC E (col & v & Ec & Ev & Iv). apply col_get_in in Ec; [|apply Hcat]. destruct (HC _ _ Ec) as (N & V). split; auto. split; auto. exists v. auto. Qed.
