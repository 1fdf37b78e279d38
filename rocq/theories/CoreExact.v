(** Exact conditions: which texts are read back, which sets of selectors the pool keeps apart, which equal selectors have equal hashes. *)
From Verif Require Import CoreSpec CoreOrder CorePattern CoreText CoreFrame OrderFacts.
From Coq Require Import Lia Permutation.
Open Scope list_scope.
Open Scope nat_scope.
Open Scope string_scope.

(** * Occurrences *)
Lemma prefix_app_r : forall p u r, String.prefix p u = true -> String.prefix p (u ++ r) = true.
Proof.
  induction p as [|a p IH]; intros u r H; [destruct (u ++ r); reflexivity|]. destruct u as [|b u]; [discriminate|]. cbn in *.
  destruct (ascii_dec a b); [auto|discriminate].
Qed.
Lemma contains_here : forall w s, String.prefix w s = true -> contains w s = true.
Proof. intros w s H. destruct s; cbn [contains]; rewrite H; reflexivity. Qed.
Lemma contains_after : forall w u s, contains w s = true -> contains w (u ++ s) = true.
Proof. induction u as [|c u IH]; intros s H; auto. cbn [append contains]. rewrite IH by auto. apply Bool.orb_true_r. Qed.
Lemma contains_before : forall w u r, contains w u = true -> contains w (u ++ r) = true.
Proof.
  induction u as [|c u IH]; intros r H; cbn [contains] in H; apply Bool.orb_true_iff in H.
  - destruct H as [H|H]; [|discriminate]. apply contains_here, prefix_app_r, H.
  - destruct H as [H|H]; [apply contains_here, prefix_app_r, H|]. cbn [append contains]. rewrite (IH r H). apply Bool.orb_true_r.
Qed.
Lemma contains_split : forall w s, contains w s = true -> exists u r, s = u ++ w ++ r.
Proof.
  induction s as [|c s IH]; cbn [contains]; intros H; apply Bool.orb_true_iff in H.
  - destruct H as [H|H]; [|discriminate]. destruct w; [|discriminate]. exists "", "". reflexivity.
  - destruct H as [H|H].
    + exists "". assert (P : forall p t, String.prefix p t = true -> exists r, t = p ++ r).
      { induction p as [|a p IHp]; intros t Ht; [exists t; reflexivity|]. destruct t as [|b t]; [discriminate|]. cbn in Ht. destruct (ascii_dec a b) as [->|]; [|discriminate].
        destruct (IHp t Ht) as [r ->]. exists r. reflexivity. }
      destruct (P _ _ H) as [r E]. exists r. exact E.
    + destruct (IH H) as (u & r & ->). exists (String c u), r. reflexivity.
Qed.
Lemma contains_cut : forall c w u r, has_char c w = false -> contains w (u ++ String c r) = true -> contains w u = true \/ contains w r = true.
Proof.
  induction u as [|d u IH]; intros r H K.
  - cbn [append contains] in K. apply Bool.orb_true_iff in K. destruct K as [K|K]; [|auto]. left. apply contains_here. apply (prefix_cut c r w ""); auto.
  - cbn [append contains] in K. apply Bool.orb_true_iff in K. destruct K as [K|K].
    + left. apply contains_here. apply (prefix_cut c r); auto.
    + destruct (IH r H K) as [L|L]; auto. left. cbn [contains]. rewrite L. apply Bool.orb_true_r.
Qed.
Lemma contains_no_char : forall c w s, has_char c w = true -> has_char c s = false -> contains w s = false.
Proof.
  intros c w s Hw Hs. destruct (contains w s) eqn:E; auto. destruct (contains_split _ _ E) as (u & r & ->). rewrite !has_char_app, Hw in Hs.
  rewrite Bool.orb_true_r in Hs. discriminate.
Qed.

(** * What a selector text can be read as *)
Lemma split1_spec : forall c s a r, split1 c s = Some (a, r) -> s = a ++ String c r /\ has_char c a = false.
Proof.
  induction s as [|d s IH]; intros a r; cbn [split1]; [discriminate|]. destruct (Ascii.eqb c d) eqn:E.
  - intros K. injection K as <- <-. apply Ascii.eqb_eq in E. subst. auto.
  - destruct (split1 c s) as [[l r']|] eqn:F; [|discriminate]. intros K. injection K as <- <-. destruct (IH l r' eq_refl) as [-> H]. split; auto. cbn. rewrite E, H. reflexivity.
Qed.
Lemma strip_ends_shape : forall v, exists p q, (strip_ends v = "" \/ v = p ++ strip_ends v ++ q).
Proof.
  intros v. destruct v as [|c v]; [exists "", ""; left; reflexivity|].
  destruct (last_char v) as [d|] eqn:L.
  - assert (S : exists t, v = t ++ String d "").
    { clear c. revert L. induction v as [|e v IH]; [discriminate|]. intros L. cbn [last_char] in L. destruct v as [|f v].
      - injection L as ->. exists "". reflexivity.
      - destruct (IH L) as [t Et]. exists (String e t). rewrite Et. reflexivity. }
    destruct S as [t ->]. exists (String c ""), (String d ""). right. rewrite strip_ends_wrap. reflexivity.
  - destruct v as [|e v]; [exists "", ""; left; reflexivity|]. exfalso. clear -L. revert e L. induction v as [|f v IH]; intros e L; [discriminate|]. apply (IH f). exact L.
Qed.
Lemma sel_parse_shape : forall t s, sel_parse t = Ok s -> exists v, t = s_attr s ++ " " ++ op_str (s_op s) ++ " " ++ v /\ no_space (s_attr s) /\
  forall x, s_val s = VStr x -> x = "" \/ exists p q, v = p ++ x ++ q.
Proof.
  intros t s. unfold sel_parse. destruct (split1 " " t) as [[a rest]|] eqn:E1; [|discriminate]. destruct (split1_spec _ _ _ _ E1) as [-> Na].
  destruct (split1 " " rest) as [[o v]|] eqn:E2.
  2:{ destruct (op_parse rest); cbn [bind]; discriminate. }
  destruct (split1_spec _ _ _ _ E2) as [-> _]. destruct (op_parse o) as [op|e] eqn:Eo; cbn [bind]; [|discriminate]. apply op_parse_ok in Eo. subst o.
  assert (M : forall w, mk_selector a op w = Ok s -> s = Sel a op w) by (intros w H; apply mk_selector_ok; exact H).
  destruct (first_char v) as [c|]; [|discriminate]. destruct (last_char v) as [d|]; [|discriminate].
  destruct ((Ascii.eqb c "'" && Ascii.eqb d "'") || (Ascii.eqb c """" && Ascii.eqb d """")).
  - intros H. apply M in H. subst s. exists v. split; [reflexivity|]. split; [exact Na|]. intros x Ex. cbn in Ex. injection Ex as <-.
    destruct (strip_ends_shape v) as (p & q & [Z|Z]); eauto.
  - assert (KS : forall w, s = Sel a op (VStr w) -> w = v -> exists v0, a ++ String " " (op_str op ++ String " " v) = s_attr s ++ " " ++ op_str (s_op s) ++ " " ++ v0 /\ no_space (s_attr s) /\
        forall x, s_val s = VStr x -> x = "" \/ exists p q, v0 = p ++ x ++ q).
    { intros w -> ->. exists v. split; [reflexivity|]. split; [exact Na|]. intros x Ex. cbn in Ex. injection Ex as <-. right. exists "", "". cbn. now rewrite app_nil_r_str. }
    assert (KN : forall w, s = Sel a op w -> is_str w = false -> exists v0, a ++ String " " (op_str op ++ String " " v) = s_attr s ++ " " ++ op_str (s_op s) ++ " " ++ v0 /\ no_space (s_attr s) /\
        forall x, s_val s = VStr x -> x = "" \/ exists p q, v0 = p ++ x ++ q).
    { intros w -> Hw. exists v. split; [reflexivity|]. split; [exact Na|]. intros x Ex. cbn in Ex. subst w. discriminate. }
    destruct (has_char "." v).
    + destruct (py_float v) as [[m e]|[]]; intros H; try discriminate H; apply M in H; eauto.
    + destruct (py_int v) as [z|]; intros H; apply M in H; eauto.
Qed.
Lemma parse_no_space : forall t s, sel_parse t = Ok s -> no_space (s_attr s).
Proof. intros t s H. destruct (sel_parse_shape t s H) as (v & _ & N & _). exact N. Qed.

(** Text of a number: no comma. *)
Lemma number_no_comma : forall v, is_str v = false -> has_char "," (py_str v) = false.
Proof.
  intros [s|z|m e] H; [discriminate| |]; cbn [py_str].
  - rewrite str_of_Z_sign, has_char_app. rewrite (all_digits_no_char "," _ eq_refl (str_of_N_digits _)). destruct (z <? 0)%Z; reflexivity.
  - unfold str_of_float. rewrite !has_char_app.
    set (ds := zeros (S e - String.length (str_of_N (Z.abs_N m))) ++ str_of_N (Z.abs_N m)).
    assert (D : has_char "," ds = false). { apply all_digits_no_char; [reflexivity|]. unfold ds. rewrite all_digits_app, zeros_digits, str_of_N_digits. reflexivity. }
    rewrite <- (take_drop_str (String.length ds - e) ds), has_char_app in D. apply Bool.orb_false_iff in D. destruct D as [-> ->]. destruct (m <? 0)%Z; reflexivity.
Qed.
(** A separator: begins with a comma and has no quote and no operator character. *)
Definition separator (w : string) : Prop := (exists w', w = String "," w') /\ has_char "'" w = false /\ has_char "=" w = false /\ has_char "<" w = false /\ has_char ">" w = false.
Lemma op_str_end : forall o, exists p c, op_str o = p ++ String c "" /\ (c = "=" \/ c = "<" \/ c = ">")%char.
Proof. intros []; [exists "", "="%char|exists "!", "="%char|exists "", "<"%char|exists "", ">"%char|exists "<", "="%char|exists ">", "="%char]; split; auto. Qed.
Lemma contains_sel_str : forall w s, separator w -> contains w (sel_str s) = true ->
  contains w (s_attr s ++ " " ++ op_str (s_op s)) = true \/ exists x, s_val s = VStr x /\ contains w x = true.
Proof.
  intros w s ((w' & Ew) & Hq & H1 & H2 & H3) H. unfold sel_str in H. destruct (op_str_end (s_op s)) as (p & c & Eo & Hc).
  assert (Nc : has_char c w = false) by (destruct Hc as [->|[->| ->]]; assumption).
  rewrite Eo in H. rewrite Eo.
  replace (s_attr s ++ " " ++ (p ++ String c "") ++ " " ++ quoted (s_val s)) with ((s_attr s ++ " " ++ p) ++ String c (" " ++ quoted (s_val s))) in H
    by (rewrite !app_assoc_str; reflexivity).
  apply contains_cut in H; [|exact Nc]. destruct H as [H|H].
  - left. replace (s_attr s ++ " " ++ p ++ String c "") with ((s_attr s ++ " " ++ p) ++ String c "") by (rewrite !app_assoc_str; reflexivity). apply contains_before, H.
  - right. destruct (s_val s) as [x|z|m e] eqn:V.
    + exists x. split; auto. cbn [quoted] in H. change (" " ++ "'" ++ x ++ "'") with (" " ++ String "'" (x ++ String "'" "")) in H. apply contains_cut in H; auto.
      destruct H as [H|H]; [subst w; discriminate H|]. apply contains_cut in H; auto. destruct H as [H|H]; auto. subst w; discriminate H.
    + exfalso. rewrite (contains_no_char "," w (" " ++ quoted (VInt z))) in H; [discriminate|subst w; reflexivity|]. cbn [append has_char]. change (quoted (VInt z)) with (py_str (VInt z)). rewrite number_no_comma; reflexivity.
    + exfalso. rewrite (contains_no_char "," w (" " ++ quoted (VFloat m e))) in H; [discriminate|subst w; reflexivity|]. cbn [append has_char]. change (quoted (VFloat m e)) with (py_str (VFloat m e)). rewrite number_no_comma; reflexivity.
Qed.
Lemma parse_clean : forall w t s, separator w -> sel_parse t = Ok s -> contains w t = false -> contains w (sel_str s) = false.
Proof.
  intros w t s Hw P N. destruct (contains w (sel_str s)) eqn:E; auto. exfalso. destruct (sel_parse_shape t s P) as (v & Et & _ & Hv). subst t.
  destruct (contains_sel_str w s Hw E) as [K|(x & Ex & K)].
  - replace (s_attr s ++ " " ++ op_str (s_op s) ++ " " ++ v) with ((s_attr s ++ " " ++ op_str (s_op s)) ++ " " ++ v) in N by (rewrite !app_assoc_str; reflexivity).
    rewrite (contains_before _ _ _ K) in N. discriminate.
  - destruct (Hv x Ex) as [->|(p & q & ->)].
    + destruct Hw as ((w' & ->) & _). discriminate K.
    + rewrite (contains_after w (s_attr s)) in N; [discriminate|]. apply contains_after, contains_after, contains_after, contains_after, contains_before, K.
Qed.

(** * The parts of a text *)
Definition quiet (w cur s : string) : Prop := forall a b, cur = a ++ b -> b <> "" -> String.prefix w (b ++ s) = false.
Lemma quiet_clean : forall w cur s, w <> "" -> quiet w cur s -> contains w cur = false.
Proof.
  intros w cur s Hw Q. destruct (contains w cur) eqn:E; auto. exfalso. destruct (contains_split _ _ E) as (u & r & ->).
  specialize (Q u (w ++ r) eq_refl). rewrite app_assoc_str, prefix_refl_app in Q. assert (w ++ r <> "") by (destruct w; [congruence|discriminate]). specialize (Q H). discriminate.
Qed.
Lemma split_pieces : forall w, w <> "" -> forall s k cur, quiet w cur s -> (0 < k -> cur = "") -> Forall (fun x => contains w x = false) (split_aux w k cur s).
Proof.
  intros w Hw. induction s as [|c s IH]; intros k cur Q Z; cbn [split_aux].
  - constructor; auto. apply (quiet_clean w cur "" Hw Q).
  - destruct k as [|k].
    + destruct (String.prefix w (String c s)) eqn:P.
      * constructor; [apply (quiet_clean w cur (String c s) Hw Q)|]. apply IH; auto. intros a b E N. destruct a; [cbn in E; subst b; congruence|discriminate].
      * apply IH; [|lia]. intros a b E N. destruct (string_dec b "") as [|_]; [congruence|].
        assert (S : exists b', b = b' ++ String c "" /\ cur = a ++ b').
        { clear -E N. revert cur E. induction a as [|e a IHa]; intros cur E.
          - cbn in E. exists cur. auto.
          - destruct cur as [|f cur]; cbn in E.
            + injection E as _ E. destruct a; [cbn in E; congruence|discriminate].
            + injection E as -> E. destruct (IHa cur E) as (b' & -> & ->). exists b'. auto. }
        destruct S as (b' & -> & ->). rewrite app_assoc_str. destruct b' as [|e b']; [exact P|]. apply (Q a (String e b') eq_refl). discriminate.
    + apply IH; [|intros; apply Z; lia]. rewrite (Z ltac:(lia)). intros a b E N. destruct a; [cbn in E; subst b; congruence|discriminate].
Qed.
Lemma py_split_clean : forall w s, w <> "" -> Forall (fun x => contains w x = false) (py_split w s).
Proof. intros w s Hw. apply split_pieces; auto. intros a b E N. destruct a; [cbn in E; subst b; congruence|discriminate]. Qed.
(** The first part and the rest. *)
Lemma split_first : forall w s cur, w <> "" -> contains w s = true -> exists x l, split_aux w 0 cur s = (cur ++ x) :: l /\ exists r, s = x ++ w ++ r.
Proof.
  intros w s. induction s as [|c s IH]; intros cur Hw H; cbn [contains] in H; apply Bool.orb_true_iff in H.
  - destruct H as [H|H]; [|discriminate]. destruct w; [congruence|discriminate].
  - cbn [split_aux]. destruct (String.prefix w (String c s)) eqn:P.
    + exists "". eexists. rewrite app_nil_r_str. split; [reflexivity|]. destruct (contains_split w (String c s) (contains_here _ _ P)) as (u & r & E).
      clear -P. revert P. generalize (String c s). clear. induction w as [|a w IH]; intros t Ht; [exists t; reflexivity|]. destruct t as [|b t]; [discriminate|]. cbn in Ht.
      destruct (ascii_dec a b) as [->|]; [|discriminate]. destruct (IH t Ht) as [r E]. exists r. cbn in *. congruence.
    + destruct H as [H|H]; [discriminate|]. destruct (IH (cur ++ String c "") Hw H) as (x & l & E & r & Er). exists (String c x), l. rewrite E, app_assoc_str. split; auto. exists r. rewrite Er. reflexivity.
Qed.
(** Number of occurrences of ", ". *)
Fixpoint commas (s : string) : nat :=
  match s with EmptyString => 0 | String c r => (if String.prefix ", " s then 1 else 0) + commas r end.
Lemma split_count : forall s cur, length (split_aux ", " 0 cur s) = 1 + commas s.
Proof.
  assert (H : forall n s cur, String.length s <= n -> length (split_aux ", " 0 cur s) = 1 + commas s).
  { induction n as [|n IH]; intros [|c s] cur L; cbn in L; try lia; [reflexivity|reflexivity|]. cbn [split_aux commas]. destruct (String.prefix ", " (String c s)) eqn:P.
    - destruct s as [|d s]; [cbn [String.prefix] in P; destruct (ascii_dec "," c); discriminate|]. cbn [String.prefix] in P. destruct (ascii_dec "," c); [|discriminate]. destruct (ascii_dec " " d) as [<-|]; [|discriminate].
      change (String.length ", " - 1) with 1. cbn [split_aux length]. rewrite IH by (cbn in L; lia). cbn [commas String.prefix].
      destruct (ascii_dec "," " "); [discriminate|]. lia.
    - rewrite IH by lia. lia. }
  intros s cur. apply (H (String.length s)). lia.
Qed.
Lemma commas_app : forall u r, commas u + commas r <= commas (u ++ r).
Proof.
  induction u as [|c u IH]; intros r; [cbn; lia|]. cbn [append commas]. specialize (IH r).
  destruct (String.prefix ", " (String c u)) eqn:P.
  - change (String c (u ++ r)) with (String c u ++ r). rewrite (prefix_app_r _ _ r P). lia.
  - destruct (String.prefix ", " (String c (u ++ r))); lia.
Qed.
Lemma commas_end : forall u, commas (u ++ "]") = commas u.
Proof.
  induction u as [|c u IH]; [reflexivity|]. cbn [append commas]. rewrite IH. f_equal.
  destruct (String.prefix ", " (String c (u ++ "]"))) eqn:P.
  - rewrite (prefix_cut "]" "" ", " (String c u)); auto.
  - destruct (String.prefix ", " (String c u)) eqn:P'; auto. change (String c (u ++ "]")) with (String c u ++ "]") in P. rewrite (prefix_app_r _ _ "]" P') in P. discriminate.
Qed.

(** * Patterns *)
Lemma dedup_incl : forall l last, incl (dedup_consecutive last l) l /\ length (dedup_consecutive last l) <= length l.
Proof.
  induction l as [|e l IH]; intros last; cbn [dedup_consecutive]; [split; [apply incl_refl|auto]|].
  destruct (match last with None => true | Some x => sel_ne x e end).
  - destruct (IH (Some e)) as [A B]. split; [|cbn; lia]. intros x [<-|I]; [left; auto|right; auto].
  - destruct (IH last) as [A B]. split; [intros x I; right; auto|cbn; lia].
Qed.
Lemma pattern_init_incl : forall l, incl (pattern_init l) l /\ length (pattern_init l) <= length l.
Proof.
  intros l. unfold pattern_init. destruct (dedup_incl (sort_by sel_lt l) None) as [A B]. pose proof (sort_by_perm sel_lt l) as P. split.
  - intros x I. apply A in I. apply (Permutation_in _ (Permutation_sym P)) in I || apply (Permutation_in _ P) in I. exact I.
  - apply Permutation_length in P. lia.
Qed.
Lemma map_res_all : forall {A B} (f : A -> res B) l l', map_res f l = Ok l' -> length l' = length l /\ forall y, In y l' -> exists x, In x l /\ f x = Ok y.
Proof.
  induction l as [|a l IH]; intros l' E; cbn [map_res] in E.
  - injection E as <-. split; auto. intros y [].
  - destruct (f a) as [b|] eqn:Ea; cbn [bind] in E; [|discriminate]. destruct (map_res f l) as [r|] eqn:Er; cbn [bind] in E; [|discriminate]. injection E as <-.
    destruct (IH r eq_refl) as [L I]. split; [cbn; congruence|]. intros y [<-|J]; [exists a; split; [left|]; auto|]. destruct (I y J) as (x & Jx & Ex). exists x. split; [right|]; auto.
Qed.
Lemma comma_separator : separator ", ".
Proof. split; [exists " "; reflexivity|]. repeat split; reflexivity. Qed.
Lemma target_separator : separator ", Target: ".
Proof. split; [exists " Target: "; reflexivity|]. repeat split; reflexivity. Qed.
Lemma pattern_parse_parts : forall t p, pattern_parse t = Ok p -> Forall (fun s => no_space (s_attr s) /\ contains ", " (sel_str s) = false) p /\
  (t = "[]" /\ p = [] \/ length p <= 1 + commas (strip_ends t)).
Proof.
  intros t p. unfold pattern_parse. destruct (String.eqb t "[]") eqn:E.
  - intros H. injection H as <-. apply String.eqb_eq in E. split; [constructor|auto].
  - destruct (map_res sel_parse (py_split ", " (strip_ends t))) as [l|] eqn:M; cbn [bind]; [|discriminate]. intros H. injection H as <-.
    destruct (map_res_all _ _ _ M) as [L I]. destruct (pattern_init_incl l) as [A B]. split.
    + apply Forall_forall. intros s J. apply A in J. destruct (I s J) as (x & Jx & Ex). split; [apply (parse_no_space _ _ Ex)|]. apply (parse_clean ", " x s comma_separator Ex).
      pose proof (py_split_clean ", " (strip_ends t) ltac:(discriminate)) as F. rewrite Forall_forall in F. apply F, Jx.
    + right. unfold py_split in L. rewrite split_count in L. lia.
Qed.
Lemma sel_eq_parts : forall s t, sel_eq s t = true -> s_attr s = s_attr t /\ s_op s = s_op t /\ py_eq (s_val s) (s_val t) = true.
Proof.
  intros s t E. unfold sel_eq in E. apply Bool.andb_true_iff in E. destruct E as [E Ev]. apply Bool.andb_true_iff in E. destruct E as [Ea Eo].
  apply String.eqb_eq in Ea. apply Nat.eqb_eq, op_value_inj in Eo. auto.
Qed.
Lemma sel_eq_clean : forall w s t, separator w -> sel_eq s t = true -> contains w (sel_str s) = false -> contains w (sel_str t) = false.
Proof.
  intros w s t Hw E N. destruct (sel_eq_parts s t E) as (Ea & Eo & Ev). destruct (contains w (sel_str t)) eqn:K; auto. exfalso.
  destruct (contains_sel_str w t Hw K) as [K'|(x & Ex & K')].
  - rewrite <- Ea, <- Eo in K'. unfold sel_str in N. replace (s_attr s ++ " " ++ op_str (s_op s) ++ " " ++ quoted (s_val s)) with ((s_attr s ++ " " ++ op_str (s_op s)) ++ " " ++ quoted (s_val s)) in N by (rewrite !app_assoc_str; reflexivity).
    rewrite (contains_before _ _ _ K') in N. discriminate.
  - rewrite Ex in Ev. destruct s as [a o v], t as [a' o' v']. cbn [s_attr s_op s_val] in *. subst a' o' v'. destruct v as [y|z|m e]; cbn [py_eq] in Ev; try discriminate. apply String.eqb_eq in Ev. subst y. congruence.
Qed.
Lemma pattern_eq_all : forall q p, pattern_eq q p = true -> Forall2 (fun s t => sel_eq s t = true) q p.
Proof. intros q p. apply (proj1 (pattern_eq_Forall2 q p)). Qed.
Lemma pattern_eq_same : forall X, pattern_eq X X = true.
Proof. intros X. apply pattern_eq_Forall2. induction X; constructor; auto. apply sel_eq_refl. Qed.
Lemma clean_along : forall q p, Forall2 (fun s t => sel_eq s t = true) q p -> Forall (fun s => no_space (s_attr s) /\ contains ", " (sel_str s) = false) q ->
  Forall (fun s => no_space (s_attr s) /\ contains ", " (sel_str s) = false) p.
Proof.
  intros q p F. induction F as [|s t q p E F IH]; intros G; [constructor|]. inversion G as [|? ? [G1 G2] G3]; subst. constructor; auto.
  split; [destruct (sel_eq_parts _ _ E) as (<- & _); exact G1|exact (sel_eq_clean _ _ _ comma_separator E G2)].
Qed.
Lemma pattern_parse_exact : forall p, sorted_strictly p -> Forall constructible p ->
  ((exists q, pattern_parse (pattern_str p) = Ok q /\ pattern_eq q p = true) <-> Forall (fun s => no_space (s_attr s) /\ contains ", " (sel_str s) = false) p) /\
  (forall q, pattern_parse (pattern_str p) = Ok q -> pattern_eq q p = true -> q = p).
Proof.
  intros p Hs Hc.
  assert (A : forall q, pattern_parse (pattern_str p) = Ok q -> pattern_eq q p = true -> Forall (fun s => no_space (s_attr s) /\ contains ", " (sel_str s) = false) p).
  { intros q E Q. eapply clean_along; [apply pattern_eq_all, Q|apply (pattern_parse_parts _ _ E)]. }
  assert (B : Forall (fun s => no_space (s_attr s) /\ contains ", " (sel_str s) = false) p -> pattern_parse (pattern_str p) = Ok p).
  { intros F. apply pattern_parse_str; auto; eapply Forall_impl; try exact F; cbv beta; tauto. }
  split; [split|].
  - intros (q & E & Q). eauto.
  - intros F. exists p. split; [auto|]. apply pattern_eq_same.
  - intros q E Q. pose proof (B (A q E Q)). congruence.
Qed.
Lemma joined_commas : forall p, p <> [] -> Forall (fun s => contains ", " (sel_str s) = false) p -> commas (joined p) = length p - 1.
Proof.
  intros p N F. pose proof (split_joined p N F) as E. apply (f_equal (@length _)) in E. unfold py_split in E. rewrite split_count, map_length in E. lia.
Qed.
Lemma strip_ends_tail : forall c x, exists r, x = strip_ends (String c x) ++ r.
Proof.
  intros c x. destruct x as [|d x]; [exists ""; reflexivity|]. destruct (last_char (String d x)) as [e|] eqn:L.
  - assert (S : exists t, String d x = t ++ String e "").
    { revert L. generalize (String d x) as v. induction v as [|f v IH]; [discriminate|]. intros L. cbn [last_char] in L. destruct v as [|g v].
      - injection L as ->. exists "". reflexivity.
      - destruct (IH L) as [t Et]. exists (String f t). rewrite Et. reflexivity. }
    destruct S as [t E]. rewrite E, strip_ends_wrap. exists (String e ""). reflexivity.
  - exfalso. clear -L. revert d L. induction x as [|f x IH]; intros d L; [discriminate|]. apply (IH f). exact L.
Qed.
(** No proper beginning of a pattern text, before ", Target: ", is read as the pattern. *)
Lemma pattern_cut : forall p q x r, Forall2 (fun s t => sel_eq s t = true) q p -> pattern_str p = x ++ ", Target: " ++ r -> pattern_parse x <> Ok q.
Proof.
  intros p q x r Q E P. destruct (pattern_parse_parts _ _ P) as [F L]. pose proof (clean_along q p Q F) as F2. clear F. rename F2 into F.
  assert (Lq : length q = length p) by exact (Forall2_len _ _ _ Q). rewrite Lq in L.
  assert (N : x = "[]" /\ q = [] -> x = "[]" /\ p = []). { intros [? ->]. inversion Q; auto. }
  assert (L' : x = "[]" /\ p = [] \/ length p <= 1 + commas (strip_ends x)) by (destruct L; auto). clear L N Lq. rename L' into L. destruct p as [|s p].
  - assert (C : contains ", Target: " (pattern_str []) = true) by (rewrite E; apply contains_after, contains_before; reflexivity). discriminate C.
  - destruct L as [[_ L]|L]; [discriminate|]. unfold pattern_str in E. rewrite pattern_str_loop_joined in E by discriminate.
    destruct x as [|c x]; [discriminate E|]. change (String c x ++ ", Target: " ++ r) with (String c (x ++ ", Target: " ++ r)) in E. change ("[" ++ joined (s :: p) ++ "]") with (String "[" (joined (s :: p) ++ "]")) in E.
    assert (Ec : c = "["%char) by congruence. assert (E' : joined (s :: p) ++ "]" = x ++ ", Target: " ++ r) by congruence. subst c. clear E. rename E' into E.
    assert (F' : Forall (fun s => contains ", " (sel_str s) = false) (s :: p)) by (eapply Forall_impl; [|exact F]; cbv beta; tauto).
    pose proof (joined_commas (s :: p) ltac:(discriminate) F') as J. rewrite <- commas_end, E in J.
    change (", Target: " ++ r) with (", " ++ "Target: " ++ r) in J. pose proof (commas_app x (", " ++ "Target: " ++ r)) as K1. pose proof (commas_app ", " ("Target: " ++ r)) as K2. change (commas ", ") with 1 in K2.
    destruct (strip_ends_tail "[" x) as [y Ey]. pose proof (commas_app (strip_ends (String "[" x)) y) as K3. rewrite <- Ey in K3. cbn [length] in *. lia.
Qed.
Lemma subgroup_parse_exact : forall g, sorted_strictly (g_desc g) -> Forall constructible (g_target g :: g_desc g) ->
  ((exists k, subgroup_parse (subgroup_str g) = Ok k /\ subgroup_eq k g = true) <->
   Forall (fun s => no_space (s_attr s)) (g_target g :: g_desc g) /\ Forall (fun s => contains ", " (sel_str s) = false) (g_desc g) /\
   contains ", Target: " (pattern_str (g_desc g)) = false /\ contains ", Target: " (sel_str (g_target g)) = false).
Proof.
  intros g Hs Hc. split.
  - intros (k & E & Q0). unfold subgroup_parse in E. pose proof (py_split_clean ", Target: " (subgroup_str g) ltac:(discriminate)) as C.
    destruct (py_split ", Target: " (subgroup_str g)) as [|d [|tg rest]] eqn:S; try discriminate E.
    destruct (sel_parse tg) as [t0|] eqn:T; cbn [bind] in E; [|discriminate]. destruct (pattern_parse (drop_str 13 d)) as [q|] eqn:P; cbn [bind] in E; [|discriminate].
    assert (G : k = SG q t0) by congruence. subst k. destruct g as [p t]. unfold subgroup_eq in Q0. cbn [g_desc g_target] in *. apply Bool.andb_true_iff in Q0. destruct Q0 as [Qp Qt]. apply pattern_eq_all in Qp.
    destruct (pattern_parse_parts _ _ P) as [F0 _]. pose proof (clean_along _ _ Qp F0) as F.
    split; [constructor; [destruct (sel_eq_parts _ _ Qt) as (<- & _); apply (parse_no_space _ _ T)|eapply Forall_impl; [|exact F]; cbv beta; tauto]|]. split; [eapply Forall_impl; [|exact F]; cbv beta; tauto|]. split.
    + destruct (contains ", Target: " (pattern_str p)) eqn:K; auto. exfalso.
      assert (K' : contains ", Target: " (subgroup_str (SG p t)) = true) by (unfold subgroup_str; cbn [g_desc]; apply contains_after, contains_before, K).
      destruct (split_first ", Target: " (pattern_str p ++ ", Target: " ++ sel_str t) "Description: " ltac:(discriminate)) as (x & l & Ex & r & Er); [apply contains_before, K|].
      assert (Q : split_aux ", Target: " 0 "" (subgroup_str (SG p t)) = split_aux ", Target: " 0 "Description: " (pattern_str p ++ ", Target: " ++ sel_str t)).
      { unfold subgroup_str. cbn [g_desc g_target]. generalize (pattern_str p ++ ", Target: " ++ sel_str t). intros z. reflexivity. }
      unfold py_split in S. rewrite Q, Ex in S. assert (Ed : d = "Description: " ++ x) by congruence. subst d.
      change (drop_str 13 ("Description: " ++ x)) with x in P.
      (* x is the part before the first occurrence, so it ends within the pattern *)
      destruct (contains_split _ _ K) as (u & v & Ev).
      assert (Lx : exists y, pattern_str p = x ++ ", Target: " ++ y).
      { pose proof (split_first ", Target: " (pattern_str p) "Description: " ltac:(discriminate) K) as (x' & l' & Ex' & r' & Er').
        assert (X : x = x').
        { assert (G : forall s cur t1 x1 l1 x2 l2, contains ", Target: " s = true -> split_aux ", Target: " 0 cur (s ++ t1) = (cur ++ x1) :: l1 -> split_aux ", Target: " 0 cur s = (cur ++ x2) :: l2 -> x1 = x2).
          { clear. induction s as [|c s IH]; intros cur t1 x1 l1 x2 l2 K A B; [discriminate K|].
            assert (W : forall y z, cur ++ y = cur ++ z -> y = z). { clear. induction cur as [|e cur IH]; intros y z H; auto. cbn in H. injection H as H. auto. }
            change (String c s ++ t1) with (String c (s ++ t1)) in A. cbn [split_aux] in A, B. destruct (String.prefix ", Target: " (String c s)) eqn:Pf.
            - change (String c (s ++ t1)) with (String c s ++ t1) in A. rewrite (prefix_app_r _ _ t1 Pf) in A. injection A as A _. injection B as B _. apply W. congruence.
            - cbn [contains] in K. rewrite Pf in K. cbn [orb] in K.
              destruct (String.prefix ", Target: " (String c (s ++ t1))) eqn:Pf'.
              + exfalso. clear -Pf Pf' K. destruct (contains_split _ _ K) as (u & v & ->).
                change (String c ((u ++ ", Target: " ++ v) ++ t1)) with (String c (u ++ ", Target: " ++ v) ++ t1) in Pf'.
                assert (Z : String c ((u ++ ", Target: " ++ v)) ++ t1 = (String c u) ++ String "," (" Target: " ++ v ++ t1)).
                { cbn [append]. f_equal. rewrite !app_assoc_str. reflexivity. }
                rewrite Z in Pf'. cbn [append String.prefix] in Pf'. destruct (ascii_dec "," c) as [<-|]; [|discriminate].
                apply (prefix_cut "," (" Target: " ++ v ++ t1) " Target: " u eq_refl) in Pf'.
                apply (prefix_app_r _ _ (", Target: " ++ v)) in Pf'. cbn [String.prefix] in Pf. destruct (ascii_dec "," ",") as [_|NN]; [|congruence]. congruence.
              + destruct (split_first ", Target: " s (cur ++ String c "") ltac:(discriminate) K) as (x3 & l3 & E3 & _).
                destruct (split_first ", Target: " (s ++ t1) (cur ++ String c "") ltac:(discriminate) (contains_before _ _ _ K)) as (x4 & l4 & E4 & _).
                assert (x4 = x3) by (eapply IH; [exact K|exact E4|exact E3]). subst x4. rewrite E3 in B. rewrite E4 in A. rewrite app_assoc_str in A, B. injection A as A _. injection B as B _.
                apply W in A, B. congruence. }
          eapply G; [exact K|exact Ex|exact Ex']. }
        subst x'. exists r'. exact Er'. }
      destruct Lx as (y & Ey). exact (pattern_cut p q x y Qp Ey P).
    + apply (sel_eq_clean ", Target: " t0 t target_separator Qt). apply (parse_clean ", Target: " tg t0 target_separator T). inversion C as [|? ? _ C']; subst. inversion C'; subst. assumption.
  - intros (A & B & C & D). exists g. split; [apply subgroup_parse_str; auto|]. unfold subgroup_eq. rewrite pattern_eq_same, sel_eq_refl. reflexivity.
Qed.

(** * The pool, for any set of selectors *)
Section Pool.
  Variable T : selector -> Prop.
  Definition valid (s : selector) : Prop := mk_selector (s_attr s) (s_op s) (s_val s) = Ok s.
  Definition asks (evs : list pool_event) : Prop := forall a o v, In (EvNew a o v) evs -> T (Sel a o v).
  Definition apart : Prop := forall s t, T s -> T t -> valid s -> valid t -> sel_str s = sel_str t -> s = t.
  Definition pinv (p : pool) : Prop :=
    (forall k ob, In (k, ob) (p_dict p) -> k = sel_str (o_sel ob) /\ T (o_sel ob) /\ valid (o_sel ob) /\ o_id ob < p_next p) /\
    (forall k ob k' ob', In (k, ob) (p_dict p) -> In (k', ob') (p_dict p) -> o_id ob = o_id ob' -> k = k' /\ ob = ob') /\
    NoDup (map fst (p_dict p)).
  Hypothesis HA : apart.
  Lemma new_inv : forall p a o v, pinv p -> T (Sel a o v) -> pinv (fst (selector_new p a o v)) /\
    match mk_selector a o v with
    | Ok s => s = Sel a o v /\ exists ob, snd (selector_new p a o v) = Ok ob /\ o_sel ob = s /\ In (sel_str s, ob) (p_dict (fst (selector_new p a o v)))
    | Err e => snd (selector_new p a o v) = Err e
    end.
  Proof.
    intros p a o v HI HT. pose proof HI as (I1 & I2 & I3). unfold selector_new.
    destruct (mk_selector a o v) as [s|e] eqn:Emk; [|split; [exact HI|reflexivity]].
    pose proof (mk_selector_ok _ _ _ _ Emk) as Es.
    assert (Hkey : pool_key a o v = sel_str s) by (rewrite Es; reflexivity).
    assert (Hv : valid s) by (rewrite Es in *; exact Emk). assert (Ts : T s) by (rewrite Es; exact HT).
    destruct (dict_get (pool_key a o v) (p_dict p)) as [ob|] eqn:Eg; cbn [fst snd].
    - split; [exact HI|]. split; [exact Es|]. exists ob. split; [reflexivity|]. apply dict_get_in in Eg. rewrite Hkey in Eg. split; [|assumption].
      destruct (I1 _ _ Eg) as (K1 & K2 & K3 & K4). symmetry. apply HA; auto.
    - rewrite Hkey in Eg. split; [|split; [exact Es|exists (Obj (p_next p) s); rewrite Hkey; split; [reflexivity|split; [reflexivity|now left]]]].
      split; [|split]; cbn [p_dict p_next].
      + intros k ob [E|Hin].
        * inversion E as [[E1 E2]]. cbn [o_sel o_id]. rewrite Hkey in E1. split; [now symmetry|]. split; [assumption|]. split; [assumption|lia].
        * destruct (I1 _ _ Hin) as (K1 & K2 & K3 & K4). split; [assumption|]. split; [assumption|]. split; [assumption|lia].
      + intros k ob k' ob' [E|Hin] [E'|Hin'] Hid.
        * split; congruence.
        * inversion E as [[E1 E2]]. rewrite <- E2 in Hid. cbn [o_id] in Hid. destruct (I1 _ _ Hin') as (_ & _ & _ & K4). lia.
        * inversion E' as [[E1 E2]]. rewrite <- E2 in Hid. cbn [o_id] in Hid. destruct (I1 _ _ Hin) as (_ & _ & _ & K4). lia.
        * now apply (I2 k ob k' ob').
      + cbn [map fst]. rewrite Hkey. constructor; [now apply dict_get_none|assumption].
  Qed.
  Lemma collect_inv : forall p i, pinv p -> pinv (selector_collect p i).
  Proof.
    intros p i (I1 & I2 & I3). unfold selector_collect. split; [|split]; cbn [p_dict p_next].
    - intros k ob H. apply filter_In in H. apply I1. tauto.
    - intros k ob k' ob' H H' E. apply filter_In in H, H'. apply I2; tauto.
    - clear I1 I2. induction (p_dict p) as [|[k ob] d IH]; cbn [filter map fst snd] in *; [constructor|]. inversion I3 as [|? ? Hni Hn]; subst.
      destruct (negb (o_id ob =? i)%nat); cbn [map fst]; [|now apply IH]. constructor; [|now apply IH].
      intro H. apply Hni. apply in_map_iff in H. destruct H as (x & E & Hx). apply filter_In in Hx. apply in_map_iff. exists x. tauto.
  Qed.
  Lemma asks_cons : forall e evs, asks (e :: evs) <-> match e with EvNew a o v => T (Sel a o v) | EvCollect _ => True end /\ asks evs.
  Proof.
    intros e evs. unfold asks. split.
    - intros H. split; [destruct e; auto; apply H; left; auto|]. intros a o v I. apply H. right. exact I.
    - intros [H1 H2] a o v [->|I]; auto.
  Qed.
  Lemma run_inv : forall evs p, pinv p -> asks evs -> pinv (fold_left pool_step evs p).
  Proof.
    induction evs as [|e evs IH]; intros p HI He; cbn [fold_left]; [assumption|]. apply asks_cons in He. destruct He as [H1 H2]. apply IH; [|assumption].
    destruct e as [a o v|i]; cbn [pool_step]; [exact (proj1 (new_inv p a o v HI H1))|now apply collect_inv].
  Qed.
  Lemma empty_inv : pinv empty_pool.
  Proof. split; [|split]; cbn; [intros k ob []|intros k ob k' ob' []|constructor]. Qed.
  Lemma kept : forall evs p k ob, Forall (fun e => ~ collects (o_id ob) e) evs -> In (k, ob) (p_dict p) -> In (k, ob) (p_dict (fold_left pool_step evs p)).
  Proof.
    induction evs as [|e evs IH]; intros p k ob Hnc Hin; cbn [fold_left]; [assumption|]. inversion Hnc; subst. apply IH; try assumption.
    destruct e as [a o v|j]; cbn [pool_step] in *.
    - unfold selector_new. destruct (mk_selector a o v); [|assumption]. destruct (dict_get (pool_key a o v) (p_dict p)); [assumption|now right].
    - apply filter_In. split; [assumption|]. cbn [snd]. apply Bool.negb_true_iff, Nat.eqb_neq. intros E. apply H1. cbn. congruence.
  Qed.
  Lemma new_identity : forall evs a o v evs' ob, asks evs -> T (Sel a o v) -> snd (selector_new (pool_after evs) a o v) = Ok ob ->
    asks evs' -> Forall (fun e => ~ collects (o_id ob) e) evs' -> forall a' o' v', T (Sel a' o' v') ->
    forall ob', snd (selector_new (pool_after (evs ++ EvNew a o v :: evs')) a' o' v') = Ok ob' ->
    (o_id ob' = o_id ob <-> Sel a' o' v' = Sel a o v).
  Proof.
    intros evs a o v evs' ob He HT Hob He' Hnc a' o' v' HT' ob' Hob'.
    set (later := pool_after (evs ++ EvNew a o v :: evs')) in *.
    assert (HI : pinv (pool_after evs)) by (apply run_inv; auto using empty_inv).
    destruct (new_inv _ a o v HI HT) as [HI2 H].
    destruct (mk_selector a o v) as [s|e] eqn:E; [|rewrite H in Hob; discriminate].
    destruct H as (Es & ob0 & Hob0 & Hs & Hin). rewrite Hob in Hob0. inversion Hob0; subst ob0. clear Hob0.
    assert (Hlater : later = fold_left pool_step evs' (pool_step (pool_after evs) (EvNew a o v))) by (unfold later, pool_after; now rewrite fold_left_app).
    assert (HIl : pinv later) by (rewrite Hlater; apply run_inv; assumption).
    assert (Hinl : In (sel_str s, ob) (p_dict later)) by (rewrite Hlater; apply kept; assumption).
    destruct (new_inv later a' o' v' HIl HT') as [HI3 H3].
    destruct (mk_selector a' o' v') as [s'|e] eqn:E'; [|rewrite H3 in Hob'; discriminate].
    destruct H3 as (Es' & ob1 & Hob1 & Hs1 & Hin1). rewrite Hob' in Hob1. inversion Hob1; subst ob1. clear Hob1.
    assert (Hinl' : In (sel_str s, ob) (p_dict (fst (selector_new later a' o' v')))).
    { unfold selector_new. rewrite E'. destruct (dict_get (pool_key a' o' v') (p_dict later)); [assumption|now right]. }
    destruct HI3 as (_ & J2 & J3). split.
    - intros Hid. destruct (J2 _ _ _ _ Hin1 Hinl' Hid) as [_ Hob1]. congruence.
    - intros Eq. assert (s' = s) by congruence. subst s'.
      pose proof (dict_get_nodup _ _ _ J3 Hin1). pose proof (dict_get_nodup _ _ _ J3 Hinl'). congruence.
  Qed.
End Pool.
Lemma pool_exact : forall T, (forall evs a o v ob, asks T evs -> T (Sel a o v) -> snd (selector_new (pool_after evs) a o v) = Ok ob -> o_sel ob = Sel a o v) <-> apart T.
Proof.
  intros T. split.
  - intros H s t Ts Tt Vs Vt E. destruct s as [a o v], t as [a' o' v'].
    pose proof (H [EvNew a o v] a' o' v' (Obj 0 (Sel a o v))) as K. cbn [o_sel] in K. apply K.
    + intros x y z [X|[]]. injection X as <- <- <-. exact Ts.
    + exact Tt.
    + unfold valid in Vs, Vt. cbn [s_attr s_op s_val] in Vs, Vt. unfold sel_str in E. cbn [s_attr s_op s_val] in E.
      cbn [pool_after fold_left pool_step]. unfold selector_new at 2. rewrite Vs. cbn [empty_pool p_dict dict_get fst]. unfold selector_new. rewrite Vt. unfold pool_key. cbn [p_dict dict_get]. rewrite <- E, String.eqb_refl. reflexivity.
  - intros HA evs a o v ob He HT E. destruct (new_inv T HA (pool_after evs) a o v (run_inv T HA evs _ (empty_inv T) He) HT) as [_ H].
    destruct (mk_selector a o v) as [s|e]; [|rewrite H in E; discriminate]. destruct H as (Es & ob0 & E0 & Hs & _). congruence.
Qed.

(** * Hashes *)
Lemma hash_exact : forall s t, wf_value (s_val s) -> wf_value (s_val t) -> sel_eq s t = true ->
  ((forall h, sel_hash h s = sel_hash h t) <-> same_type (s_val s) (s_val t)).
Proof.
  intros s t Ws Wt E. split.
  - intros H. specialize (H (fun x => if String.eqb x (sel_str s) then 0%Z else 1%Z)). unfold sel_hash in H. rewrite String.eqb_refl in H.
    destruct (String.eqb (sel_str t) (sel_str s)) eqn:K; [|discriminate]. apply String.eqb_eq in K.
    unfold sel_eq in E. apply Bool.andb_true_iff in E. destruct E as [E Ev]. apply Bool.andb_true_iff in E. destruct E as [Ea Eo].
    apply String.eqb_eq in Ea. apply Nat.eqb_eq, op_value_inj in Eo.
    destruct s as [a o v], t as [a' o' v']. cbn in *. subst a' o'. unfold sel_str in K. cbn [s_attr s_op s_val] in K.
    assert (Q : quoted v' = quoted v). { clear -K. revert K. assert (W : forall c y z : string, c ++ y = c ++ z -> y = z) by (induction c as [|e c IH]; intros y z H; auto; cbn in H; injection H as H; auto).
      intros K. apply W in K. injection K as K. apply W in K. injection K as K. exact K. }
    destruct v as [x|z|m e], v' as [x'|z'|m' e']; cbn; auto; try discriminate Ev.
    + exfalso. cbn [quoted py_str] in Q. assert (D : has_char "." (str_of_Z z) = false) by (rewrite str_of_Z_sign, has_char_app, (all_digits_no_char "." _ eq_refl (str_of_N_digits _)); destruct (z <? 0)%Z; reflexivity).
      rewrite <- Q in D. unfold str_of_float in D. rewrite !has_char_app in D. cbn [has_char] in D. rewrite Ascii.eqb_refl in D. cbn [orb] in D. rewrite !Bool.orb_true_r in D. discriminate.
    + exfalso. cbn [quoted py_str] in Q. assert (D : has_char "." (str_of_Z z') = false) by (rewrite str_of_Z_sign, has_char_app, (all_digits_no_char "." _ eq_refl (str_of_N_digits _)); destruct (z' <? 0)%Z; reflexivity).
      rewrite Q in D. unfold str_of_float in D. rewrite !has_char_app in D. cbn [has_char] in D. rewrite Ascii.eqb_refl in D. cbn [orb] in D. rewrite !Bool.orb_true_r in D. discriminate.
  - intros H h. apply hash_same; auto.
Qed.

(** * KeyError of is_contained and filter *)
Open Scope list_scope.
(** The evaluation of [p] on [df] reaches its selector [s]: the earlier ones can be evaluated and some row matches all of them. *)
Definition reached (df : dataframe) (p : list selector) (s : selector) : Prop :=
  exists l1 l2 i, p = l1 ++ s :: l2 /\ i < df_n df /\ forall t, In t l1 -> evaluable df t /\ row_matches df i t.
Lemma map_res_err : forall {A B} (f : A -> res B) l e, map_res f l = Err e -> exists x, In x l /\ f x = Err e.
Proof.
  intros A B f. induction l as [|x l IH]; intros e H; simpl in H; [discriminate|].
  destruct (f x) as [y|e'] eqn:E; cbn [bind] in H.
  - destruct (map_res f l) as [ys|e2] eqn:El; cbn [bind] in H; [discriminate|].
    destruct (IH e H) as (z & Hz & Ez). exists z. split; [now right|assumption].
  - exists x. split; [now left|congruence].
Qed.
Lemma evaluate_only_type_error : forall o v w e, op_evaluate o v w = Err e -> e = TypeError.
Proof. intros o v w e H. destruct o, v, w; cbn in H; congruence. Qed.
Lemma contained_loop_err : forall df l acc e, wf_df df -> length acc = df_n df -> contained_loop df acc l = Err e ->
  exists l1 s l2 i, l = l1 ++ s :: l2 /\ i < df_n df /\ nth i acc false = true /\
    (forall t, In t l1 -> evaluable df t /\ row_matches df i t) /\
    (e = KeyError /\ ~ has_column df (s_attr s) \/ e = TypeError /\ has_column df (s_attr s) /\ ~ evaluable df s).
Proof.
  intros df. induction l as [|s l IH]; intros acc e Hwf Hlen H; simpl in H; [destruct (any_true acc); discriminate|].
  destruct (any_true acc) eqn:Ea; [|discriminate].
  unfold df_col in H. destruct (col_get (df_cols df) (s_attr s)) as [c|] eqn:Ec; cbn [bind] in H.
  - unfold op_evaluate_series in H. destruct (map_res (fun x => op_evaluate (s_op s) x (s_val s)) c) as [ms|e'] eqn:Em; cbn [bind] in H.
    + destruct (series_row df s c ms Hwf Ec Em) as [Hml Hmr].
      destruct (IH (series_and acc ms) e Hwf) as (l1 & t & l2 & i & El & Hi & Hacc & Hl1 & He); [rewrite series_and_length; congruence|assumption|].
      rewrite nth_series_and in Hacc by congruence. apply Bool.andb_true_iff in Hacc. destruct Hacc as [Ha Hm].
      exists (s :: l1), t, l2, i. split; [now rewrite El|]. split; [assumption|]. split; [assumption|]. split; [|assumption].
      intros u [<-|Hu]; [|now apply Hl1]. split.
      * exists c. split; [assumption|]. intros v Hv. apply map_res_ok in Em. clear -Em Hv. induction Em as [|x y c ms E Em IH]; [destruct Hv|]. destruct Hv as [<-|Hv]; [now exists y|auto].
      * apply row_matchesb_spec. rewrite <- (Hmr i Hi). exact Hm.
    + unfold any_true in Ea. apply existsb_exists in Ea. destruct Ea as (b & Hb & ->). apply (In_nth _ _ false) in Hb. destruct Hb as (i & Hi & Hn).
      exists [], s, l, i. split; [reflexivity|]. split; [congruence|]. split; [assumption|]. split; [intros t []|]. right.
      injection H as <-. destruct (map_res_err _ _ _ Em) as (x & Hx & Ex). split; [eapply evaluate_only_type_error; exact Ex|].
      split; [now exists c|]. intros (c' & Hc' & Hev). destruct (Hev x) as [b Hb]; [congruence|]. congruence.
  - unfold any_true in Ea. apply existsb_exists in Ea. destruct Ea as (b & Hb & ->). apply (In_nth _ _ false) in Hb. destruct Hb as (i & Hi & Hn).
    exists [], s, l, i. split; [reflexivity|]. split; [congruence|]. split; [assumption|]. split; [intros t []|]. left.
    split; [congruence|]. intros (c & Hc). congruence.
Qed.
Lemma contained_loop_typeerror : forall df l1 s l2 i acc, wf_df df -> length acc = df_n df ->
  i < df_n df -> nth i acc false = true -> (forall t, In t l1 -> evaluable df t /\ row_matches df i t) ->
  has_column df (s_attr s) -> ~ evaluable df s -> contained_loop df acc (l1 ++ s :: l2) = Err TypeError.
Proof.
  induction l1 as [|t l1 IH]; intros s l2 i acc Hwf Hlen Hi Hacc Hl1 Hs Hn.
  - assert (Ha : any_true acc = true). { destruct (any_true acc) eqn:E; [reflexivity|]. rewrite (any_true_false _ E i) in Hacc. discriminate. }
    cbn [List.app contained_loop]. rewrite Ha. unfold df_col. destruct Hs as (c & Hc). rewrite Hc. cbn [bind]. unfold op_evaluate_series.
    destruct (map_res (fun x => op_evaluate (s_op s) x (s_val s)) c) as [ms|e'] eqn:Em; cbn [bind].
    + exfalso. apply Hn. exists c. split; [assumption|]. intros v Hv. apply map_res_ok in Em. clear -Em Hv. induction Em as [|x y c ms E Em IH]; [destruct Hv|]. destruct Hv as [<-|Hv]; [now exists y|auto].
    + destruct (map_res_err _ _ _ Em) as (x & Hx & Ex). f_equal. eapply evaluate_only_type_error; exact Ex.
  - assert (Ha : any_true acc = true). { destruct (any_true acc) eqn:E; [reflexivity|]. rewrite (any_true_false _ E i) in Hacc. discriminate. }
    cbn [List.app contained_loop]. rewrite Ha. destruct (Hl1 t (or_introl eq_refl)) as [(c & Hc & Hev) Hrow]. unfold df_col. rewrite Hc. cbn [bind].
    destruct (map_res_total (fun x => op_evaluate (s_op t) x (s_val t)) c Hev) as [ms Hms].
    unfold op_evaluate_series. rewrite Hms. cbn [bind].
    destruct (series_row df t c ms Hwf Hc Hms) as [Hml Hmr].
    apply (IH s l2 i); try assumption.
    + rewrite series_and_length; congruence.
    + rewrite nth_series_and by congruence. rewrite Hacc, (Hmr i Hi). apply row_matchesb_spec. assumption.
    + intros u Hu. apply Hl1. now right.
Qed.
Lemma is_contained_exact : forall p df, wf_df df ->
  (is_contained p df = Err KeyError <-> exists s, reached df p s /\ ~ has_column df (s_attr s)) /\
  (is_contained p df = Err TypeError <-> exists s, reached df p s /\ has_column df (s_attr s) /\ ~ evaluable df s) /\
  (forall e, is_contained p df = Err e -> e = KeyError \/ e = TypeError).
Proof.
  intros p df Hwf. assert (A : forall e, is_contained p df = Err e -> exists s, reached df p s /\
     (e = KeyError /\ ~ has_column df (s_attr s) \/ e = TypeError /\ has_column df (s_attr s) /\ ~ evaluable df s)).
  { intros e H. destruct (contained_loop_err df p _ e Hwf (repeat_length true _) H) as (l1 & s & l2 & i & E & Hi & _ & Hl1 & He).
    exists s. split; [exists l1, l2, i; auto|assumption]. }
  split; [|split].
  - split.
    + intros H. destruct (A _ H) as (s & Hr & [[_ Hc]|[X _]]); [exists s; auto|discriminate].
    + intros (s & (l1 & l2 & i & E & Hi & Hl1) & Hc). rewrite E. eapply is_contained_keyerror; eauto.
  - split.
    + intros H. destruct (A _ H) as (s & Hr & [[X _]|[_ Hc]]); [discriminate|exists s; tauto].
    + intros (s & (l1 & l2 & i & E & Hi & Hl1) & Hc & Hn). rewrite E. apply (contained_loop_typeerror df l1 s l2 i); auto; [apply repeat_length|now apply nth_repeat_true].
  - intros e H. destruct (A _ H) as (s & _ & [[X _]|[X _]]); auto.
Qed.
Lemma filter_exact : forall g df, wf_df df ->
  (subgroup_filter g df = Err KeyError <->
     ~ has_column df (s_attr (g_target g)) \/
     has_column df (s_attr (g_target g)) /\
     exists l1 s l2 i, g_desc g = l1 ++ s :: l2 /\ i < df_n df /\
       (s_attr s = s_attr (g_target g) \/ ~ has_column df (s_attr s)) /\
       (forall t, In t l1 -> s_attr t <> s_attr (g_target g) /\ evaluable df t /\ row_matches df i t)).
Proof.
  intros g df Hwf. unfold subgroup_filter. destruct (col_get (df_cols df) (s_attr (g_target g))) as [tc|] eqn:Et.
  2:{ unfold df_drop. rewrite Et. cbn [bind]. split; [|reflexivity]. intros _. left. intros (c & Hc). congruence. }
  assert (Ht : has_column df (s_attr (g_target g))) by now exists tc.
  destruct (df_drop df (s_attr (g_target g))) as [rest|] eqn:Er; [|unfold df_drop in Er; rewrite Et in Er; discriminate].
  cbn [bind]. unfold df_col at 1. rewrite Et. cbn [bind].
  assert (Hr : rest = DF (df_n df) (filter (fun c => negb (String.eqb (s_attr (g_target g)) (fst c))) (df_cols df))).
  { unfold df_drop in Er. rewrite Et in Er. congruence. }
  assert (Wr : wf_df rest). { rewrite Hr. intros x d Hin. simpl in *. apply filter_In in Hin. apply (Hwf x). tauto. }
  assert (Nr : df_n rest = df_n df) by now rewrite Hr.
  assert (G : forall a, col_get (df_cols rest) a = if String.eqb (s_attr (g_target g)) a then None else col_get (df_cols df) a).
  { intros a. rewrite Hr. cbn [df_cols]. now rewrite col_get_filter. }
  assert (Hcol : forall a, has_column rest a <-> s_attr (g_target g) <> a /\ has_column df a).
  { intros a. unfold has_column. rewrite G. destruct (String.eqb_spec (s_attr (g_target g)) a) as [E|E]; split.
    - intros (c & X); discriminate.
    - tauto.
    - intros X; auto.
    - tauto. }
  assert (Hev : forall s, evaluable rest s <-> s_attr (g_target g) <> s_attr s /\ evaluable df s).
  { intros s. unfold evaluable. rewrite G. destruct (String.eqb_spec (s_attr (g_target g)) (s_attr s)) as [E|E]; split.
    - intros (c & X & _); discriminate.
    - tauto.
    - intros X; auto.
    - tauto. }
  assert (Hrow : forall i s, s_attr (g_target g) <> s_attr s -> (row_matches rest i s <-> row_matches df i s)).
  { intros i s E. rewrite <- !row_matchesb_spec, (row_matchesb_drop df rest _ i s Er). apply String.eqb_neq in E. rewrite E. tauto. }
  destruct (is_contained_exact (g_desc g) rest Wr) as (K & _ & _).
  assert (R : (exists s, reached rest (g_desc g) s /\ ~ has_column rest (s_attr s)) <->
    exists l1 s l2 i, g_desc g = l1 ++ s :: l2 /\ i < df_n df /\ (s_attr s = s_attr (g_target g) \/ ~ has_column df (s_attr s)) /\
       (forall t, In t l1 -> s_attr t <> s_attr (g_target g) /\ evaluable df t /\ row_matches df i t)).
  { split.
    - intros (s & (l1 & l2 & i & E & Hi & Hl) & Hn). exists l1, s, l2, i. rewrite Nr in Hi. split; [assumption|]. split; [assumption|]. split.
      + rewrite Hcol in Hn. destruct (String.eqb_spec (s_attr s) (s_attr (g_target g))) as [X|X]; [now left|]. right. intros Y. apply Hn. split; [congruence|assumption].
      + intros t Hin. destruct (Hl t Hin) as [L1 L2]. apply Hev in L1. destruct L1 as [L1 L3]. split; [congruence|]. split; [assumption|]. apply (Hrow i t L1). exact L2.
    - intros (l1 & s & l2 & i & E & Hi & Hs & Hl). exists s. split.
      + exists l1, l2, i. split; [assumption|]. split; [congruence|]. intros t Hin. destruct (Hl t Hin) as (L1 & L2 & L3). split; [apply Hev; split; [congruence|assumption]|apply Hrow; [congruence|assumption]].
      + rewrite Hcol. intros [X Y]. destruct Hs; [congruence|contradiction]. }
  destruct (is_contained (g_desc g) rest) as [d|e] eqn:Ed; cbn [bind].
  - split.
    + destruct (op_evaluate_series (s_op (g_target g)) tc (s_val (g_target g))) as [t|e] eqn:Eo; cbn [bind]; [discriminate|].
      intros X. injection X as ->. unfold op_evaluate_series in Eo. destruct (map_res_err _ _ _ Eo) as (x & _ & Ex). apply evaluate_only_type_error in Ex. discriminate.
    + intros [X|[_ X]]; [contradiction|]. apply R, K in X. discriminate.
  - split.
    + intros X. right. split; [assumption|]. apply R, K. injection X as ->. reflexivity.
    + intros [X|[_ X]]; [contradiction|]. apply R, K in X. injection X as ->. reflexivity.
Qed.
