(** Theorem C72: the texts of the vertical lists. *)
From Verif Require Import VerticalText VerticalSpec VerticalProofs OrderFacts CoreText FileProofs FileLoad Properties_Structures.
From Coq Require Import Sorting.Sorted.
Open Scope list_scope.
Open Scope nat_scope.
Open Scope string_scope.

(** What one expects to read: the elements separated by ", " between brackets. *)
Definition bracketed (ts : list string) : string := "[" ++ String.concat ", " ts ++ "]".
(** The number of a row in decimal, and a list of rows in ascending order. *)
Definition decimal (i : nat) : string := str_of_Z (Z.of_nat i).
Definition ascending (l : list nat) : Prop := StronglySorted lt l.
(** The text for these rows. *)
Definition expected {V} (show : V -> string) (sels : list selector) (q : V) (tp fp : list nat) : string :=
  "List of selectors: " ++ bracketed (map sel_str sels) ++ ", Sequence of instances (tp): " ++ bracketed (map decimal tp) ++
  ", Sequence of instances (fp): " ++ bracketed (map decimal fp) ++ ", Quality value: " ++ show q.

(** * The lists in brackets *)
Lemma cut_end_app : forall s t, cut_end (String.length t) (s ++ t) = s.
Proof. intros s t. unfold cut_end. rewrite length_app_str. replace (String.length s + String.length t - String.length t) with (String.length s) by lia. induction s as [|c s IH]; cbn [append String.length substring]; [destruct t; reflexivity|]. rewrite IH. reflexivity. Qed.
Lemma app_empty : forall s, s ++ "" = s.
Proof. induction s as [|c s IH]; cbn [append]; congruence. Qed.
Lemma open_app : forall ts acc, fold_left (fun acc t => acc ++ t ++ ", ") ts acc = acc ++ String.concat "" (map (fun t => t ++ ", ") ts).
Proof.
  induction ts as [|t ts IH]; intros acc; cbn [fold_left map]; [cbn [String.concat]; rewrite app_empty; reflexivity|]. rewrite IH, concat_cons, !app_assoc_str. reflexivity.
Qed.
Lemma open_list_concat : forall t ts, open_list (t :: ts) = ("[" ++ String.concat ", " (t :: ts)) ++ ", ".
Proof.
  intros t ts. unfold open_list. rewrite open_app, app_assoc_str. f_equal. revert t. induction ts as [|t' ts IH]; intros t; [reflexivity|]. cbn [map] in *. rewrite concat_cons, IH.
  change (String.concat ", " (t :: t' :: ts)) with (t ++ ", " ++ String.concat ", " (t' :: ts)). rewrite !app_assoc_str. reflexivity.
Qed.
Lemma selectors_text_ok : forall l, selectors_text l = bracketed (map sel_str l).
Proof.
  intros l. unfold selectors_text, bracketed. destruct l as [|s l]; [reflexivity|]. cbn [length Nat.eqb map]. rewrite open_list_concat. change 2 with (String.length ", "). rewrite cut_end_app, app_assoc_str. reflexivity.
Qed.
Lemma ends_in_app : forall c s, ends_in c (s ++ String c "") = true.
Proof. intros c s. unfold ends_in. rewrite last_char_app. apply Ascii.eqb_refl. Qed.
Lemma numbers_text_ok : forall l, numbers_text l = bracketed (map decimal l).
Proof.
  intros l. unfold numbers_text, bracketed. destruct l as [|i l]; [reflexivity|]. change (map str_of_nat (i :: l)) with (map decimal (i :: l)). cbn [map]. rewrite open_list_concat.
  set (s := "[" ++ String.concat ", " (decimal i :: map decimal l)). assert (E : s ++ ", " = (s ++ ",") ++ " ") by (rewrite app_assoc_str; reflexivity).
  assert (C1 : cut_end 1 (s ++ ", ") = s ++ ",") by (rewrite E; exact (cut_end_app (s ++ ",") " ")). assert (C2 : cut_end 2 (s ++ ", ") = s) by exact (cut_end_app s ", ").
  assert (C0 : ends_in " " (s ++ ", ") = true) by (rewrite E; apply ends_in_app). rewrite C0, C1, C2, ends_in_app. cbn [andb]. unfold s. rewrite app_assoc_str. reflexivity.
Qed.
Lemma vertical_text_ok : forall V (show : V -> string) sels tp fp q, vertical_text show sels tp fp q = expected show sels q tp fp.
Proof. intros. unfold vertical_text, expected. rewrite selectors_text_ok, !numbers_text_ok. reflexivity. Qed.

(** * The rows *)
Lemma set_bits_in : forall b k i, In i (set_bits k b) <-> k <= i /\ nth (i - k) b false = true.
Proof.
  induction b as [|x b IH]; intros k i; cbn [set_bits]; [split; [intros []|intros [_ H]; destruct (i - k); discriminate]|].
  assert (K : In i (set_bits (S k) b) <-> S k <= i /\ nth (i - k) (x :: b) false = true).
  { rewrite IH. split; intros [H1 H2]; split; auto; replace (i - k) with (S (i - S k)) in * by lia; exact H2. }
  destruct x; cbn [In]; rewrite K; split.
  - intros [<-|[H1 H2]]; [rewrite Nat.sub_diag; split; [lia|reflexivity]|split; [lia|auto]].
  - intros [H1 H2]. destruct (Nat.eq_dec k i); [left; auto|right; split; [lia|auto]].
  - intros [H1 H2]. split; [lia|auto].
  - intros [H1 H2]. split; auto. destruct (Nat.eq_dec k i); [subst; rewrite Nat.sub_diag in H2; discriminate|lia].
Qed.
Lemma set_bits_ascending : forall b k, ascending (set_bits k b).
Proof.
  induction b as [|x b IH]; intros k; cbn [set_bits]; [constructor|]. destruct x; auto. constructor; [apply IH|]. apply Forall_forall. intros i H. apply set_bits_in in H. lia.
Qed.
Lemma insert_sorted : forall x l, StronglySorted le l -> StronglySorted le (insert_by Nat.ltb x l).
Proof.
  induction l as [|y l IH]; intros H; cbn [insert_by]; [repeat constructor|]. inversion H as [|? ? H1 H2]; subst. destruct (Nat.ltb_spec y x) as [L|L].
  - constructor; auto. apply Forall_forall. intros z Iz. apply (Permutation_in z (Permutation_sym (insert_by_perm Nat.ltb x l))) in Iz. rewrite Forall_forall in H2. destruct Iz as [<-|Iz]; [lia|auto].
  - constructor; auto. constructor; auto. eapply Forall_impl; [|exact H2]. intros; lia.
Qed.
Lemma sort_ascending : forall l, NoDup l -> ascending (sort_by Nat.ltb l).
Proof.
  intros l N. assert (L : StronglySorted le (sort_by Nat.ltb l)) by (clear N; induction l; cbn [sort_by]; [constructor|apply insert_sorted; auto]).
  apply (Permutation_NoDup (sort_by_perm Nat.ltb l)) in N. revert L N. generalize (sort_by Nat.ltb l) as m. induction m as [|x m IH]; intros L N; [constructor|].
  inversion L; inversion N; subst. constructor; [apply IH; auto|]. rewrite Forall_forall in *. intros z Iz. specialize (H2 z Iz). destruct (Nat.eq_dec x z); [subst; contradiction|lia].
Qed.
(** Two ascending lists with the same elements are equal. *)
Lemma ascending_unique : forall a b, ascending a -> ascending b -> (forall i, In i a <-> In i b) -> a = b.
Proof.
  induction a as [|x a IH]; intros b Ha Hb E.
  - destruct b as [|y b]; auto. destruct (proj2 (E y)); left; auto.
  - destruct b as [|y b]; [destruct (proj1 (E x)); left; auto|]. inversion Ha as [|? ? Ha1 Ha2]; inversion Hb as [|? ? Hb1 Hb2]; subst. rewrite Forall_forall in *.
    assert (x = y). { destruct (proj1 (E x) (or_introl eq_refl)) as [|I1]; auto. destruct (proj2 (E y) (or_introl eq_refl)) as [|I2]; auto. specialize (Hb2 _ I1). specialize (Ha2 _ I2). lia. }
    subst y. f_equal. apply IH; auto. intros i. split; intros I.
    + destruct (proj1 (E i) (or_intror I)); auto. subst. specialize (Ha2 _ I). lia.
    + destruct (proj2 (E i) (or_intror I)); auto. subst. specialize (Hb2 _ I). lia.
Qed.

(** * C72 *)
(** The text of a list with sets (of a constructor call or of any joins): the selectors in order, the rows of both sequences in ascending
    order, each of them once, and the quality. *)
Theorem C72_sets : forall V (show : V -> string) (qf : nat -> nat -> res V) e v, ids_in_range e -> eval_sets qf e = Ok (Some v) ->
  exists tp fp, ascending tp /\ ascending fp /\ (forall i, In i tp <-> In i (vl_seq_tp v)) /\ (forall i, In i fp <-> In i (vl_seq_fp v)) /\
    vls_text show v = expected show (vl_sels v) (vl_quality v) tp fp.
Proof.
  intros V show qf e v H E. destruct (eval_rel qf e H) as [x|x y Hx]; [discriminate|]. injection E as ->. inversion Hx as [|a b R]; subst. destruct R as (_ & _ & _ & _ & _ & D1 & D2 & _).
  exists (sort_by Nat.ltb (vl_seq_tp v)), (sort_by Nat.ltb (vl_seq_fp v)). split; [apply sort_ascending; auto|]. split; [apply sort_ascending; auto|]. split; [intros; apply sort_by_in|]. split; [intros; apply sort_by_in|]. apply vertical_text_ok.
Qed.
Print Assumptions C72_sets.
Theorem C72_bitsets : forall V (show : V -> string) (v : vlist (list bool) V),
  exists tp fp, ascending tp /\ ascending fp /\ (forall i, In i tp <-> nth i (vl_seq_tp v) false = true) /\ (forall i, In i fp <-> nth i (vl_seq_fp v) false = true) /\
    vlb_text show v = expected show (vl_sels v) (vl_quality v) tp fp.
Proof.
  intros V show v. exists (set_bits 0 (vl_seq_tp v)), (set_bits 0 (vl_seq_fp v)). split; [apply set_bits_ascending|]. split; [apply set_bits_ascending|].
  split; [|split; [|apply vertical_text_ok]]; intros i; rewrite set_bits_in, Nat.sub_0_r; split; [tauto|split; [lia|auto]|tauto|split; [lia|auto]].
Qed.
Print Assumptions C72_bitsets.
(** Both representations print the same text, whatever was done with them. *)
Definition text_res {S V} (text : vlist S V -> string) (r : res (option (vlist S V))) : res (option string) :=
  match r with Ok (Some v) => Ok (Some (text v)) | Ok None => Ok None | Err x => Err x end.
Theorem C72_same_text : forall V (show : V -> string) (qf : nat -> nat -> res V) e, ids_in_range e ->
  text_res (vls_text show) (eval_sets qf e) = text_res (vlb_text show) (eval_bits qf e).
Proof.
  intros V show qf e H. destruct (eval_rel qf e H) as [x|x y Hx]; [reflexivity|]. destruct Hx as [|a b (S1 & _ & _ & _ & Q1 & D1 & D2 & M1 & M2)]; [reflexivity|].
  cbn [text_res]. do 2 f_equal. unfold vls_text, vlb_text. rewrite S1, Q1. f_equal; (apply ascending_unique; [apply sort_ascending; auto|apply set_bits_ascending|]); intros i; rewrite sort_by_in, set_bits_in, Nat.sub_0_r, ?M1, ?M2; split; try tauto; intros K; split; [lia|auto|lia|auto].
Qed.
Print Assumptions C72_same_text.
(** For the lists that are built from a dataset the rows in the text are those in which all the selectors hold, with the target and
    without it. *)
Theorem C72_dataset : forall V (show : V -> string) df t (qf : nat -> nat -> res V),
  (forall v, built_on df t qf vls_init (vls_join qf) v -> vls_text show v = expected show (vl_sels v) (vl_quality v) (pos_rows df t (vl_sels v)) (neg_rows df t (vl_sels v))) /\
  (forall v, built_on df t qf vlb_init (vlb_join qf) v -> vlb_text show v = expected show (vl_sels v) (vl_quality v) (pos_rows df t (vl_sels v)) (neg_rows df t (vl_sels v))).
Proof.
  assert (A : forall f n k, ascending (filter f (seq k n))).
  { intros f n. induction n as [|n IH]; intros k; cbn [seq filter]; [constructor|]. destruct (f k); [|apply IH]. constructor; [apply IH|]. apply Forall_forall. intros i Hi. apply filter_In in Hi. destruct Hi as [Hi _]. apply in_seq in Hi. lia. }
  intros V show df t qf. split; intros v B.
  - destruct (built_sets_exact df t qf v B) as ((D1 & D2 & M1 & M2) & _). unfold vls_text. rewrite vertical_text_ok. f_equal; (apply ascending_unique; [apply sort_ascending; auto|apply A|]); intros i; rewrite sort_by_in; auto.
  - destruct (built_bits_exact df t qf v B) as ((M1 & M2) & _). unfold vlb_text. rewrite vertical_text_ok. f_equal; (apply ascending_unique; [apply set_bits_ascending|apply A|]); intros i; rewrite set_bits_in, Nat.sub_0_r, <- ?M1, <- ?M2; split; try tauto; intros K; split; [lia|auto|lia|auto].
Qed.
Print Assumptions C72_dataset.
(** The text determines the rows. *)
Lemma cut_first : forall (P : ascii -> Prop) u u' x x', (forall c, P c -> has_char c u = false /\ has_char c u' = false) ->
  (exists c r, x = String c r /\ P c) -> (exists c r, x' = String c r /\ P c) -> u ++ x = u' ++ x' -> u = u' /\ x = x'.
Proof.
  intros P u. induction u as [|a u IH]; intros u' x x' N (c & r & -> & Pc) (c' & r' & -> & Pc') E; destruct u' as [|b u']; cbn [append] in E.
  - auto.
  - injection E as <- _. destruct (N c Pc) as [_ H]. cbn [has_char] in H. rewrite Ascii.eqb_refl in H. discriminate.
  - injection E as -> _. destruct (N c' Pc') as [H _]. cbn [has_char] in H. rewrite Ascii.eqb_refl in H. discriminate.
  - injection E as <- E. destruct (IH u' (String c r) (String c' r')) as [<- F]; eauto.
    intros d Pd. destruct (N d Pd) as [H1 H2]. cbn [has_char] in H1, H2. apply orb_false_iff in H1, H2. tauto.
Qed.
Lemma decimal_no : forall c i, In c ["]"; ","]%char -> has_char c (decimal i) = false.
Proof.
  intros c i H. unfold decimal. rewrite str_of_Z_sign. destruct (Z.ltb_spec (Z.of_nat i) 0) as [L|_]; [lia|]. cbn [append]. pose proof (str_of_N_digits (Z.abs_N (Z.of_nat i))) as D. revert D. generalize (str_of_N (Z.abs_N (Z.of_nat i))) as s.
  induction s as [|d s IH]; intros D; [reflexivity|]. cbn [all_digits] in D. apply andb_true_iff in D. destruct D as [D1 D2]. cbn [has_char]. rewrite IH by auto. rewrite orb_false_r. apply Ascii.eqb_neq. intros <-. destruct H as [<-|[<-|[]]]; discriminate.
Qed.
Lemma decimal_inj : forall i j, decimal i = decimal j -> i = j.
Proof. intros i j E. assert (H : py_int (decimal i) = py_int (decimal j)) by (rewrite E; reflexivity). unfold decimal in H. rewrite !py_int_str in H. injection H as H. lia. Qed.
Lemma decimal_head : forall i r, exists c t, decimal i ++ r = String c t /\ c <> "]"%char.
Proof.
  intros i r. pose proof (decimal_no "]" i (or_introl eq_refl)) as N. destruct (decimal i) as [|c t] eqn:E.
  - assert (H : py_int (decimal i) = None) by (rewrite E; reflexivity). unfold decimal in H. rewrite py_int_str in H. discriminate.
  - exists c, (t ++ r). split; [reflexivity|]. intros ->. discriminate.
Qed.
Lemma bracketed_determines : forall a b r r', bracketed (map decimal a) ++ r = bracketed (map decimal b) ++ r' -> a = b /\ r = r'.
Proof.
  intros a b r r' E. unfold bracketed in E. cbn [append] in E. injection E as E. rewrite !app_assoc_str in E. cbn [append] in E.
  assert (G : forall a b, String.concat ", " (map decimal a) ++ String "]" r = String.concat ", " (map decimal b) ++ String "]" r' -> a = b /\ r = r'); [|auto]. clear a b E.
  induction a as [|x a IH]; intros b E.
  - destruct b as [|y b]; [cbn in E; injection E; auto|]. exfalso. cbn [map String.concat append] in E.
    assert (H : exists t, String "]" r = decimal y ++ t) by (destruct b; cbn [map String.concat] in E; rewrite ?app_assoc_str in E; eauto). destruct H as (t & H). destruct (decimal_head y t) as (c & u & H1 & H2). congruence.
  - destruct b as [|y b].
    + exfalso. cbn [map String.concat append] in E. assert (H : exists t, String "]" r' = decimal x ++ t) by (destruct a; cbn [map String.concat] in E; rewrite ?app_assoc_str in E; eauto). destruct H as (t & H). destruct (decimal_head x t) as (c & u & H1 & H2). congruence.
    + set (P := fun c => In c ["]"; ","]%char). assert (N : forall c, P c -> has_char c (decimal x) = false /\ has_char c (decimal y) = false) by (intros c Pc; split; apply decimal_no; auto).
      assert (X : forall l s, exists c t, (match l with [] => String "]" s | _ => ", " ++ String.concat ", " (map decimal l) ++ String "]" s end) = String c t /\ P c).
      { intros l s. destruct l; [exists "]"%char, s; split; [reflexivity|left; reflexivity]|]. exists ","%char. eexists. split; [reflexivity|right; left; reflexivity]. }
      assert (F : forall l z s, String.concat ", " (map decimal (z :: l)) ++ String "]" s = decimal z ++ match l with [] => String "]" s | _ => ", " ++ String.concat ", " (map decimal l) ++ String "]" s end).
      { intros l z s. destruct l; [reflexivity|]. cbn [map]. change (String.concat ", " (decimal z :: decimal n :: map decimal l)) with (decimal z ++ ", " ++ String.concat ", " (decimal n :: map decimal l)). rewrite !app_assoc_str. reflexivity. }
      rewrite !F in E. destruct (cut_first P _ _ _ _ N (X a r) (X b r') E) as [E1 E2]. apply decimal_inj in E1. subst y.
      destruct a as [|x' a], b as [|y' b].
      * injection E2; auto.
      * discriminate.
      * discriminate.
      * cbn [append] in E2. injection E2 as E2. destruct (IH (y' :: b) E2) as [EE ->]. injection EE as -> ->. auto.
Qed.
Theorem C72_determines : forall V V' (show : V -> string) (show' : V' -> string) sels q q' tp fp tp' fp',
  expected show sels q tp fp = expected show' sels q' tp' fp' -> tp = tp' /\ fp = fp' /\ show q = show' q'.
Proof.
  intros V V' show show' sels q q' tp fp tp' fp' E. unfold expected in E.
  assert (K : forall u a b, u ++ a = u ++ b -> a = b) by (induction u as [|c u IH]; intros a b H; [exact H|injection H; auto]).
  apply K in E. apply K in E. apply K in E. apply bracketed_determines in E. destruct E as [-> E]. apply K in E. apply bracketed_determines in E. destruct E as [-> E]. apply K in E. auto.
Qed.
Print Assumptions C72_determines.

(** * Concrete cases *)
Example C72_nonvacuous :
  let e := VJoin (VJoin (VBase [va] [12; 0; 2] [1] 13 0%nat) (VBase [vb] [2; 12; 3; 3] [1] 13 0) true) (VBase [va] [0; 12; 2] [] 13 0) false in
  ids_in_range e /\ text_res (vls_text decimal) (eval_sets (fun tp fp => Ok (10 * tp + fp)) e) = Ok (Some
    "List of selectors: [a = 'x', b = 'u', a = 'x'], Sequence of instances (tp): [2, 12], Sequence of instances (fp): [], Quality value: 20").
Proof. split; [simpl; repeat split; intros i H; repeat destruct H as [H|H]; lia|vm_compute; reflexivity]. Qed.
Example C72_dataset_nonvacuous : exists v, built_on vdf vt (fun tp fp => Ok (10 * tp + fp)) vlb_init (vlb_join (fun tp fp => Ok (10 * tp + fp))) v /\
  vlb_text decimal v = "List of selectors: [a = 'x', b = 'u'], Sequence of instances (tp): [0], Sequence of instances (fp): [1], Quality value: 11".
Proof.
  eexists. split.
  - eapply (built_join _ _ _ _ _ _ _ true); [eapply (built_base _ _ _ _ _ va); vm_compute; reflexivity|eapply (built_base _ _ _ _ _ vb); vm_compute; reflexivity|intros x []|vm_compute; reflexivity].
  - vm_compute. reflexivity.
Qed.
