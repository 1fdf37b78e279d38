(** Theorem C77: SDMap and SDMapStar on DataFrames with any row labels (also repeated ones, as [pd.concat] leaves them). *)
From Coq Require Import Lia Permutation.
From Verif Require Import Base CoreModel CoreSpec CoreFrame FPGrowthProofs SDMapProofs SDMapStarModel VLSDModel LabelModel LabelProofs.
From Verif Require Import QualityModel.
Open Scope string_scope.
Open Scope list_scope.
Open Scope nat_scope.

(** The rows whose label no other row has. *)
Definition alone (df : ldataframe) (i : nat) : Prop :=
  exists x, nth_error (lf_index df) i = Some x /\ forall j, nth_error (lf_index df) j = Some x -> j = i.
Definition aloneb (df : ldataframe) (i : nat) : bool :=
  match nth_error (lf_index df) i with Some x => Nat.eqb (occurrences x (lf_index df)) 1 | None => false end.
Lemma label_eqb_eq : forall x y, label_eqb x y = true <-> x = y.
Proof.
  intros [a|a] [b|b]; cbn; try (split; congruence).
  - rewrite Z.eqb_eq. split; congruence.
  - rewrite String.eqb_eq. split; congruence.
Qed.
Lemma occurrences_zero : forall x l, occurrences x l = 0 <-> ~ In x l.
Proof.
  intros x l. unfold occurrences. induction l as [|y l IH]; cbn [filter In length]; [tauto|]. destruct (label_eqb x y) eqn:E; cbn [length].
  - apply label_eqb_eq in E. subst. split; [lia|tauto].
  - rewrite IH. assert (y <> x) by (intros ->; assert (label_eqb x x = true) by (apply label_eqb_eq; auto); congruence). tauto.
Qed.
Lemma occurrences_one : forall x l i, nth_error l i = Some x -> (occurrences x l = 1 <-> forall j, nth_error l j = Some x -> j = i).
Proof.
  intros x l. induction l as [|y l IH]; intros i E; [destruct i; discriminate|]. unfold occurrences. cbn [filter]. destruct i as [|i]; cbn [nth_error] in E.
  - injection E as ->. replace (label_eqb x x) with true by (symmetry; apply label_eqb_eq; auto). cbn [length]. fold (occurrences x l). split.
    + intros H [|j] Ej; auto. exfalso. assert (Z : occurrences x l = 0) by lia. apply occurrences_zero in Z. apply Z. eapply nth_error_In; exact Ej.
    + intros H. f_equal. apply occurrences_zero. intros I. apply In_nth_error in I. destruct I as [j Ej]. specialize (H (S j) Ej). discriminate.
  - destruct (label_eqb x y) eqn:Q; cbn [length]; fold (occurrences x l).
    + apply label_eqb_eq in Q. subst y. split.
      * intros H. exfalso. assert (Z : occurrences x l = 0) by lia. apply occurrences_zero in Z. apply Z. eapply nth_error_In; exact E.
      * intros H. specialize (H 0 eq_refl). discriminate.
    + rewrite (IH i E). split.
      * intros H [|j] Ej; cbn [nth_error] in Ej; [|f_equal; auto]. injection Ej as ->. assert (label_eqb x x = true) by (apply label_eqb_eq; auto). congruence.
      * intros H j Ej. specialize (H (S j) Ej). lia.
Qed.
Lemma aloneb_spec : forall df i, aloneb df i = true <-> alone df i.
Proof.
  intros df i. unfold aloneb, alone. destruct (nth_error (lf_index df) i) as [x|] eqn:E.
  - rewrite Nat.eqb_eq, (occurrences_one x _ i E). split; [intros H; exists x; auto|]. intros (y & Ey & H). injection Ey as <-. exact H.
  - split; [discriminate|]. intros (x & Ex & _). discriminate.
Qed.
Lemma selectors_alone : forall d df tcol i, label_row_selectors d df tcol i = if aloneb df i then row_selectors d (other_columns (plain df) tcol) i else [].
Proof. intros. unfold label_row_selectors, aloneb. destruct (nth_error _ _); auto. Qed.

(** * Distinct labels *)
Lemma tree_distinct : forall t df d tcol tval, NoDup (lf_index df) -> build_tree_labels t df d tcol tval = build_tree t (plain df) d tcol tval.
Proof.
  intros t df d tcol tval N. unfold build_tree_labels, build_tree. destruct (target_mask _ _ _) as [mask|]; cbn [bind]; auto. cbn [plain df_n].
  erewrite fold_res_ext; [reflexivity|]. intros t' i I. cbn beta. apply in_seq in I. rewrite selectors_alone.
  destruct (nth_error (lf_index df) i) as [x|] eqn:E; [|apply nth_error_None in E; lia].
  replace (aloneb df i) with true; [reflexivity|]. symmetry. apply aloneb_spec. exists x. split; auto. intros j Ej.
  apply (NoDup_nth_error (lf_index df)); auto; [apply nth_error_Some; congruence|congruence].
Qed.
(** Whatever distinct labels the rows have, the fits do what they do with 0 .. n-1. *)
Theorem C77_sdmap_distinct : forall V (c : sd_config V) st df tcol tval, NoDup (lf_index df) ->
  sdmap_fit_labels c st df tcol tval = sdmap_fit c st (plain df) tcol tval.
Proof.
  intros V c st df tcol tval N. unfold sdmap_fit_labels, sdmap_fit. destruct (negb _); auto. destruct (generate_set_of_frequent_selectors _ _ _ _ _ _) as [d|]; cbn [bind]; auto.
  rewrite tree_distinct by exact N. reflexivity.
Qed.
Print Assumptions C77_sdmap_distinct.
Theorem C77_star_distinct : forall V (c : star_config V) st df tcol tval, NoDup (lf_index df) ->
  star_fit_labels c st df tcol tval = star_fit c st (plain df) tcol tval.
Proof.
  intros V c st df tcol tval N. unfold star_fit_labels, star_fit. destruct (negb _); auto. destruct (target_mask _ _ _) as [mask|]; cbn [bind]; auto.
  destruct (population _ _) as [TP FP]. destruct (generate_set_of_frequent_selectors _ _ _ _ _ _) as [d|]; cbn [bind]; auto.
  rewrite tree_distinct by exact N. reflexivity.
Qed.
Print Assumptions C77_star_distinct.

(** * Repeated labels *)
(** The tree is that of the rows that have their label alone; the dictionary (and TP, FP) are those of all the rows. *)
Definition alone_mask (df : ldataframe) : list bool := map (aloneb df) (seq 0 (length (lf_index df))).
Lemma row_selectors_mask : forall d m (cs : list (string * list value)) j, (forall a col, In (a, col) cs -> length col = length m) ->
  row_selectors d (map (fun c => (fst c, mask_list m (snd c))) cs) j =
  match nth_error (filter (fun i => nth i m false) (seq 0 (length m))) j with Some i => row_selectors d cs i | None => [] end.
Proof.
  intros d m cs j H. destruct (nth_error _ j) as [i|] eqn:E.
  - induction cs as [|[a col] cs IH]; cbn [map row_selectors fst snd]; auto. rewrite mask_nth by (symmetry; apply (H a); left; auto). rewrite E.
    rewrite IH by (intros; eapply H; right; eauto). reflexivity.
  - induction cs as [|[a col] cs IH]; cbn [map row_selectors fst snd]; auto. rewrite mask_nth by (symmetry; apply (H a); left; auto). rewrite E.
    apply IH. intros; eapply H; right; eauto.
Qed.
Lemma other_columns_mask : forall m df tcol, other_columns (df_mask m df) tcol = map (fun c => (fst c, mask_list m (snd c))) (other_columns df tcol).
Proof.
  intros m df tcol. unfold other_columns. cbn [df_mask df_cols]. induction (df_cols df) as [|[a col] cs IH]; cbn [map filter fst snd]; auto.
  destruct (negb _); cbn [map fst snd]; rewrite IH; reflexivity.
Qed.
Lemma mask_list_map : forall {A B} (f : A -> B) m l, mask_list m (map f l) = map f (mask_list m l).
Proof. induction m as [|b m IH]; intros [|x l]; cbn; auto; try (destruct b; auto). rewrite IH. reflexivity. Qed.
Lemma target_mask_mask : forall m df tcol tval mask, target_mask df tcol tval = Ok mask -> target_mask (df_mask m df) tcol tval = Ok (mask_list m mask).
Proof.
  intros m df tcol tval mask. unfold target_mask, df_col. cbn [df_mask df_cols]. induction (df_cols df) as [|[a col] cs IH]; cbn [col_get map fst snd]; [discriminate|].
  destruct (String.eqb _ _); auto. cbn [bind]. intros E. injection E as <-. rewrite mask_list_map. reflexivity.
Qed.
Lemma fold_filter : forall A S (f : S -> A -> res S) (p : A -> bool) l s, (forall s x, In x l -> p x = false -> f s x = Ok s) -> fold_res f l s = fold_res f (filter p l) s.
Proof.
  induction l as [|x l IH]; intros s H; cbn [fold_res filter]; auto. destruct (p x) eqn:P; cbn [fold_res].
  - destruct (f s x); cbn [bind]; auto. apply IH. intros; apply H; [right; auto|auto].
  - rewrite (H s x (or_introl eq_refl) P). cbn [bind]. apply IH. intros; apply H; [right; auto|auto].
Qed.
Lemma fold_index : forall A T (f : T -> nat -> res T) (g : T -> A -> res T) (l : list A) s,
  (forall s j x, nth_error l j = Some x -> f s j = g s x) -> fold_res f (seq 0 (length l)) s = fold_res g l s.
Proof.
  intros A T f g l. assert (G : forall b s, (forall s j x, nth_error l j = Some x -> f s (b + j) = g s x) -> fold_res f (seq b (length l)) s = fold_res g l s).
  { induction l as [|x l IH]; intros b s H; cbn [length seq fold_res]; auto. rewrite <- (H s 0 x eq_refl), Nat.add_0_r. destruct (f s b); cbn [bind]; auto. apply IH.
    intros s1 j y E. replace (S b + j) with (b + S j) by lia. auto. }
  intros s H. apply (G 0 s). intros. apply H. auto.
Qed.
Theorem C77_tree : forall t df d tcol tval, wf_df (plain df) ->
  build_tree_labels t df d tcol tval = build_tree t (df_mask (alone_mask df) (plain df)) d tcol tval.
Proof.
  intros t df d tcol tval W. unfold build_tree_labels, build_tree. set (m := alone_mask df).
  assert (Lm : length m = length (lf_index df)) by (unfold m, alone_mask; rewrite map_length, seq_length; auto).
  destruct (target_mask (plain df) tcol tval) as [mask|e] eqn:Em.
  2:{ unfold target_mask, df_col in *. cbn [df_mask df_cols plain] in *. cbn [bind]. destruct (col_get (lf_cols df) tcol) eqn:Ec; [discriminate|]. cbn [bind] in Em. injection Em as <-.
      replace (col_get (map (fun c => (fst c, mask_list m (snd c))) (lf_cols df)) tcol) with (@None (list value)); [reflexivity|].
      revert Ec. clear. induction (lf_cols df) as [|[a c] cs IH]; cbn [col_get map fst snd]; auto. destruct (String.eqb _ _); [discriminate|auto]. }
  rewrite (target_mask_mask m _ _ _ _ Em). cbn [bind].
  assert (Lk : length mask = length m).
  { rewrite Lm. unfold target_mask, df_col in Em. cbn [plain df_cols] in Em. destruct (col_get (lf_cols df) tcol) as [col|] eqn:Ec; [|discriminate]. cbn [bind] in Em. injection Em as <-. rewrite map_length.
    revert Ec. assert (K : forall a c, In (a, c) (lf_cols df) -> length c = length (lf_index df)) by (intros a c I; apply (W a c); exact I). revert K. clear.
    induction (lf_cols df) as [|[a c] cs IH]; cbn [col_get]; [discriminate|]. intros K. destruct (String.eqb _ _); [intros E; injection E as <-; apply (K a); left; auto|apply IH; intros; eapply K; right; eauto]. }
  set (idx := filter (fun i => nth i m false) (seq 0 (length m))).
  assert (Hm : forall i, i < length (lf_index df) -> nth i m false = aloneb df i).
  { intros i Hi. unfold m, alone_mask. rewrite (nth_indep _ false (aloneb df 0)) by (rewrite map_length, seq_length; auto). rewrite map_nth, seq_nth by auto. reflexivity. }
  replace (df_n (df_mask m (plain df))) with (length idx) by (symmetry; apply count_filter_seq). rewrite other_columns_mask.
  assert (WO : forall a col, In (a, col) (other_columns (plain df) tcol) -> length col = length m).
  { intros a col I. apply filter_In in I. rewrite Lm. apply (W a col). tauto. }
  rewrite (fold_filter _ _ _ (fun i => nth i m false)).
  2:{ intros s i I N. apply in_seq in I. rewrite Hm in N by lia. rewrite selectors_alone, N. unfold sort_transaction. cbn [sort_by]. unfold insert_tree. destruct (nth i mask false); reflexivity. }
  replace (filter (fun i => nth i m false) (seq 0 (length (lf_index df)))) with idx by (unfold idx; rewrite Lm; auto).
  f_equal. symmetry. apply fold_index. intros s j i E. rewrite row_selectors_mask by exact WO. fold idx. rewrite E.
  assert (I : In i idx) by (eapply nth_error_In; exact E). apply filter_In in I. destruct I as [I N]. apply in_seq in I. rewrite selectors_alone, <- Hm, N by lia.
  replace (nth j (mask_list m mask) false) with (nth i mask false); auto.
  pose proof (mask_nth m mask j (eq_sym Lk)) as Q. fold idx in Q. rewrite E in Q.
  destruct (nth_error mask i) as [b|] eqn:Eb; [|apply nth_error_None in Eb; lia]. rewrite (nth_error_nth _ _ false Q), (nth_error_nth _ _ false Eb). reflexivity.
Qed.
Print Assumptions C77_tree.

Lemma build_nothing : forall df d tcol tval, wf_df (plain df) -> (forall i, ~ alone df i) -> has_column (plain df) tcol -> build_tree_labels empty_tree df d tcol tval = Ok empty_tree.
Proof.
  intros df d tcol tval W H [col Hc]. unfold build_tree_labels, target_mask, df_col. rewrite Hc. cbn [bind].
  erewrite (fold_res_ext _ _ _ (fun t (_ : nat) => Ok t)).
  - assert (G : forall (l : list nat) (t : fptree), fold_res (fun t (_ : nat) => Ok t) l t = Ok t) by (induction l; cbn; auto). rewrite G. reflexivity.
  - intros t i _. cbn beta. rewrite selectors_alone. destruct (aloneb df i) eqn:E; [apply aloneb_spec in E; exfalso; eapply H; exact E|].
    unfold sort_transaction. cbn [sort_by]. unfold insert_tree. destruct (nth i _ false); reflexivity.
Qed.
(** When no label is used once, fit finds nothing: the object and the file stay as they were, and no exception tells it. *)
Theorem C77_nothing_found : forall V (c : sd_config V) ok st df tcol tval, wf_df (plain df) -> (forall i, ~ alone df i) -> has_column (plain df) tcol -> all_nominal (plain df) = true ->
  thresholds (c_min_tp c) (c_min_fp c) (c_min_n c) = Ok ok -> sdmap_fit_labels c st df tcol tval = Ok st.
Proof.
  intros V c ok st df tcol tval W H HC HA HT. unfold sdmap_fit_labels. rewrite HA. cbn [negb]. pose proof HC as [col Hc].
  unfold generate_set_of_frequent_selectors. rewrite HT. cbn [bind]. unfold target_mask at 1, df_col. rewrite Hc. cbn [bind]. rewrite build_nothing by assumption. reflexivity.
Qed.
Print Assumptions C77_nothing_found.
Theorem C77_star_nothing_found : forall V (c : star_config V) ok st df tcol tval, wf_df (plain df) -> (forall i, ~ alone df i) -> has_column (plain df) tcol -> all_nominal (plain df) = true ->
  thresholds (c_min_tp (sc_base c)) (c_min_fp (sc_base c)) (c_min_n (sc_base c)) = Ok ok -> star_fit_labels c st df tcol tval = Ok st.
Proof.
  intros V c ok st df tcol tval W H HC HA HT. unfold star_fit_labels. rewrite HA. cbn [negb]. pose proof HC as [col Hc]. unfold target_mask at 1, df_col. rewrite Hc. cbn [bind].
  destruct (population _ _) as [TP FP].
  unfold generate_set_of_frequent_selectors. rewrite HT. cbn [bind]. unfold target_mask at 1, df_col. rewrite Hc. cbn [bind]. rewrite build_nothing by assumption. reflexivity.
Qed.
Print Assumptions C77_star_nothing_found.

(** [pd.concat([df, df])]. *)
Definition concat_labels (a b : ldataframe) : ldataframe :=
  LDF (lf_index a ++ lf_index b) (map (fun cd => (fst (fst cd), snd (fst cd) ++ snd (snd cd))) (combine (lf_cols a) (lf_cols b))).
Lemma concat_not_alone : forall df i, ~ alone (concat_labels df df) i.
Proof.
  intros df i (x & E & H). cbn [concat_labels lf_index] in *. set (l := lf_index df) in *.
  assert (I : In x l) by (apply nth_error_In in E; apply in_app_or in E; tauto). apply In_nth_error in I. destruct I as [j Ej].
  assert (Hj : j < length l) by (apply nth_error_Some; congruence).
  assert (A : j = i) by (apply H; rewrite nth_error_app1; auto).
  assert (B : length l + j = i) by (apply H; rewrite nth_error_app2 by lia; replace (length l + j - length l) with j by lia; auto). lia.
Qed.
(** So the concatenation of a DataFrame with itself has no subgroups for SDMap, whatever its rows and the thresholds. *)
Theorem C77_concat : forall V (c : sd_config V) ok st df tcol tval, wf_df (plain df) -> has_column (plain df) tcol -> all_nominal (plain df) = true ->
  thresholds (c_min_tp c) (c_min_fp c) (c_min_n c) = Ok ok -> sdmap_fit_labels c st (concat_labels df df) tcol tval = Ok st.
Proof.
  intros V c ok st df tcol tval W [col HC] HA HT.
  assert (D : forall a c', In (a, c') (lf_cols (concat_labels df df)) -> exists c0, In (a, c0) (lf_cols df) /\ c' = c0 ++ c0).
  { intros a c' I. cbn [concat_labels lf_cols] in I. apply in_map_iff in I. destruct I as ([x y] & E & I). cbn [fst snd] in E. injection E as <- <-.
    assert (x = y /\ In x (lf_cols df)) as [<- Ix]. { revert I. clear. induction (lf_cols df) as [|z l IH]; cbn [combine In]; [intros []|]. intros [E|I]; [injection E as <- <-; auto|destruct (IH I); auto]. }
    exists (snd x). split; [destruct x; exact Ix|reflexivity]. }
  apply (C77_nothing_found V c ok); auto using concat_not_alone.
  - intros a c' I. apply D in I. destruct I as (c0 & I & ->). cbn [plain df_n concat_labels lf_index]. rewrite !app_length. pose proof (W a c0 I) as Q. cbn [plain df_n] in Q. lia.
  - exists (col ++ col). revert HC. cbn [plain df_cols concat_labels lf_cols]. clear. induction (lf_cols df) as [|[a c] cs IH]; cbn [col_get combine map fst snd]; [discriminate|].
    destruct (String.eqb _ _); [intros Q; injection Q as <-; reflexivity|exact IH].
  - revert HA. unfold all_nominal. cbn [plain df_cols]. rewrite !forallb_forall. intros HA [a c'] I. apply D in I. destruct I as (c0 & I & ->). specialize (HA _ I). cbn [snd] in *.
    rewrite forallb_forall in *. intros v Iv. apply in_app_or in Iv. apply HA. tauto.
Qed.
Print Assumptions C77_concat.

(** Some labels repeated: the counts reported are wrong, and descriptions are missing. *)
Definition part_repeated : ldataframe := LDF [LInt 0; LInt 1; LStr "r"; LInt 1; LInt 2]
  [("a", [VStr "x"; VStr "x"; VStr "x"; VStr "y"; VStr "y"]); ("class", [VStr "p"; VStr "p"; VStr "n"; VStr "p"; VStr "n"])].
Definition label_config : sd_config Z := SDC (fun tp fp _ _ => Ok (tp - fp)%Z) (fun q => (-5 <=? q)%Z) None None (Some 1%Z) true.
Theorem C77_repeated_refuted : exists st r, sdmap_fit_labels label_config (SDS 0 0 None) part_repeated "class" "p" = Ok st /\ st_file st <> None /\
  (forall l, st_file st = Some l -> In r l) /\ r_subgroup r = SG [Sel "a" EQUAL (VStr "x")] (Sel "class" EQUAL (VStr "p")) /\
  r_tp r = 1%Z /\ tp_of (plain part_repeated) (Sel "class" EQUAL (VStr "p")) [Sel "a" EQUAL (VStr "x")] = 2%Z.
Proof.
  eexists _, (Rec (SG [Sel "a" EQUAL (VStr "x")] (Sel "class" EQUAL (VStr "p"))) 0%Z 1%Z 1%Z 3%Z 2%Z). split; [vm_compute; reflexivity|]. split; [discriminate|]. split; [|vm_compute; auto].
  intros l E. cbn [st_file] in E. inversion E. cbn [In]. auto.
Qed.
Print Assumptions C77_repeated_refuted.
Example C77_alone : alone part_repeated 0 /\ alone part_repeated 2 /\ ~ alone part_repeated 1 /\ ~ alone part_repeated 3.
Proof. rewrite <- !aloneb_spec. vm_compute. repeat split; congruence. Qed.
(** Distinct labels out of the default range, and a concatenated frame. *)
Definition split_rows : ldataframe := LDF [LInt 7; LInt 3; LStr "r"; LInt 12; LInt 2] (lf_cols part_repeated).
Example C77_nonvacuous : NoDup (lf_index split_rows) /\ wf_df (plain split_rows) /\ has_column (plain split_rows) "class" /\ all_nominal (plain split_rows) = true /\
  (exists st, sdmap_fit_labels label_config (SDS 0 0 None) split_rows "class" "p" = Ok st /\ st_selected st = 2 /\ st_file st <> None) /\
  (exists st, sdmap_fit_labels label_config (SDS 0 0 None) (concat_labels split_rows split_rows) "class" "p" = Ok st /\ st_selected st = 0 /\ st_file st = None) /\
  thresholds (c_min_tp label_config) (c_min_fp label_config) (c_min_n label_config) <> Err ValueError.
Proof.
  split; [repeat constructor; cbn; intuition congruence|]. split; [intros a c [E|[E|[]]]; injection E as <- <-; reflexivity|]. split; [eexists; reflexivity|]. split; [reflexivity|].
  split; [eexists; split; [vm_compute; reflexivity|split; [reflexivity|discriminate]]|]. split; [eexists; split; [vm_compute; reflexivity|split; reflexivity]|discriminate].
Qed.
