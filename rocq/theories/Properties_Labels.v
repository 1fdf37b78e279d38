(** Theorem C76: Pattern.is_contained, Subgroup.filter and filter_by_list_of_selectors on DataFrames with any row labels. *)
From Coq Require Import Lia Permutation.
From Verif Require Import Base CoreModel CoreSpec CoreFrame LabelModel LabelProofs.
Open Scope string_scope.
Open Scope list_scope.
Open Scope nat_scope.

(** pandas may put the labels of a union in any order. *)
Definition any_order (arrange : list label -> list label) : Prop := forall l, Permutation (arrange l) l.
(** Position [i] has label [x]. *)
Definition labelled (df : ldataframe) (i : nat) (x : label) : Prop := nth_error (lf_index df) i = Some x.
Definition matches_all (df : ldataframe) (i : nat) (l : list selector) : Prop := forall s, In s l -> row_matches (plain df) i s.

(** * is_contained *)
(** The answer has the labels 0 .. n-1 and, for a non-empty pattern, also those of the DataFrame; a label is True iff it is one of
    0 .. n-1 and the row with that label matches.  For the empty pattern 0 .. n-1 are True whatever the labels of the rows. *)
Theorem C76_is_contained : forall arrange p df r, any_order arrange -> wf_df (plain df) -> NoDup (lf_index df) ->
  is_contained_labels arrange p df = Ok r ->
  let n := length (lf_index df) in
  NoDup (labels_of r) /\
  (forall x, In x (labels_of r) <-> in_range n x \/ (p <> [] /\ In x (lf_index df))) /\
  (forall x, In (x, true) r <-> in_range n x /\ (p <> [] -> exists i, labelled df i x /\ matches_all df i p)).
Proof.
  intros arrange p df r A W N E n. destruct (aligned_loop_spec arrange A df W N p [] _ r (loop_start df) E) as (H1 & H2 & H3).
  split; [exact H1|]. split; [exact H2|]. intro x. rewrite <- value_at_In. apply H3.
Qed.
Print Assumptions C76_is_contained.
(** The answer to be expected: one entry per row, under its label, True iff the row matches. *)
Definition expected (df : ldataframe) (p : list selector) (r : lseries) : Prop :=
  NoDup (labels_of r) /\ (forall x, In x (labels_of r) <-> In x (lf_index df)) /\
  forall i x, labelled df i x -> (In (x, true) r <-> matches_all df i p).
(** It is given for every pattern exactly when the labels are 0 .. n-1 in some order. *)
Theorem C76_when_right : forall arrange df, any_order arrange -> wf_df (plain df) -> NoDup (lf_index df) ->
  ((forall p r, is_contained_labels arrange p df = Ok r -> expected df p r) <->
   Permutation (lf_index df) (map default_label (seq 0 (length (lf_index df))))).
Proof.
  intros arrange df A W N. set (n := length (lf_index df)). split.
  - intro H. assert (E : exists r, is_contained_labels arrange [] df = Ok r) by (apply loop_total; intros s []). destruct E as (r & E).
    destruct (H _ _ E) as (_ & H2 & _). destruct (C76_is_contained arrange [] df r A W N E) as (_ & K2 & _). apply NoDup_Permutation; [exact N|apply nodup_default|].
    intro x. rewrite <- H2, K2, in_default. split; [intros [I|[I _]]; [exact I|congruence]|auto].
  - intros P p r E. destruct (C76_is_contained arrange p df r A W N E) as (K1 & K2 & K3). split; [exact K1|].
    assert (R : forall x, in_range n x <-> In x (lf_index df)) by (intro x; rewrite <- in_default; split; apply Permutation_in; [apply Permutation_sym|]; exact P).
    split; [intro x; rewrite K2; fold n; rewrite R; tauto|]. intros i x L. rewrite K3. fold n. split.
    + intros (_ & H) s I. destruct H as (j & Lj & M); [intros ->; destruct I|]. unfold labelled in *. rewrite (nodup_nth _ i j x N L Lj). exact (M s I).
    + intro M. split; [apply R; eapply nth_error_In; exact L|]. intros _. exists i. split; assumption.
Qed.
Print Assumptions C76_when_right.
(** With the default labels it is the answer of C10. *)
Theorem C76_default_index : forall arrange p df r, any_order arrange -> wf_df (plain df) -> lf_index df = map default_label (seq 0 (length (lf_index df))) ->
  is_contained_labels arrange p df = Ok r -> exists m, is_contained p (plain df) = Ok m /\ r = combine (lf_index df) m.
Proof.
  intros arrange p df r A W D E. unfold is_contained_labels in E. unfold is_contained.
  assert (S : default_series (length (lf_index df)) = combine (lf_index df) (repeat true (df_n (plain df)))).
  { assert (G : forall n, default_series n = combine (map default_label (seq 0 n)) (repeat true n)).
    { intro n. unfold default_series. generalize 0. induction n as [|k IH]; intro j; cbn; [auto|]. f_equal. apply IH. }
    rewrite G, <- D. reflexivity. }
  rewrite S in E. assert (L : length (repeat true (df_n (plain df))) = length (lf_index df)) by apply repeat_length. revert E L. generalize (repeat true (df_n (plain df))) as acc. clear S.
  induction p as [|t p IH]; intros acc E L; cbn [aligned_loop contained_loop] in *; rewrite values_combine in E by exact L.
  - destruct (any_true acc); injection E as <-; eauto.
  - destruct (any_true acc); [|injection E as <-; eauto]. destruct (df_col (plain df) (s_attr t)) as [col|] eqn:Ec; [|discriminate]. cbn [bind] in *.
    destruct (op_evaluate_series (s_op t) col (s_val t)) as [m|] eqn:Em; [|discriminate]. cbn [bind] in *.
    assert (Hc : col_get (df_cols (plain df)) (s_attr t) = Some col) by (unfold df_col in Ec; destruct (col_get _ _); [congruence|discriminate]).
    destruct (series_row (plain df) t col m W Hc Em) as [Lm _]. cbn [df_n plain] in Lm.
    assert (X : aligned_and arrange (combine (lf_index df) acc) (combine (lf_index df) m) = combine (lf_index df) (series_and acc m)).
    { unfold aligned_and. rewrite !labels_combine, !values_combine by assumption. assert (Q : index_equals (lf_index df) (lf_index df) = true) by (apply index_equals_eq; reflexivity). rewrite Q. reflexivity. }
    rewrite X in E. apply IH in E; [exact E|]. rewrite series_and_length; congruence.
Qed.
Print Assumptions C76_default_index.

(** * filter_by_list_of_selectors *)
Lemma mask_rows : forall df m, wf_df df -> length m = df_n df -> rows (df_mask m df) = map (row df) (filter (fun i => nth i m false) (seq 0 (df_n df))).
Proof.
  intros df m Hwf Hlen. rewrite <- Hlen. set (idx := filter (fun i => nth i m false) (seq 0 (length m))) in *.
  assert (Hn : length (filter (fun b : bool => b) m) = length idx) by apply count_filter_seq.
  unfold rows. cbn [df_n df_mask]. rewrite Hn.
  assert (Hrow : forall j, j < length idx -> row (df_mask m df) j = row df (nth j idx 0)).
  { intros j Hj. unfold row. cbn [df_cols df_mask]. rewrite map_map. apply map_ext_in. intros [a c] Hc. cbn [snd].
    rewrite mask_nth by (rewrite Hlen; symmetry; exact (Hwf a c Hc)). fold idx. rewrite (nth_error_nth' idx 0 Hj). reflexivity. }
  transitivity (map (fun j => row df (nth j idx 0)) (seq 0 (length idx))).
  - apply map_ext_in. intros j Hj. apply in_seq in Hj. apply Hrow. lia.
  - clear Hrow Hn. induction idx as [|x idx IH]; cbn; [reflexivity|]. f_equal. rewrite <- IH. rewrite <- seq_shift, map_map. reflexivity.
Qed.
Lemma mask_labels : forall (L : list label) m, length m = length L -> mask_list m L = map (fun i => nth i L (LInt 0)) (filter (fun i => nth i m false) (seq 0 (length L))).
Proof.
  induction L as [|x L IH]; intros [|b m] H; cbn in *; try discriminate; [auto|]. rewrite <- seq_shift. pose proof (filter_map_S b m (seq 0 (length L))) as F. rewrite F.
  destruct b; cbn [map]; rewrite map_map, (IH m) by lia; reflexivity.
Qed.
Lemma mask_len : forall {A} (l : list A) m, length m = length l -> length (mask_list m l) = length (filter (fun b : bool => b) m).
Proof. induction l as [|x l IH]; intros [|b m] H; cbn in *; try discriminate; [auto|]. destruct b; cbn; rewrite IH; lia. Qed.
Lemma getitem_rows : forall df key, lf_index df <> [] -> getitem_labels df key =
  (do m <- (if index_equals (labels_of key) (lf_index df) then Ok (map snd key)
            else if forallb (fun x => memb x (labels_of key)) (lf_index df) then Ok (map (value_at key) (lf_index df))
            else Err IndexingError);
   Ok (LDF (mask_list m (lf_index df)) (map (fun c => (fst c, mask_list m (snd c))) (lf_cols df)))).
Proof. intros df key H. unfold getitem_labels. destruct (lf_index df); [congruence|reflexivity]. Qed.
(** The rows kept: those that match and whose label is one of 0 .. n-1, with their labels; the rest is lost. *)
Theorem C76_filter : forall arrange df l r, any_order arrange -> wf_df (plain df) -> NoDup (lf_index df) -> lf_index df <> [] ->
  filter_labels arrange df l = Ok r ->
  let n := length (lf_index df) in
  let kept := filter (fun i => in_rangeb n (nth i (lf_index df) (LInt 0)) && forallb (row_matchesb (plain df) i) l) (seq 0 n) in
  lf_index r = map (fun i => nth i (lf_index df) (LInt 0)) kept /\ rows (plain r) = map (row (plain df)) kept /\ map fst (lf_cols r) = map fst (lf_cols df).
Proof.
  intros arrange df l r A W N NE E n kept. unfold filter_labels in E. destruct (aligned_loop arrange df (default_series (length (lf_index df))) l) as [key|] eqn:K; [|discriminate]. cbn [bind] in E.
  destruct (C76_is_contained arrange l df key A W N K) as (K1 & K2 & K3). fold n in K2, K3.
  rewrite (getitem_rows df key NE) in E. clear NE.
  assert (M : exists m, length m = n /\ (forall i, i < n -> nth i m false = value_at key (nth i (lf_index df) (LInt 0))) /\ (l = [] -> forall x, In x (lf_index df) -> in_range n x) /\
              r = LDF (mask_list m (lf_index df)) (map (fun c => (fst c, mask_list m (snd c))) (lf_cols df))).
  { destruct (index_equals (labels_of key) (lf_index df)) eqn:Q.
    - apply index_equals_eq in Q. cbn [bind] in E. injection E as <-. exists (map snd key).
      assert (L : length (map snd key) = n) by (unfold n; rewrite <- Q; unfold labels_of; rewrite !map_length; reflexivity). split; [exact L|]. split.
      + intros i Hi. apply eq_true_iff_eq. rewrite value_at_In, <- Q. rewrite <- (combine_back key) at 3. rewrite <- value_at_In, combine_at by (unfold labels_of; rewrite !map_length; reflexivity).
        assert (X : nth_error (labels_of key) i = Some (nth i (labels_of key) (LInt 0))) by (apply nth_error_nth'; rewrite Q; exact Hi). split.
        * intro B. exists i. auto.
        * intros (j & E1 & E2). rewrite (nodup_nth _ i j _ K1 X E1). exact E2.
      + split; [|reflexivity]. intros -> x I. rewrite <- Q in I. apply K2 in I. destruct I as [I|[I _]]; [exact I|congruence].
    - destruct (forallb _ _) eqn:F; [|discriminate]. cbn [bind] in E. injection E as <-. exists (map (value_at key) (lf_index df)). split; [apply map_length|]. split.
      + intros i Hi. rewrite (nth_indep _ false (value_at key (LInt 0))) by (rewrite map_length; exact Hi). apply map_nth.
      + split; [|reflexivity]. intros -> x I. rewrite forallb_forall in F. apply F, memb_In, K2 in I. destruct I as [I|[I _]]; [exact I|congruence]. }
  destruct M as (m & L & V & R & ->). cbn [lf_index lf_cols plain].
  assert (KE : kept = filter (fun i => nth i m false) (seq 0 n)).
  { apply filter_ext_in. intros i I. apply in_seq in I. rewrite V by lia. apply eq_true_iff_eq. rewrite value_at_In, K3, andb_true_iff, in_rangeb_spec, forallb_forall.
    assert (X : nth_error (lf_index df) i = Some (nth i (lf_index df) (LInt 0))) by (apply nth_error_nth'; fold n; lia). split.
    - intros (H1 & H2). split; [exact H1|]. intros _. exists i. split; [exact X|]. intros s Is. apply row_matchesb_spec. auto.
    - intros (H1 & H2). split; [exact H1|]. intros s Is. destruct H2 as (j & E1 & H2); [intros ->; destruct Is|]. unfold labelled in E1. rewrite (nodup_nth _ i j _ N X E1). apply row_matchesb_spec. auto. }
  split; [rewrite KE; apply mask_labels; exact L|]. split; [|rewrite map_map; reflexivity].
  rewrite KE. replace (plain _) with (df_mask m (plain df)); [apply mask_rows; [exact W|exact L]|].
  unfold df_mask, plain. cbn [df_cols lf_cols lf_index]. f_equal. symmetry. apply mask_len. exact L.
Qed.
Print Assumptions C76_filter.
(** The only new exception: no selector, and some row label is not one of 0 .. n-1. *)
Theorem C76_filter_raises : forall arrange df l, any_order arrange -> wf_df (plain df) -> NoDup (lf_index df) -> (forall s, In s l -> evaluable (plain df) s) ->
  (filter_labels arrange df l = Err IndexingError <-> l = [] /\ exists x, In x (lf_index df) /\ ~ in_range (length (lf_index df)) x) /\
  forall e, filter_labels arrange df l = Err e -> e = IndexingError.
Proof.
  intros arrange df l A W N Ev. unfold filter_labels. destruct (loop_total arrange df l (default_series (length (lf_index df))) Ev) as (key & K). rewrite K. cbn [bind].
  destruct (C76_is_contained arrange l df key A W N K) as (K1 & K2 & _). set (n := length (lf_index df)) in *.
  assert (D : lf_index df = [] \/ lf_index df <> []) by (destruct (lf_index df); [auto|right; discriminate]). destruct D as [D|D].
  { unfold getitem_labels. rewrite D. split; [split; [discriminate|]; intros (_ & x & [] & _)|discriminate]. }
  rewrite (getitem_rows df key D). destruct (index_equals (labels_of key) (lf_index df)) eqn:Q.
  - cbn [bind]. split; [|discriminate]. split; [discriminate|]. intros (-> & x & I & H). exfalso. apply H. apply index_equals_eq in Q. rewrite <- Q in I. apply K2 in I. destruct I as [I|[I _]]; [exact I|congruence].
  - destruct (forallb _ _) eqn:F; cbn [bind].
    + split; [|discriminate]. split; [discriminate|]. intros (-> & x & I & H). exfalso. apply H. rewrite forallb_forall in F. apply F, memb_In, K2 in I. destruct I as [I|[I _]]; [exact I|congruence].
    + split; [|intros e He; congruence]. split; [|reflexivity]. intros _.
      assert (X : exists x, In x (lf_index df) /\ memb x (labels_of key) = false).
      { clear -F. induction (lf_index df) as [|y L IH]; cbn in F; [discriminate|]. destruct (memb y (labels_of key)) eqn:M; [destruct (IH F) as (x & I & H); exists x; cbn; auto|exists y; cbn; auto]. }
      destruct X as (x & I & M). assert (NI : ~ In x (labels_of key)) by (intro H; apply memb_In in H; congruence). split; [|exists x; split; [exact I|]; intro H; apply NI, K2; auto].
      destruct l as [|s l]; [reflexivity|]. exfalso. apply NI, K2. right. split; [discriminate|exact I].
Qed.
Print Assumptions C76_filter_raises.

(** * Subgroup.filter *)
(** The third answer is right under the labels of the DataFrame.  In the first two, a row is counted iff its label is one of 0 .. n-1:
    rows with other labels are in neither of them, and their labels may stand beside those of rows that do not exist. *)
Theorem C76_subgroup_filter : forall arrange g df a b t, any_order arrange -> wf_df (plain df) -> NoDup (lf_index df) ->
  subgroup_filter_labels arrange g df = Ok (a, b, t) ->
  let n := length (lf_index df) in
  labels_of t = lf_index df /\
  (forall x, In x (labels_of a) <-> in_range n x \/ In x (lf_index df)) /\ (forall x, In x (labels_of b) <-> in_range n x \/ In x (lf_index df)) /\
  forall i x, labelled df i x ->
    let covered := forall s, In s (g_desc g) -> s_attr s <> s_attr (g_target g) /\ row_matches (plain df) i s in
    (In (x, true) t <-> row_matches (plain df) i (g_target g)) /\
    (In (x, true) a <-> in_range n x /\ covered /\ row_matches (plain df) i (g_target g)) /\
    (In (x, true) b <-> in_range n x /\ covered /\ ~ row_matches (plain df) i (g_target g)).
Proof.
  intros arrange g df a b t A W N H n. unfold subgroup_filter_labels in H.
  destruct (df_drop (plain df) (s_attr (g_target g))) as [rest|] eqn:Er; cbn [bind] in H; [|discriminate].
  unfold df_col in H. destruct (col_get (df_cols (plain df)) (s_attr (g_target g))) as [tc|] eqn:Et; cbn [bind] in H; [|discriminate].
  destruct (is_contained_labels arrange (g_desc g) (LDF (lf_index df) (df_cols rest))) as [d|] eqn:Ed; cbn [bind] in H; [|discriminate].
  destruct (op_evaluate_series (s_op (g_target g)) tc (s_val (g_target g))) as [tm|] eqn:Etm; cbn [bind] in H; [|discriminate]. injection H as <- <- <-.
  assert (Hp : plain (LDF (lf_index df) (df_cols rest)) = rest) by (unfold df_drop in Er; rewrite Et in Er; injection Er as <-; reflexivity).
  assert (Wr : wf_df rest). { unfold df_drop in Er. rewrite Et in Er. injection Er as <-. intros x c Hin. cbn in *. apply filter_In in Hin. apply (W x). tauto. }
  destruct (C76_is_contained arrange _ _ _ A ltac:(rewrite Hp; exact Wr) N Ed) as (D1 & D2 & D3). cbn [lf_index] in D2, D3. fold n in D2, D3. unfold labelled, matches_all in D3. rewrite Hp in D3. cbn [lf_index] in D3.
  destruct (series_row (plain df) (g_target g) tc tm W Et Etm) as [Lt Mt]. cbn [df_n plain] in Lt, Mt. fold n in Lt, Mt.
  assert (Ln : length (map negb tm) = length (lf_index df)) by (rewrite map_length; exact Lt).
  assert (T : labels_of (combine (lf_index df) tm) = lf_index df) by (apply labels_combine; exact Lt). assert (T' : labels_of (combine (lf_index df) (map negb tm)) = lf_index df) by (apply labels_combine; exact Ln).
  destruct (aligned_and_spec arrange A d (combine (lf_index df) tm) D1 ltac:(rewrite T; exact N)) as (_ & R2 & R3).
  destruct (aligned_and_spec arrange A d (combine (lf_index df) (map negb tm)) D1 ltac:(rewrite T'; exact N)) as (_ & S2 & S3).
  split; [exact T|]. split; [intro x; rewrite R2, T, D2; tauto|]. split; [intro x; rewrite S2, T', D2; tauto|].
  intros i x L covered. assert (Li : i < n) by (apply nth_error_Some; unfold labelled in L; congruence).
  assert (Vt : value_at (combine (lf_index df) tm) x = row_matchesb (plain df) i (g_target g)).
  { apply eq_true_iff_eq. rewrite combine_at by exact Lt. split; [intros (j & E1 & E2); rewrite <- (Mt i Li), (nodup_nth _ i j x N L E1); exact E2|intro E; exists i; split; [exact L|rewrite Mt by exact Li; exact E]]. }
  assert (Vn : value_at (combine (lf_index df) (map negb tm)) x = negb (row_matchesb (plain df) i (g_target g))).
  { assert (NN : nth i (map negb tm) false = negb (nth i tm false)) by (rewrite <- (map_nth negb tm false i); apply nth_indep; rewrite map_length; lia).
    apply eq_true_iff_eq. rewrite combine_at by exact Ln. rewrite <- (Mt i Li), <- NN. split; [intros (j & E1 & E2); rewrite (nodup_nth _ i j x N L E1); exact E2|intro E; exists i; split; [exact L|exact E]]. }
  assert (Vd : value_at d x = true <-> in_range n x /\ covered).
  { rewrite value_at_In, D3. assert (C : covered <-> forall s, In s (g_desc g) -> row_matches rest i s).
    { unfold covered. split; intros Hs s Is; specialize (Hs s Is).
      - apply row_matchesb_spec. rewrite (row_matchesb_drop _ rest _ i s Er). destruct Hs as [H1 H2]. apply andb_true_iff. split; [apply negb_true_iff, String.eqb_neq; congruence|now apply row_matchesb_spec].
      - apply row_matchesb_spec in Hs. rewrite (row_matchesb_drop _ rest _ i s Er) in Hs. apply andb_true_iff in Hs. destruct Hs as [H1 H2]. apply negb_true_iff, String.eqb_neq in H1. split; [congruence|now apply row_matchesb_spec]. }
    rewrite C. split; intros (H1 & H2); (split; [exact H1|]).
    - intros s Is. destruct H2 as (j & E1 & H2); [intros E0; rewrite E0 in Is; destruct Is|]. rewrite (nodup_nth _ i j x N L E1). exact (H2 s Is).
    - intros _. exists i. split; [exact L|exact H2]. }
  rewrite <- !value_at_In, R3, S3, Vt, Vn, !andb_true_iff, negb_true_iff, Vd, <- row_matchesb_spec. split; [tauto|]. split; [tauto|].
  destruct (row_matchesb (plain df) i (g_target g)); intuition congruence.
Qed.
Print Assumptions C76_subgroup_filter.

(** * A case: what is left after a filter keeps its labels, and its rows are lost *)
Definition people : ldataframe :=
  LDF (map default_label (seq 0 4)) [("age", [VInt 20; VInt 40; VInt 25; VInt 60]); ("y", [VStr "n"; VStr "p"; VStr "n"; VStr "p"])].
Definition adults : ldataframe := LDF [LInt 1; LInt 3] [("age", [VInt 40; VInt 60]); ("y", [VStr "p"; VStr "p"])].
Definition over_thirty : selector := Sel "age" GREATER (VInt 30).
Definition same_order : list label -> list label := fun l => l.
Lemma same_order_ok : any_order same_order. Proof. intro l. apply Permutation_refl. Qed.
Example C76_nonvacuous : any_order same_order /\ wf_df (plain adults) /\ NoDup (lf_index adults) /\
  (* filtering twice with the same selector *)
  filter_labels same_order people [over_thirty] = Ok adults /\
  filter_labels same_order adults [over_thirty] = Ok (LDF [LInt 1] [("age", [VInt 40]); ("y", [VStr "p"])]) /\
  is_contained_labels same_order [over_thirty] adults = Ok [(LInt 0, false); (LInt 1, true); (LInt 3, false)] /\
  filter_labels same_order adults [] = Err IndexingError /\
  subgroup_filter_labels same_order (SG [over_thirty] (Sel "y" EQUAL (VStr "p"))) adults =
    Ok ([(LInt 0, false); (LInt 1, true); (LInt 3, false)], [(LInt 0, false); (LInt 1, false); (LInt 3, false)], [(LInt 1, true); (LInt 3, true)]).
Proof.
  split; [apply same_order_ok|]. split; [intros a c H; cbn in H; destruct H as [E|[E|[]]]; inversion E; reflexivity|].
  split; [repeat constructor; cbn; intuition discriminate|]. repeat split; vm_compute; reflexivity.
Qed.
(** Filtering by a selector and again by the same one loses rows: the second filter is not the identity on its own results. *)
Theorem C76_idempotent_refuted : forall arrange, any_order arrange -> exists df l r r',
  wf_df (plain df) /\ lf_index df = map default_label (seq 0 (length (lf_index df))) /\
  filter_labels arrange df l = Ok r /\ filter_labels arrange r l = Ok r' /\ length (rows (plain r')) < length (rows (plain r)).
Proof.
  intros arrange A. exists people, [over_thirty]. destruct (loop_total arrange adults [over_thirty] (default_series 2)) as (k & K).
  { intros s [<-|[]]. exists [VInt 40; VInt 60]. split; [reflexivity|]. intros v [<-|[<-|[]]]; eexists; reflexivity. }
  assert (F : exists r', filter_labels arrange adults [over_thirty] = Ok r').
  { destruct (filter_labels arrange adults [over_thirty]) as [r'|e] eqn:E; [eauto|]. exfalso.
    destruct (C76_filter_raises arrange adults [over_thirty] A) as (H1 & H2).
    - intros a c H; cbn in H; destruct H as [E'|[E'|[]]]; inversion E'; reflexivity.
    - repeat constructor; cbn; intuition discriminate.
    - intros s [<-|[]]. exists [VInt 40; VInt 60]. split; [reflexivity|]. intros v [<-|[<-|[]]]; eexists; reflexivity.
    - rewrite E in H1. rewrite (H2 e E) in H1. destruct (proj1 H1 eq_refl) as (X & _). discriminate. }
  destruct F as (r' & F). exists adults, r'. split; [intros a c H; cbn in H; destruct H as [E|[E|[]]]; inversion E; reflexivity|]. split; [reflexivity|]. split.
  - unfold filter_labels, people. cbn. unfold aligned_and. cbn. reflexivity.
  - split; [exact F|]. destruct (C76_filter arrange adults [over_thirty] r' A) as (_ & R & _); [| |discriminate|exact F|].
    + intros a c H; cbn in H; destruct H as [E|[E|[]]]; inversion E; reflexivity.
    + repeat constructor; cbn; intuition discriminate.
    + rewrite R. vm_compute. lia.
Qed.
Print Assumptions C76_idempotent_refuted.
