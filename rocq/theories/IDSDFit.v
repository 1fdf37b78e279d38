(** The dataset side of IDSD's fit and the final list. *)
From Verif Require Import IDSDSpec IDSDTop IDSDProofs OrderFacts CoreOrder CorePattern CoreFrame MiningProofs SDMapProofs Properties_Cred.
From Coq Require Import QArith Lia Sorted Permutation Lqa.
Open Scope string_scope.
Open Scope list_scope.
Open Scope nat_scope.

Lemma sel_eq_trans : forall a b d, sel_eq a b = true -> sel_eq b d = true -> sel_eq a d = true.
Proof. intros a b d H1 H2. apply sel_eq_scmp in H1, H2. apply sel_eq_scmp. apply (eq_trans_cmp _ scmp scmp_sym scmp_trans a b d); auto. Qed.
Lemma sel_eq_sym : forall a b, sel_eq a b = true -> sel_eq b a = true.
Proof. intros a b H. apply sel_eq_scmp in H. apply sel_eq_scmp. apply (cmp_eq_sym _ scmp scmp_sym); auto. Qed.
(** * The dictionary of appearances *)
Lemma app_get_set_same : forall d s a, app_get (app_set d s a) s = Some a.
Proof.
  intros d s a. induction d as [|[k b] d IH]; cbn [app_set app_get]; [rewrite sel_eq_refl; reflexivity|]. destruct (sel_eq k s) eqn:E; cbn [app_get]; rewrite E; auto.
Qed.
Lemma app_get_set_other : forall d s a t, sel_eq s t = false -> app_get (app_set d s a) t = app_get d t.
Proof.
  intros d s a t N. induction d as [|[k b] d IH]; cbn [app_set app_get]; [rewrite N; reflexivity|]. destruct (sel_eq k s) eqn:E; cbn [app_get].
  - destruct (sel_eq k t) eqn:F; auto. rewrite (sel_eq_trans s k t) in N; [discriminate|apply sel_eq_sym; auto|auto].
  - rewrite IH. reflexivity.
Qed.
Definition set_all (d : list (selector * list bool)) (l : list (selector * list bool)) := fold_left (fun d sa => app_set d (fst sa) (snd sa)) l d.
Lemma set_all_get : forall l d s a, NoDup (map fst l) -> Forall nominal (map fst l) -> In (s, a) l -> app_get (set_all d l) s = Some a.
Proof.
  induction l as [|[k b] l IH] using rev_ind; intros d s a ND F H; [destruct H|]. unfold set_all. rewrite fold_left_app. cbn [fold_left fst snd]. fold (set_all d l).
  rewrite map_app in ND, F. cbn [map fst] in ND, F. apply Forall_app in F. destruct F as [F1 F2]. inversion F2 as [|? ? Fk _]; subst.
  apply in_app_or in H. destruct H as [H|[H|[]]].
  - assert (Hs : In s (map fst l)) by (change s with (fst (s, a)); apply in_map; auto). rewrite app_get_set_other.
    + apply IH; auto. apply NoDup_remove_1 in ND. rewrite app_nil_r in ND. auto.
    + apply not_true_is_false. intros E. rewrite Forall_forall in F1. apply sel_eq_nominal in E; auto. subst. apply NoDup_remove_2 in ND. apply ND. rewrite app_nil_r. auto.
  - injection H as -> ->. apply app_get_set_same.
Qed.
Lemma app_set_first : forall d s a m, length a = m -> (d = [] \/ first_index d = m \/ (exists k b d', d = (k, b) :: d' /\ sel_eq k s = true)) -> first_index (app_set d s a) = m.
Proof.
  intros d s a m L H. destruct d as [|[k b] d]; cbn; auto. destruct (sel_eq k s) eqn:E; cbn; auto. destruct H as [H|[H|(k' & b' & d' & H & E')]]; [discriminate|exact H|]. injection H as <- <- <-. congruence.
Qed.
Definition index_ok (d : list (selector * list bool)) (ks : list selector) (m : nat) : Prop :=
  match d with [] => True | (k, a) :: _ => length a = m \/ exists s, In s ks /\ sel_eq k s = true end.
Lemma set_all_first : forall l d m, (forall s a, In (s, a) l -> length a = m) -> index_ok d (map fst l) m -> (l <> [] \/ first_index d = m) -> first_index (set_all d l) = m.
Proof.
  assert (K : forall l d m, (forall s a, In (s, a) l -> length a = m) -> d <> [] -> first_index d = m -> first_index (set_all d l) = m).
  { induction l as [|[s a] l IH]; intros d m L N H; [exact H|]. unfold set_all. cbn [fold_left fst snd]. apply IH.
    - intros; eapply L; right; eauto.
    - destruct d as [|[k b] d]; [congruence|]. cbn. destruct (sel_eq k s); discriminate.
    - apply app_set_first; [eapply L; left; eauto|auto]. }
  assert (K2 : forall l k b d m, (forall s a, In (s, a) l -> length a = m) -> (exists s, In s (map fst l) /\ sel_eq k s = true) -> first_index (set_all ((k, b) :: d) l) = m).
  { induction l as [|[s a] l IH]; intros k b d m L (x & Hx & E); [destruct Hx|]. unfold set_all. cbn [fold_left fst snd app_set]. destruct (sel_eq k s) eqn:F.
    - apply K; [intros; eapply L; right; eauto|discriminate|]. cbn. eapply L; left; eauto.
    - apply IH; [intros; eapply L; right; eauto|]. cbn [map fst] in Hx. destruct Hx as [<-|Hx]; [congruence|]. exists x; auto. }
  intros l d m L I N. destruct d as [|[k b] d].
  - destruct l as [|[s a] l]; [destruct N as [N|N]; [congruence|exact N]|]. unfold set_all. cbn [fold_left fst snd app_set]. apply K; [intros; eapply L; right; eauto|discriminate|]. cbn. eapply L; left; eauto.
  - cbn in I. destruct I as [I|I]; [apply K; auto; discriminate|apply K2; auto].
Qed.
Definition selector_masks (cs : list (string * list value)) : list (selector * list bool) :=
  flat_map (fun ac => map (fun x => (Sel (fst ac) EQUAL x, map (fun y => py_eq y x) (snd ac))) (distinct_values (snd ac))) cs.
Lemma appearances_set_all : forall df tcol d, idsd_appearances df tcol d = set_all d (selector_masks (other_columns df tcol)).
Proof.
  intros df tcol. unfold idsd_appearances. generalize (other_columns df tcol) as cs. induction cs as [|[a col] cs IH]; intros d; [reflexivity|].
  cbn [fold_left selector_masks flat_map fst snd]. unfold set_all. rewrite fold_left_app. rewrite IH. f_equal. generalize (distinct_values col) as l. intros l. revert d. induction l as [|x l IHl]; intros d; [reflexivity|]. cbn [fold_left map fst snd]. apply IHl.
Qed.
Lemma masks_keys : forall df tcol, map fst (selector_masks (other_columns df tcol)) = idsd_selectors df tcol.
Proof.
  intros df tcol. unfold idsd_selectors. generalize (other_columns df tcol) as cs. induction cs as [|[a col] cs IH]; [reflexivity|]. cbn [selector_masks flat_map fst snd]. rewrite map_app, map_map. f_equal; auto.
Qed.

(** * The selectors of a categorical dataset *)
Section Cat.
  Variable D : dataframe.
  Variables tcol tval : string.
  Hypothesis Hcat : categorical D.
  Hypothesis Hcol : has_column D tcol.
  Notation cols := (other_columns D tcol).
  Notation tsel := (Sel tcol EQUAL (VStr tval)).
  Lemma cols_str : forall a col x, In (a, col) cols -> In x col -> is_str x = true.
  Proof. intros a col x H Hx. apply cols_in in H. destruct Hcat as (_ & _ & S0). eapply S0; [apply H|auto]. Qed.
  Lemma sels_in : forall s, In s (idsd_selectors D tcol) <-> exists a col x, In (a, col) cols /\ In x col /\ s = Sel a EQUAL x.
  Proof.
    intros s. unfold idsd_selectors. rewrite in_flat_map. split.
    - intros ([a col] & I & J). cbn [fst snd] in J. apply in_map_iff in J. destruct J as (x & <- & J). exists a, col, x. split; auto. split; auto. apply (distinct_in D tcol tval (fun _ _ => true)); auto. intros y Hy. apply (cols_str a col); auto.
    - intros (a & col & x & I & J & ->). exists (a, col). split; auto. cbn [fst snd]. apply (in_map (fun x => Sel a EQUAL x)). apply (distinct_in D tcol tval (fun _ _ => true)); auto. intros y Hy. apply (cols_str a col); auto.
  Qed.
  Lemma sels_nominal : Forall nominal (idsd_selectors D tcol).
  Proof. apply Forall_forall. intros s Hs. apply sels_in in Hs. destruct Hs as (a & col & x & I & J & ->). split; auto. cbn. apply (cols_str a col); auto. Qed.
  Lemma sels_nodup : NoDup (idsd_selectors D tcol).
  Proof.
    assert (G : forall cs, incl cs cols -> NoDup (map fst cs) -> NoDup (flat_map (fun ac => map (fun x => Sel (fst ac) EQUAL x) (distinct_values (snd ac))) cs)).
    { induction cs as [|[a col] cs IH]; intros HI ND; cbn [flat_map fst snd]; [constructor|]. cbn [map fst] in ND. inversion ND as [|? ? N1 N2]; subst.
      assert (A : NoDup (map (fun x => Sel a EQUAL x) (distinct_values col))).
      { pose proof (distinct_nodup col) as N. induction N as [|x l Nx N IHn]; cbn [map]; constructor; auto. intros X. apply in_map_iff in X. destruct X as (y & E & Iy). injection E as ->. contradiction. }
      assert (B : NoDup (flat_map (fun ac => map (fun x => Sel (fst ac) EQUAL x) (distinct_values (snd ac))) cs)) by (apply IH; auto; intros x Hx; apply HI; right; auto).
      assert (Dj : forall s, In s (map (fun x => Sel a EQUAL x) (distinct_values col)) -> In s (flat_map (fun ac => map (fun x => Sel (fst ac) EQUAL x) (distinct_values (snd ac))) cs) -> False).
      { intros s H1 H2. apply in_map_iff in H1. destruct H1 as (x & <- & _). apply in_flat_map in H2. destruct H2 as ([b col'] & I & J). cbn [fst snd] in J. apply in_map_iff in J. destruct J as (y & E & _). injection E as -> _. apply N1. change a with (fst (a, col')). apply in_map; auto. }
      clear - A B Dj. induction A as [|x l Nx N IHn]; cbn [app]; auto. constructor.
      - intros I. apply in_app_or in I. destruct I as [I|I]; auto. apply (Dj x); auto. left; auto.
      - apply IHn. intros s Is; apply Dj. right; auto. }
    apply G; [intros x Hx; exact Hx|]. apply cols_nodup; auto. exact (fun _ _ => true).
  Qed.
  Lemma masks_in : forall s a, In (s, a) (selector_masks cols) -> a = col_mask D s.
  Proof.
    intros s a H. unfold selector_masks in H. apply in_flat_map in H. destruct H as ([b col] & I & J). cbn [fst snd] in J. apply in_map_iff in J. destruct J as (x & E & _). injection E as <- <-.
    pose proof I as I'. apply cols_in in I'. destruct I' as [I' _]. pose proof (col_length D Hcat _ _ I') as L.
    assert (G : col_get (df_cols D) b = Some col) by (apply col_get_in; auto; apply Hcat).
    apply (nth_ext _ _ false false); [unfold col_mask; rewrite !map_length, seq_length; auto|]. intros i Hi. rewrite map_length, L in Hi. unfold col_mask.
    rewrite (nth_indep (map _ (seq _ _)) false (row_matchesb D 0 (Sel b EQUAL x))) by (rewrite map_length, seq_length; auto). rewrite (map_nth (fun i => row_matchesb D i (Sel b EQUAL x))), seq_nth by auto. cbn [plus].
    unfold row_matchesb, cell. cbn [s_attr s_op s_val]. rewrite G. destruct (nth_error col i) as [y|] eqn:E; [|apply nth_error_None in E; lia]. cbn [op_evaluate].
    rewrite (nth_indep _ false (py_eq y x)) by (rewrite map_length; lia). rewrite (map_nth (fun y => py_eq y x)). f_equal. apply nth_error_nth; auto.
  Qed.
  Lemma appearance_sel : forall d s, In s (idsd_selectors D tcol) -> appearance (idsd_appearances D tcol d) s = Ok (col_mask D s).
  Proof.
    intros d s Hs. unfold appearance. rewrite appearances_set_all. rewrite <- masks_keys in Hs. apply in_map_iff in Hs. destruct Hs as ([t a] & E & H). cbn in E. subst t.
    rewrite (set_all_get _ d s a); auto; try (rewrite masks_keys); [|apply sels_nodup|apply sels_nominal]. f_equal. apply masks_in; auto.
  Qed.
  Lemma appearance_index : forall d, index_ok d (idsd_selectors D tcol) (df_n D) -> idsd_selectors D tcol <> [] -> first_index (idsd_appearances D tcol d) = df_n D.
  Proof.
    intros d I N. rewrite appearances_set_all. apply set_all_first.
    - intros s a H. apply masks_in in H. subst. unfold col_mask. rewrite map_length, seq_length. reflexivity.
    - rewrite masks_keys. exact I.
    - left. intros E. apply N. rewrite <- masks_keys, E. reflexivity.
  Qed.
  (** A description with some row uses selectors of the dataset. *)
  Lemma description_sels : forall X, description D tcol X -> 1 <= coverage D X -> incl X (idsd_selectors D tcol).
  Proof.
    intros X (_ & _ & H) C s Hs. destruct (H s Hs) as (H1 & H2 & H3 & col & G). apply sels_in.
    assert (E : exists i, i < df_n D /\ forallb (row_matchesb D i) X = true).
    { unfold coverage in C. destruct (filter _ _) as [|i l] eqn:F; [cbn in C; lia|]. assert (J : In i (filter (fun i => forallb (row_matchesb D i) X) (seq 0 (df_n D)))) by (rewrite F; left; auto). apply filter_In in J. destruct J as [J1 J2]. apply in_seq in J1. exists i. split; auto; lia. }
    destruct E as (i & Hi & M). rewrite forallb_forall in M. specialize (M s Hs). apply row_match_cell in M; auto; [|split; auto]. unfold cell in M. rewrite G in M. apply nth_error_In in M.
    apply col_get_in in G; [|apply Hcat]. exists (s_attr s), col, (s_val s). split; [apply cols_in; auto|]. split; auto. destruct s as [a o x]. cbn in *. subst. reflexivity.
  Qed.
  (** Two selectors of the same column cannot share a row. *)
  Lemma distinct_attributes : forall X, Forall nominal X -> NoDup X -> 1 <= coverage D X -> NoDup (map s_attr X).
  Proof.
    intros X F ND C. assert (E : exists i, forallb (row_matchesb D i) X = true).
    { unfold coverage in C. destruct (filter _ _) as [|i l] eqn:Fi; [cbn in C; lia|]. assert (J : In i (filter (fun i => forallb (row_matchesb D i) X) (seq 0 (df_n D)))) by (rewrite Fi; left; auto). apply filter_In in J. exists i; tauto. }
    destruct E as (i & M). rewrite forallb_forall in M. rewrite Forall_forall in F.
    assert (K : forall s t, In s X -> In t X -> s_attr s = s_attr t -> s = t).
    { intros s t Hs Ht E. pose proof (M s Hs) as Ms. pose proof (M t Ht) as Mt. destruct (F s Hs) as [O1 V1]. destruct (F t Ht) as [O2 V2]. apply row_match_cell in Ms, Mt; auto; try (split; auto). rewrite E in Ms. rewrite Ms in Mt. injection Mt as Ev. destruct s, t. cbn in *. congruence. }
    clear - ND K. induction ND as [|s X N ND IH]; cbn [map]; constructor.
    - intros H. apply in_map_iff in H. destruct H as (t & E & Ht). assert (t = s) by (apply K; auto; [right; auto|left; auto]). subst. contradiction.
    - apply IH. intros a b Ha Hb. apply K; right; auto.
  Qed.
End Cat.

(** * Combinations *)
Lemma combos_filter : forall {A} (f : A -> bool) l, In (filter f l) (combinations (length (filter f l)) l).
Proof.
  intros A f l. induction l as [|x l IH]; cbn [filter]; [left; reflexivity|]. destruct (f x) eqn:E; cbn [length combinations].
  - apply in_or_app. left. apply in_map. auto.
  - destruct (length (filter f l)) as [|k] eqn:L; [left; destruct (filter f l); [reflexivity|discriminate]|]. apply in_or_app. right. auto.
Qed.
Lemma combos_sub : forall {A} k (l Z : list A), In Z (combinations k l) -> incl Z l /\ length Z = k /\ (NoDup l -> NoDup Z).
Proof.
  intros A k l. revert k. induction l as [|x l IH]; intros [|k] Z H; cbn in H.
  - destruct H as [<-|[]]. split; [intros y []|]. split; [reflexivity|]. intros _. constructor.
  - destruct H.
  - destruct H as [<-|[]]. split; [intros y []|]. split; [reflexivity|]. intros _. constructor.
  - apply in_app_or in H. destruct H as [H|H].
    + apply in_map_iff in H. destruct H as (W & <- & HW). destruct (IH k W HW) as (A1 & B & C). split; [intros y [<-|Hy]; [left; auto|right; auto]|]. split; [cbn; lia|].
      intros N. inversion N; subst. constructor; auto.
    + destruct (IH (S k) Z H) as (A1 & B & C). split; [intros y Hy; right; auto|]. split; [auto|]. intros N. inversion N; auto.
Qed.
Lemma combos_is_filter : forall k (l Z : list selector), NoDup l -> In Z (combinations k l) -> Z = filter (fun x => if in_dec selector_eq_dec x Z then true else false) l.
Proof.
  intros k l. revert k. induction l as [|x l IH]; intros [|k] Z ND H; cbn in H.
  - destruct H as [<-|[]]. reflexivity.
  - destruct H.
  - destruct H as [<-|[]]. clear. induction (x :: l) as [|y r IHr]; [reflexivity|]. cbn. exact IHr.
  - inversion ND as [|? ? N1 N2]; subst. apply in_app_or in H. destruct H as [H|H].
    + apply in_map_iff in H. destruct H as (W & <- & HW). cbn [filter]. destruct (in_dec selector_eq_dec x (x :: W)) as [Hin|Hni]; [|exfalso; apply Hni; left; auto]. f_equal. rewrite (IH k W N2 HW) at 1. apply filter_ext_in. intros y Hy.
      destruct (in_dec selector_eq_dec y W) as [i|i], (in_dec selector_eq_dec y (x :: W)) as [j|j]; auto; [exfalso; apply j; right; auto|]. destruct j as [<-|j]; [contradiction|contradiction].
    + cbn [filter]. destruct (combos_sub (S k) l Z H) as (A & _). destruct (in_dec selector_eq_dec x Z) as [i|i]; [exfalso; apply N1; apply A; auto|]. apply (IH (S k)); auto.
Qed.
Lemma combos_nodup : forall {A} k (l : list A), NoDup l -> NoDup (combinations k l).
Proof.
  intros A k l. revert k. induction l as [|x l IH]; intros [|k] ND; cbn; try (repeat constructor; auto; fail). inversion ND as [|? ? N1 N2]; subst.
  assert (G : forall a b : list (list A), NoDup a -> NoDup b -> (forall z, In z a -> In z b -> False) -> NoDup (a ++ b)).
  { clear. intros a b Na Nb Dj. induction Na as [|x l Nx N IHn]; cbn [app]; auto. constructor; [intros I; apply in_app_or in I; destruct I as [I|I]; auto; apply (Dj x); auto; left; auto|apply IHn; intros z Hz; apply Dj; right; auto]. }
  apply G; [|apply IH; auto|].
  - specialize (IH k N2). induction IH as [|z r Nz Nr IHr]; cbn [map]; constructor; auto. intros H. apply in_map_iff in H. destruct H as (w & E & Hw). injection E as ->. contradiction.
  - intros z H1 H2. apply in_map_iff in H1. destruct H1 as (w & <- & _). apply N1.
    apply (proj1 (combos_sub _ _ _ H2)). left; auto.
Qed.

(** * The reduced dataset *)
Lemma reduce_n : forall k df tcol, df_n (reduce_categories k df tcol) = df_n df.
Proof. intros k df tcol. unfold reduce_categories. destruct (k =? -1)%Z; reflexivity. Qed.
Lemma reduce_cols : forall k df tcol, df_cols (reduce_categories k df tcol) = if (k =? -1)%Z then df_cols df else map (fun ac => if String.eqb (fst ac) tcol then ac else (fst ac, reduce_column k (snd ac))) (df_cols df).
Proof. intros k df tcol. unfold reduce_categories. destruct (k =? -1)%Z; reflexivity. Qed.
Lemma reduce_target : forall k df tcol, col_get (df_cols (reduce_categories k df tcol)) tcol = col_get (df_cols df) tcol.
Proof.
  intros k df tcol. rewrite reduce_cols. destruct (k =? -1)%Z; [reflexivity|]. induction (df_cols df) as [|[a col] cs IH]; [reflexivity|]. cbn [map fst snd].
  destruct (String.eqb a tcol) eqn:E; cbn [col_get fst].
  - apply String.eqb_eq in E. subst. rewrite String.eqb_refl. reflexivity.
  - rewrite String.eqb_sym in E. rewrite E. exact IH.
Qed.
Lemma reduce_column_length : forall k col, length (reduce_column k col) = length col.
Proof. intros k col. unfold reduce_column. destruct (_ <=? _)%Z; [reflexivity|]. apply map_length. Qed.
Lemma reduce_column_str : forall k col, (forall x, In x col -> is_str x = true) -> forall x, In x (reduce_column k col) -> is_str x = true.
Proof.
  intros k col H x. unfold reduce_column. destruct (_ <=? _)%Z; [apply H|]. intros Hx. apply in_map_iff in Hx. destruct Hx as (y & <- & Hy). destruct (existsb _ _); auto.
Qed.
Lemma reduce_categorical : forall k df tcol, categorical df -> categorical (reduce_categories k df tcol).
Proof.
  intros k df tcol (W & N & S0). assert (G : forall a col, In (a, col) (df_cols (reduce_categories k df tcol)) -> exists col', In (a, col') (df_cols df) /\ length col = length col' /\ forall x, In x col -> is_str x = true).
  { intros a col H. rewrite reduce_cols in H. destruct (k =? -1)%Z; [exists col; repeat split; auto; intros; eapply S0; eauto|]. apply in_map_iff in H. destruct H as ([b c0] & E & Hb). cbn [fst snd] in E.
    destruct (String.eqb b tcol); injection E as <- <-; exists c0; [repeat split; auto; intros; eapply S0; eauto|]. split; auto. split; [apply reduce_column_length|]. apply reduce_column_str. intros; eapply S0; eauto. }
  split; [|split].
  - intros a col H. rewrite reduce_n. destruct (G a col H) as (col' & I & -> & _). eapply W; eauto.
  - rewrite reduce_cols. destruct (k =? -1)%Z; auto. rewrite map_map. erewrite map_ext; [exact N|]. intros [a col]. cbn [fst snd]. destruct (String.eqb a tcol); reflexivity.
  - intros a col x H Hx. destruct (G a col H) as (col' & _ & _ & K). auto.
Qed.

(** * The fit *)
Section Fit.
  Variable c : idsd_config.
  Variable df : dataframe.
  Variables tcol tval : string.
  Hypothesis Hcat : categorical df.
  Notation D := (reduce_categories (ic_cats c) df tcol).
  Notation SS := (idsd_selectors D tcol).
  Variable tcells : list value.
  Hypothesis Hcol : col_get (df_cols df) tcol = Some tcells.
  Hypothesis Hval : In (VStr tval) tcells.
  Hypothesis Hnum : 1 <= ic_num c.
  Variable st : istate.
  Hypothesis Hidx : index_ok (is_app st) SS (df_n df).

  Lemma mask_is : target_mask df tcol (VStr tval) = Ok (col_mask D (Sel tcol EQUAL (VStr tval))).
  Proof.
    destruct (mask_spec D tcol tval) as (m & E & L & R); [apply reduce_categorical; auto|exists tcells; rewrite reduce_target; auto|].
    assert (ET : target_mask df tcol (VStr tval) = target_mask D tcol (VStr tval)) by (unfold target_mask, df_col; rewrite reduce_target; reflexivity).
    rewrite ET, E. f_equal. apply (nth_ext _ _ false false); [unfold col_mask; rewrite map_length, seq_length; auto|]. intros i Hi. rewrite L in Hi. rewrite (R i Hi). unfold col_mask.
    rewrite (nth_indep _ false (row_matchesb D 0 (Sel tcol EQUAL (VStr tval)))) by (rewrite map_length, seq_length; auto). rewrite (map_nth (fun i => row_matchesb D i (Sel tcol EQUAL (VStr tval)))), seq_nth by auto. reflexivity.
  Qed.
  Lemma rows_pos : 1 <= df_n D.
  Proof. rewrite reduce_n. assert (I : In (tcol, tcells) (df_cols df)) by (apply col_get_in; auto; apply Hcat). destruct Hcat as (W & _). specialize (W _ _ I). destruct tcells; [destruct Hval|]. cbn in W. lia. Qed.
  Definition fit_env := IEnv (col_mask D (Sel tcol EQUAL (VStr tval))) (TP_of D tcol tval) (FP_of D tcol tval) (idsd_appearances D tcol (is_app st)).
  Lemma fit_exact : exists st', idsd_fit c st df tcol tval = Ok st' /\
    is_top st' = fold_left (top_k_update c) (map (entry_fun c D fit_env) (candidates c D tcol)) [] /\
    is_app st' = idsd_appearances D tcol (is_app st) /\
    (is_visited st + Z.of_nat (length (is_top st')) <= is_visited st')%Z /\
    (is_visited st' <= is_visited st + Z.of_nat (length (flat_map (fun k => combinations k SS) (seq 1 (max_size c D)))))%Z.
  Proof.
    assert (CD : categorical D) by (apply reduce_categorical; auto). assert (HD : has_column D tcol) by (exists tcells; rewrite reduce_target; auto).
    unfold idsd_fit. assert (AN : all_nominal df = true).
    { unfold all_nominal. apply forallb_forall. intros [a col] H. apply forallb_forall. intros x Hx. destruct Hcat as (_ & _ & S0). eapply S0; eauto. }
    rewrite AN. cbn [negb]. rewrite Hcol. assert (EX : existsb (fun x => py_eq x (VStr tval)) tcells = true).
    { apply existsb_exists. exists (VStr tval). split; auto. cbn. apply String.eqb_refl. }
    rewrite EX. cbn [negb]. rewrite mask_is. cbn [bind].
    assert (PO : population df (col_mask D (Sel tcol EQUAL (VStr tval))) = (TP_of D tcol tval, FP_of D tcol tval)).
    { assert (P := population_spec D tcol tval CD HD (col_mask D (Sel tcol EQUAL (VStr tval)))). unfold population in *. rewrite reduce_n in P. apply P. rewrite <- mask_is. unfold target_mask, df_col. rewrite reduce_target. reflexivity. }
    rewrite PO. cbn [fst snd]. cbv zeta. fold fit_env. fold (max_size c D). rewrite <- (reduce_n (ic_cats c) df tcol).
    assert (G : forall ks st0, top_ok c (is_top st0) -> exists st', fold_res (fun st complexity => grow_tree c fit_env complexity SS (pattern_init []) (repeat true (df_n D)) st) ks st0 = Ok st' /\
      step_ok c D fit_env st0 (flat_map (fun k => filter (fun X => 1 <=? coverage D X) (map pattern_init (combinations k SS))) ks) (length (flat_map (fun k => combinations k SS) ks)) st').
    { induction ks as [|k ks IH]; intros st0 T.
      - exists st0. split; [reflexivity|]. split; [reflexivity|]. split; [reflexivity|]. unfold slack. cbn. lia.
      - cbn [fold_res]. destruct (tree_exact c D tcol tval fit_env rows_pos) with (k := k) (st := st0) as (st1 & E1 & S1); auto.
        + apply sels_nominal; auto.
        + intros s Hs. apply appearance_sel; auto.
        + intros N. apply appearance_index; auto. rewrite reduce_n. auto.
        + apply sels_nodup; auto.
        + rewrite E1. cbn [bind]. destruct (IH st1) as (st2 & E2 & S2).
          * destruct S1 as (-> & _). apply (top_step c D tcol tval fit_env rows_pos); auto.
            -- intros s Hs. apply appearance_sel; auto.
            -- intros N. apply appearance_index; auto. rewrite reduce_n. auto.
            -- intros Y HY. apply (offered_in c D tcol fit_env rows_pos) in HY; [tauto|apply sels_nominal; auto| |auto|apply sels_nodup; auto|intros x Hx; exact Hx].
               intros N. apply appearance_index; auto. rewrite reduce_n. auto.
          * exists st2. split; [exact E2|]. cbn [flat_map]. rewrite app_length. apply (step_trans c D tcol fit_env rows_pos) with (b := st1); auto. intros N. apply appearance_index; auto. rewrite reduce_n. auto. }
    destruct (G (seq 1 (max_size c D)) (IState [] (is_visited st) (is_nonunique st) (is_pruned st) (idsd_appearances D tcol (is_app st)))) as (st' & E & S1).
    { split; [cbn; lia|]. split; constructor. }
    exists st'. split; [exact E|]. destruct S1 as (S1 & SA & S2 & S3). split; [exact S1|]. split; [exact SA|]. unfold slack in S2. cbn [is_visited is_top length] in *. lia.
  Qed.
End Fit.
