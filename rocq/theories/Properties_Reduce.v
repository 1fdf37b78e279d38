(** C59: the reduction of the categories in IDSD. *)
From Verif Require Import SDMapProofs OrderFacts Properties_SDMap Properties_Core MiningProofs FPTreeProofs IDSDSpec IDSDTop IDSDFit.
From Coq Require Import QArith Lia Permutation Sorted.
Open Scope string_scope.
Open Scope list_scope.
Open Scope nat_scope.

(** [number_of_values col n]: the column has n different values. *)
Definition number_of_values (col : list value) (n : nat) : Prop := exists l, NoDup l /\ (forall x, In x l <-> In x col) /\ length l = n.
Definition occurrences (col : list value) (x : value) : nat := count_occ value_eq_dec col x.
Definition texts (col : list value) : Prop := forall x, In x col -> is_str x = true.

Lemma same_members_length : forall (l m : list value), NoDup l -> NoDup m -> (forall x, In x l <-> In x m) -> length l = length m.
Proof. intros l m A B H. apply Permutation_length, NoDup_Permutation; auto. Qed.
Lemma number_unique : forall col n m, number_of_values col n -> number_of_values col m -> n = m.
Proof. intros col n m (l & A & B & <-) (l' & A' & B' & <-). apply same_members_length; auto. intros x. rewrite B, B'. reflexivity. Qed.
Lemma distinct_members : forall col x, texts col -> (In x (distinct_values col) <-> In x col).
Proof. intros col x H. exact (distinct_in (DF 0 []) "" "" (fun _ _ => true) col x H). Qed.
Lemma distinct_number : forall col, texts col -> number_of_values col (length (distinct_values col)).
Proof. intros col H. exists (distinct_values col). split; [apply distinct_nodup|]. split; auto. intros x. apply distinct_members; auto. Qed.
Lemma str_member : forall l s, existsb (fun x => py_eq x (VStr s)) l = true <-> In (VStr s) l.
Proof.
  intros l s. rewrite existsb_exists. split; [intros (x & H & E); destruct x; try discriminate; apply String.eqb_eq in E; subst; auto|intros H; exists (VStr s); split; auto; apply String.eqb_refl].
Qed.
Lemma append_length : forall a b, String.length (a ++ b)%string = String.length a + String.length b.
Proof. induction a as [|x a IH]; intros b; cbn; auto. Qed.
(** The loop that chooses the name never uses all its steps. *)
Lemma other_fresh : forall f l s (used : list value), NoDup used -> incl used l -> (forall t, In (VStr t) used -> String.length t < String.length s) -> length l < f + length used ->
  ~ In (VStr (other_name f l s)) l.
Proof.
  induction f as [|f IH]; intros l s used ND I H L; cbn [other_name]; [apply (NoDup_incl_length ND) in I; lia|].
  destruct (existsb _ l) eqn:E; [|intros K; apply str_member in K; congruence]. apply str_member in E. apply (IH l (s ++ "_")%string (VStr s :: used)).
  - constructor; auto. intros K. apply H in K. lia.
  - intros x [<-|K]; auto.
  - intros t [K|K]; [injection K as <-|apply H in K]; rewrite append_length; cbn; lia.
  - cbn [length]. lia.
Qed.
(** The new name is "other" followed by underscores ... *)
Fixpoint underscores (k : nat) : string := match k with O => "" | S k => ("_" ++ underscores k)%string end.
Lemma append_assoc : forall a b d, ((a ++ b) ++ d = a ++ (b ++ d))%string.
Proof. induction a as [|x a IH]; intros; cbn; [reflexivity|]. f_equal. auto. Qed.
Lemma append_nil : forall a, (a ++ "" = a)%string.
Proof. induction a as [|x a IH]; cbn; [reflexivity|]. f_equal. auto. Qed.
Lemma other_shape : forall f l s, exists k, other_name f l s = (s ++ underscores k)%string /\ forall i, i < k -> In (VStr (s ++ underscores i)%string) l.
Proof.
  induction f as [|f IH]; intros l s; cbn [other_name]; [exists 0; split; [symmetry; apply append_nil|intros; lia]|].
  destruct (existsb _ l) eqn:E; [|exists 0; split; [symmetry; apply append_nil|intros; lia]]. apply str_member in E. destruct (IH l (s ++ "_")%string) as (k & -> & H). exists (S k). split; [rewrite append_assoc; reflexivity|].
  intros [|i] Hi; [cbn [underscores]; rewrite append_nil; auto|]. cbn [underscores]. rewrite <- append_assoc. apply H. lia.
Qed.
(** ... the first one of "other", "other_", "other__", ... that is not a value of the column. *)
Theorem C59_fresh_other : forall col, texts col -> exists k,
  other_name (S (length (distinct_values col))) (distinct_values col) "other" = ("other" ++ underscores k)%string /\
  ~ In (VStr ("other" ++ underscores k)%string) col /\ forall i, i < k -> In (VStr ("other" ++ underscores i)%string) col.
Proof.
  intros col H. destruct (other_shape (S (length (distinct_values col))) (distinct_values col) "other") as (k & E & K). exists k. split; auto. split; [|intros i Hi; apply distinct_members; auto].
  rewrite <- E. rewrite <- distinct_members by auto. apply (other_fresh _ _ _ []); [constructor|intros x []|intros t []|cbn; lia].
Qed.
Lemma count_spec : forall col x, texts col -> In x col -> value_count col x = occurrences col x.
Proof.
  intros col x H Hx. assert (Sx : is_str x = true) by auto. clear Hx. unfold value_count, occurrences. induction col as [|y col IH]; [reflexivity|]. cbn [filter count_occ]. assert (Sy : is_str y = true) by (apply H; left; auto).
  destruct (py_eq_str y x Sy Sx) as [P Q]. destruct (value_eq_dec y x) as [->|N]; [rewrite Q by auto; cbn [length]; f_equal; apply IH; intros z Hz; apply H; right; auto|].
  destruct (py_eq y x); [exfalso; auto|]. apply IH. intros z Hz; apply H; right; auto.
Qed.
Lemma nth_error_map' : forall {A B} (f : A -> B) l i, nth_error (map f l) i = option_map f (nth_error l i).
Proof. intros A B f l. induction l as [|x l IH]; intros [|i]; cbn; auto. Qed.
(** A column with at most [cats] values does not change. *)
Theorem C59_small : forall cats col n, texts col -> number_of_values col n -> (Z.of_nat n <= cats)%Z -> reduce_column cats col = col.
Proof. intros cats col n H N L. unfold reduce_column. rewrite (number_unique _ _ _ N (distinct_number col H)) in L. replace (_ <=? _)%Z with true by (symmetry; apply Z.leb_le; auto). reflexivity. Qed.
(** Otherwise there is a set of values, none of them more frequent than a value outside of the set, whose rows take a new value; the
    other rows do not change, and the column has exactly [cats] values afterwards. *)
Theorem C59_grouped : forall cats col n, texts col -> number_of_values col n -> (1 <= cats < Z.of_nat n)%Z ->
  exists grouped other, NoDup grouped /\ incl grouped col /\ Z.of_nat (length grouped) = (Z.of_nat n - cats + 1)%Z /\
    is_str other = true /\ ~ In other col /\
    (forall x y, In x grouped -> In y col -> ~ In y grouped -> occurrences col x <= occurrences col y) /\
    length (reduce_column cats col) = length col /\
    (forall i x, nth_error col i = Some x -> In x grouped -> nth_error (reduce_column cats col) i = Some other) /\
    (forall i x, nth_error col i = Some x -> ~ In x grouped -> nth_error (reduce_column cats col) i = Some x) /\
    number_of_values (reduce_column cats col) (Z.to_nat cats).
Proof.
  intros cats col n H N [L1 L2]. rewrite (number_unique _ _ _ N (distinct_number col H)) in *. clear N n. set (vs := distinct_values col) in *.
  set (other := VStr (other_name (S (length vs)) vs "other")). set (k := Z.to_nat (Z.of_nat (length vs) - cats + 1)). set (srt := sort_by (fun x y => value_count col x <? value_count col y) (value_counts col)). set (grouped := firstn k srt).
  assert (E : reduce_column cats col = map (fun x => if existsb (fun y => py_eq y x) grouped then other else x) col).
  { unfold reduce_column. fold vs. replace (_ <=? _)%Z with false by (symmetry; apply Z.leb_gt; auto). reflexivity. }
  assert (Ps : Permutation vs srt) by (eapply perm_trans; apply sort_by_perm).
  assert (NS : NoDup srt) by (apply (Permutation_NoDup Ps), distinct_nodup).
  assert (MS : forall x, In x srt <-> In x col). { intros x. rewrite <- (distinct_members col x H). split; [apply (Permutation_in x (Permutation_sym Ps))|apply (Permutation_in x Ps)]. }
  assert (LS : length srt = length vs) by (symmetry; apply Permutation_length; auto).
  assert (SP : srt = grouped ++ skipn k srt) by (symmetry; apply firstn_skipn).
  assert (GI : incl grouped col). { intros x Hx. apply MS. rewrite SP. apply in_or_app; auto. }
  assert (NG : NoDup grouped /\ NoDup (skipn k srt) /\ forall x, In x grouped -> In x (skipn k srt) -> False).
  { rewrite SP in NS. clear - NS. revert NS. generalize grouped (skipn k srt). intros u v NS. induction u as [|x u IH]; cbn [app] in *; [split; [constructor|split; auto]|]. inversion NS as [|? ? N1 N2]; subst. destruct (IH N2) as (A & B & C).
    split; [constructor; auto; intros I; apply N1, in_or_app; auto|]. split; auto. intros y [<-|Hy] I; [apply N1, in_or_app; auto|eauto]. }
  destruct NG as (NG & NR & DJ).
  assert (Mem : forall x, In x col -> existsb (fun y => py_eq y x) grouped = if in_dec value_eq_dec x grouped then true else false).
  { intros x Hx. destruct (in_dec value_eq_dec x grouped) as [i|i].
    - apply existsb_exists. exists x. split; auto. apply py_eq_str; auto.
    - apply not_true_is_false. intros K. apply existsb_exists in K. destruct K as (y & Hy & Q). apply py_eq_str in Q; auto. subst. contradiction. }
  assert (FO : ~ In other col). { unfold other. rewrite <- (distinct_members col _ H). apply (other_fresh _ _ _ []); [constructor|intros x []|intros t []|cbn; lia]. }
  assert (NT : forall i x, nth_error col i = Some x -> nth_error (reduce_column cats col) i = Some (if in_dec value_eq_dec x grouped then other else x)).
  { intros i x Hi. rewrite E, nth_error_map', Hi. cbn [option_map]. rewrite Mem by (eapply nth_error_In; eauto). destruct (in_dec value_eq_dec x grouped); reflexivity. }
  assert (LG : length grouped = k) by (unfold grouped; rewrite firstn_length, LS; unfold k; lia).
  exists grouped, other. split; auto. split; auto. split; [rewrite LG; unfold k; lia|]. split; [reflexivity|]. split; auto. split; [|split; [rewrite E; apply map_length|split; [|split]]].
  - intros x y Hx Hy Ny. rewrite <- !count_spec by auto. assert (Iy : In y (skipn k srt)). { apply MS in Hy. rewrite SP in Hy. apply in_app_or in Hy. destruct Hy; auto; contradiction. }
    assert (St : StronglySorted (fun a b => (value_count col b <? value_count col a) = false) srt).
    { apply (sort_sorted_on (fun _ => True) (fun x y => value_count col x <? value_count col y)); auto.
      - intros a b Q. apply Nat.ltb_lt in Q. apply Nat.ltb_ge. lia. - intros a b d _ _ _ Q1 Q2. apply Nat.ltb_ge in Q1, Q2. apply Nat.ltb_ge. lia. - apply Forall_forall; auto. }
    rewrite SP in St. clear - St Hx Iy. revert St Hx Iy. generalize grouped (skipn k srt). intros u v St Hx Iy. induction u as [|a u IH]; [destruct Hx|]. cbn [app] in St. inversion St as [|? ? S1 F]; subst. destruct Hx as [<-|Hx]; auto.
    rewrite Forall_forall in F. specialize (F y (in_or_app u v y (or_intror Iy))). apply Nat.ltb_ge in F. auto.
  - intros i x Hi Hx. rewrite (NT i x Hi). destruct (in_dec value_eq_dec x grouped); [reflexivity|contradiction].
  - intros i x Hi Hx. rewrite (NT i x Hi). destruct (in_dec value_eq_dec x grouped); [contradiction|reflexivity].
  - exists (other :: skipn k srt). split; [constructor; auto; intros I; apply FO, MS; rewrite SP; apply in_or_app; auto|]. split.
    + intros x. rewrite E, in_map_iff. split.
      * intros [<-|Hx].
        -- destruct grouped as [|g gs] eqn:Eg; [cbn in LG; unfold k in LG; lia|]. exists g. rewrite <- Eg in *. assert (Ig : In g grouped) by (rewrite Eg; left; auto). split; auto. rewrite Mem by auto. destruct (in_dec value_eq_dec g grouped); [reflexivity|contradiction].
        -- exists x. assert (Hc : In x col) by (apply MS; rewrite SP; apply in_or_app; auto). split; auto. rewrite Mem by auto. destruct (in_dec value_eq_dec x grouped); [exfalso; eauto|reflexivity].
      * intros (y & Q & Hy). rewrite Mem in Q by auto. destruct (in_dec value_eq_dec y grouped); [left; auto|right; subst x]. apply MS in Hy. rewrite SP in Hy. apply in_app_or in Hy. destruct Hy; auto; contradiction.
    + cbn [length]. rewrite skipn_length, LS. unfold k. lia.
Qed.
(** In a dataset: the same rows and columns, the target column as it was, the other columns reduced; nothing changes with cats = -1. *)
Theorem C59_dataset : forall cats df tcol, df_n (reduce_categories cats df tcol) = df_n df /\
  map fst (df_cols (reduce_categories cats df tcol)) = map fst (df_cols df) /\
  col_get (df_cols (reduce_categories cats df tcol)) tcol = col_get (df_cols df) tcol /\
  (forall a, a <> tcol -> cats <> (-1)%Z -> col_get (df_cols (reduce_categories cats df tcol)) a = option_map (reduce_column cats) (col_get (df_cols df) a)) /\
  (cats = (-1)%Z -> reduce_categories cats df tcol = df).
Proof.
  intros cats df tcol. split; [apply reduce_n|]. split; [|split; [apply reduce_target|split]].
  - rewrite reduce_cols. destruct (cats =? -1)%Z; auto. rewrite map_map. apply map_ext. intros [a col]. cbn [fst snd]. destruct (String.eqb a tcol); reflexivity.
  - intros a Na Nc. rewrite reduce_cols. apply Z.eqb_neq in Nc. rewrite Nc. induction (df_cols df) as [|[b col] l IH]; [reflexivity|]. cbn [map col_get fst snd].
    destruct (String.eqb b tcol) eqn:Eb; cbn [col_get]; destruct (String.eqb a b) eqn:Ea; try (exact IH); try reflexivity.
    apply String.eqb_eq in Ea, Eb. congruence.
  - intros ->. reflexivity.
Qed.
(** Five values, "other" among them, reduced to 3. *)
Definition ex_col : list value := map VStr ["k"; "other"; "k"; "m"; "k"; "m"; "q"; "r"].
Example C59_nonvacuous : texts ex_col /\ number_of_values ex_col 5 /\ reduce_column 3 ex_col = map VStr ["k"; "other_"; "k"; "m"; "k"; "m"; "other_"; "other_"].
Proof.
  assert (T : texts ex_col) by (intros x Hx; apply in_map_iff in Hx; destruct Hx as (s & <- & _); reflexivity). split; auto. split; [exact (distinct_number ex_col T)|]. vm_compute. reflexivity.
Qed.
Print Assumptions C59_fresh_other.
Print Assumptions C59_small.
Print Assumptions C59_grouped.
Print Assumptions C59_dataset.
