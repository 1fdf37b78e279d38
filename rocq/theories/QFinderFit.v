(** QFinder: the candidates, their rows and their measures. *)
From Verif Require Import SDMapProofs CorePattern CoreOrder CoreText OrderFacts Properties_Core QFinderSpec IDSDTop IDSDProofs IDSDFit Properties_IDSD Properties_Reduce QFinderTop.
From Verif Require Import Properties_Cred.
From Coq Require Import QArith Lia Permutation Sorted Lqa.
Open Scope string_scope.
Open Scope list_scope.
Open Scope nat_scope.

(** * The values of a column *)
Definition kept_values (cats : Z) (col : list value) : list value :=
  if (Z.of_nat (length (distinct_values col)) <=? cats)%Z || (cats =? -1)%Z then distinct_values col else firstn (Z.to_nat (cats - 1)) (value_counts col).
Lemma counts_perm : forall col, Permutation (distinct_values col) (value_counts col).
Proof. intros col. apply sort_by_perm. Qed.
Lemma firstn_in : forall {A} k (l : list A) x, In x (firstn k l) -> In x l.
Proof. intros A k l x H. rewrite <- (firstn_skipn k l). apply in_or_app; auto. Qed.
Lemma firstn_nodup : forall {A} k (l : list A), NoDup l -> NoDup (firstn k l).
Proof. intros A k l. revert k. induction l as [|x l IH]; intros [|k] N; cbn [firstn]; try constructor; inversion N; subst; auto. intros K. apply firstn_in in K. auto. Qed.
Lemma kept_in : forall cats col x, texts col -> In x (kept_values cats col) -> In x col.
Proof.
  intros cats col x T H. unfold kept_values in H. destruct (_ || _); [apply distinct_members; auto|]. apply firstn_in in H. apply (Permutation_in x (Permutation_sym (counts_perm col))) in H. apply distinct_members; auto.
Qed.
Lemma kept_nodup : forall cats col, NoDup (kept_values cats col).
Proof. intros cats col. unfold kept_values. destruct (_ || _); [apply distinct_nodup|]. apply firstn_nodup. apply (Permutation_NoDup (counts_perm col)), distinct_nodup. Qed.
Lemma kept_spec : forall cats col, texts col -> most_frequent cats col (kept_values cats col).
Proof.
  intros cats col T. split; [apply kept_nodup|]. split; [intros x; apply kept_in; auto|].
  assert (U : forall n, number_of_values col n -> n = length (distinct_values col)) by (intros n Hn; apply (number_unique col); auto; apply distinct_number; auto). split.
  - intros n Hn H x Hx. rewrite (U n Hn) in H. unfold kept_values. replace (_ || _) with true; [apply distinct_members; auto|]. symmetry. apply orb_true_iff. rewrite Z.leb_le, Z.eqb_eq. tauto.
  - intros n Hn H1 H2. rewrite (U n Hn) in H2. unfold kept_values. replace (_ || _) with false by (symmetry; apply orb_false_iff; split; [apply Z.leb_gt|apply Z.eqb_neq]; auto).
    split; [rewrite firstn_length, <- (Permutation_length (counts_perm col)); lia|]. intros x y Hx Hy Ny.
    assert (Iy : In y (value_counts col)) by (apply (Permutation_in y (counts_perm col)), distinct_members; auto). rewrite <- (firstn_skipn (Z.to_nat (cats - 1)) (value_counts col)) in Iy. apply in_app_or in Iy. destruct Iy as [Iy|Iy]; [contradiction|].
    assert (Hx' : In x col) by (apply distinct_members; auto; apply (Permutation_in x (Permutation_sym (counts_perm col))); apply (firstn_in _ _ _ Hx)).
    assert (SC : StronglySorted (fun a b => (value_count col a <? value_count col b) = false) (value_counts col)).
    { unfold value_counts. apply (sort_sorted_on (fun _ => True) (fun a b => value_count col b <? value_count col a)); [intros a b K; apply Nat.ltb_lt in K; apply Nat.ltb_ge; lia|intros a b d _ _ _ K1 K2; apply Nat.ltb_ge in K1, K2; apply Nat.ltb_ge; lia|apply Forall_forall; auto]. }
    rewrite <- (firstn_skipn (Z.to_nat (cats - 1)) (value_counts col)) in SC. rewrite <- !count_spec by auto. clear - SC Hx Iy.
    induction (firstn (Z.to_nat (cats - 1)) (value_counts col)) as [|z l IH]; [destruct Hx|]. cbn [app] in SC. inversion SC as [|? ? S1 S2]; subst. destruct Hx as [->|Hx]; auto. rewrite Forall_forall in S2. specialize (S2 y (in_or_app _ _ _ (or_intror Iy))). apply Nat.ltb_ge in S2. exact S2.
Qed.
Lemma values_cases : forall cats col, exists o, (q_values cats col = kept_values cats col \/ q_values cats col = kept_values cats col ++ [VStr o]) /\ (texts col -> ~ In (VStr o) col).
Proof.
  intros cats col. exists (other_name (S (length (distinct_values col))) (distinct_values col) "other"). split; [unfold q_values, kept_values; destruct (_ || _); auto|].
  intros T K. apply distinct_members in K; auto. revert K. apply (other_fresh _ _ _ []); [constructor|intros x []|intros t []|cbn; lia].
Qed.
Lemma values_str : forall cats col x, texts col -> In x (q_values cats col) -> is_str x = true.
Proof. intros cats col x T H. destruct (values_cases cats col) as (o & [E|E] & _); rewrite E in H; [apply T, (kept_in cats); auto|]. apply in_app_or in H. destruct H as [H|[<-|[]]]; [apply T, (kept_in cats); auto|reflexivity]. Qed.
Lemma values_nodup : forall cats col, texts col -> NoDup (q_values cats col).
Proof.
  intros cats col T. destruct (values_cases cats col) as (o & [E|E] & No); rewrite E; [apply kept_nodup|]. apply nodup_app; [apply kept_nodup|repeat constructor; intros []|]. intros x Hx [<-|[]]. apply (No T). apply (kept_in cats); auto.
Qed.
Lemma values_kept : forall cats col x, texts col -> In x col -> (In x (q_values cats col) <-> In x (kept_values cats col)).
Proof. intros cats col x T Hx. destruct (values_cases cats col) as (o & [E|E] & No); rewrite E; [tauto|]. rewrite in_app_iff. split; [intros [H|[H|[]]]; auto; exfalso; apply (No T); rewrite H; auto|auto]. Qed.

(** * The candidates *)
Lemma fold_add : forall l, NoDup l -> Forall nominal l -> fold_left add_selector l (pattern_init []) = pattern_init l.
Proof.
  intros l. induction l as [|s l IH] using rev_ind; intros N F; [reflexivity|]. rewrite fold_left_app. cbn [fold_left]. rewrite IH; [apply add_nominal; auto|apply NoDup_remove_1 in N; rewrite app_nil_r in N; auto|apply Forall_app in F; tauto].
Qed.
Lemma combos_1 : forall {A} (l : list A), combinations 1 l = map (fun x => [x]) l.
Proof. intros A l. induction l as [|x l IH]; [reflexivity|]. cbn [combinations]. fold (@combinations A). rewrite IH. destruct l; reflexivity. Qed.
Lemma init_combos_nodup : forall (Ss : list selector) (f : list selector -> bool) ks, Forall nominal Ss -> NoDup Ss -> NoDup ks -> NoDup (flat_map (fun k => map pattern_init (filter f (combinations k Ss))) ks).
Proof.
  intros Ss f ks SN SD NK.
  assert (K : forall k Z, In Z (combinations k Ss) -> Permutation Z (pattern_init Z) /\ length (pattern_init Z) = k).
  { intros k Z HZ. destruct (combos_sub _ _ _ HZ) as (I & L & ND). specialize (ND SD). assert (FZ : Forall nominal Z) by (apply Forall_forall; intros s Hs; rewrite Forall_forall in SN; auto).
    destruct (pattern_nominal Z ND FZ) as [P _]. split; auto. rewrite <- (Permutation_length P). auto. }
  apply nodup_flat_map; auto.
  - intros k _. assert (NC := NoDup_filter f (combos_nodup k _ SD)). assert (J : forall Z W, In Z (filter f (combinations k Ss)) -> In W (filter f (combinations k Ss)) -> pattern_init Z = pattern_init W -> Z = W).
    { intros Z W HZ HW E. apply filter_In in HZ, HW. destruct HZ as [HZ _], HW as [HW _]. destruct (K _ _ HZ) as [PZ _]. destruct (K _ _ HW) as [PW _]. rewrite (combos_is_filter _ _ _ SD HZ), (combos_is_filter _ _ _ SD HW). apply filter_ext_in. intros s _.
      assert (M : In s Z <-> In s W). { split; intros I; [apply (Permutation_in s (Permutation_sym PW)); rewrite <- E; apply (Permutation_in s PZ); auto|apply (Permutation_in s (Permutation_sym PZ)); rewrite E; apply (Permutation_in s PW); auto]. }
      destruct (in_dec selector_eq_dec s Z), (in_dec selector_eq_dec s W); tauto. }
    revert NC J. generalize (filter f (combinations k Ss)) as l. clear. intros l ND J. induction ND as [|z l Nz ND IH]; cbn [map]; constructor; [|apply IH; intros; apply J; auto; right; auto].
    intros H. apply in_map_iff in H. destruct H as (w & E & Hw). assert (w = z) by (apply J; auto; [right; auto|left; auto]). subst. contradiction.
  - intros a b X _ _ Ha Hb. apply in_map_iff in Ha, Hb. destruct Ha as (Z & <- & HZ), Hb as (W & E & HW). apply filter_In in HZ, HW. destruct HZ as [HZ _], HW as [HW _].
    destruct (K _ _ HZ) as [_ L1]. destruct (K _ _ HW) as [_ L2]. congruence.
Qed.
Lemma same_columns_spec : forall l, same_columns l = false <-> NoDup (map s_attr l).
Proof.
  intros l. unfold same_columns. rewrite negb_false_iff, Nat.eqb_eq. rewrite <- (map_length s_attr l). split; intros H.
  - apply (@NoDup_incl_NoDup _ (nodup string_dec (map s_attr l))); [apply NoDup_nodup|lia|intros x; apply nodup_In].
  - rewrite nodup_fixed_point; auto.
Qed.
Section Candidates.
  Variable c : qconfig.
  Variable D : dataframe.
  Variable tcol : string.
  Hypothesis Hcat : categorical D.
  Notation cols := (other_columns D tcol).
  Notation QS := (q_selectors (q_cats c) D tcol).
  Notation mx := (if (q_max c =? -1)%Z then length (other_columns D tcol) else Z.to_nat (q_max c)).
  Lemma col_texts : forall a col, In (a, col) cols -> texts col.
  Proof. intros a col H x Hx. apply cols_in in H. destruct Hcat as (_ & _ & S0). eapply S0; [apply H|auto]. Qed.
  Lemma qs_in : forall s, In s QS <-> exists a col x, In (a, col) cols /\ In x (q_values (q_cats c) col) /\ s = Sel a EQUAL x.
  Proof.
    intros s. unfold q_selectors. rewrite in_flat_map. split.
    - intros ([a col] & I & J). cbn [fst snd] in J. apply in_map_iff in J. destruct J as (x & <- & J). exists a, col, x. auto.
    - intros (a & col & x & I & J & ->). exists (a, col). split; auto. cbn [fst snd]. apply (in_map (fun x => Sel a EQUAL x)). auto.
  Qed.
  Lemma qs_nominal : Forall nominal QS.
  Proof. apply Forall_forall. intros s Hs. apply qs_in in Hs. destruct Hs as (a & col & x & I & J & ->). split; auto. cbn. apply (values_str (q_cats c) col); auto. apply (col_texts a); auto. Qed.
  Lemma qs_nodup : NoDup QS.
  Proof.
    assert (G : forall cs, incl cs cols -> NoDup (map fst cs) -> NoDup (flat_map (fun ac => map (fun x => Sel (fst ac) EQUAL x) (q_values (q_cats c) (snd ac))) cs)).
    { induction cs as [|[a col] cs IH]; intros HI ND; cbn [flat_map fst snd]; [constructor|]. cbn [map fst] in ND. inversion ND as [|? ? N1 N2]; subst. apply nodup_app.
      - pose proof (values_nodup (q_cats c) col (col_texts a col (HI _ (or_introl eq_refl)))) as N. induction N as [|x l Nx N IHn]; cbn [map]; constructor; auto. intros X. apply in_map_iff in X. destruct X as (y & E & Iy). injection E as ->. contradiction.
      - apply IH; auto; intros x Hx; apply HI; right; auto.
      - intros s H1 H2. apply in_map_iff in H1. destruct H1 as (x & <- & _). apply in_flat_map in H2. destruct H2 as ([b col'] & I & J). cbn [fst snd] in J. apply in_map_iff in J. destruct J as (y & E & _). injection E as -> _. apply N1. change a with (fst (a, col')). apply in_map; auto. }
    apply G; [intros x Hx; exact Hx|]. apply (cols_nodup D tcol "" Hcat (fun _ _ => true)).
  Qed.
  Lemma q_candidates_eq : q_candidates c D tcol = flat_map (fun k => map pattern_init (filter (fun l => negb (same_columns l)) (combinations k QS))) (seq 1 (max 1 mx)).
  Proof.
    unfold q_candidates. replace (max 1 mx) with (S (mx - 1)) by lia. cbn [seq flat_map]. f_equal.
    - rewrite combos_1. generalize QS as l. induction l as [|s l IH]; [reflexivity|]. cbn [map filter]. replace (negb (same_columns [s])) with true by reflexivity. cbn [map]. f_equal. auto.
    - apply flat_map_ext. intros k. apply map_ext_in. intros l Hl. apply filter_In in Hl. destruct Hl as [Hl _]. destruct (combos_sub _ _ _ Hl) as (I & L & ND). apply fold_add; [apply ND, qs_nodup|]. apply Forall_forall. intros s Hs. pose proof qs_nominal as F. rewrite Forall_forall in F. auto.
  Qed.
  Lemma q_candidates_nodup : NoDup (q_candidates c D tcol).
  Proof. rewrite q_candidates_eq. apply init_combos_nodup; [apply qs_nominal|apply qs_nodup|apply seq_NoDup]. Qed.
  (** Every candidate is a description (possibly without rows). *)
  Lemma candidate_description : forall X, In X (q_candidates c D tcol) -> description D tcol X /\ incl X QS /\ 1 <= length X <= max 1 mx.
  Proof.
    intros X H. rewrite q_candidates_eq in H. apply in_flat_map in H. destruct H as (k & Hk & H). apply in_map_iff in H. destruct H as (Z & <- & HZ). apply filter_In in HZ. destruct HZ as [HZ _]. apply in_seq in Hk.
    destruct (combos_sub _ _ _ HZ) as (I & L & ND). specialize (ND qs_nodup). pose proof qs_nominal as SN. rewrite Forall_forall in SN.
    assert (FZ : Forall nominal Z) by (apply Forall_forall; intros s Hs; auto). destruct (pattern_nominal Z ND FZ) as [P S0].
    assert (IX : incl (pattern_init Z) QS) by (intros s Hs; apply I, (Permutation_in s (Permutation_sym P)); auto).
    split; [|split; [auto|rewrite <- (Permutation_length P), L; lia]]. split; [|split; auto].
    - intros E. rewrite E in P. apply Permutation_sym, Permutation_nil in P. subst Z. cbn in L. lia.
    - intros s Hs. apply IX in Hs. destruct (SN s Hs) as [N1 N2]. split; auto. split; auto. apply qs_in in Hs. destruct Hs as (a & col & x & Hc1 & Hx & ->). cbn [s_attr]. apply cols_in in Hc1. destruct Hc1 as [Hin Hne]. split; auto. exists col. apply col_get_in; auto. apply Hcat.
  Qed.
  (** The values that are kept in a column. *)
  Definition kept_of_column (a : string) : list value := match col_get cols a with Some col => kept_values (q_cats c) col | None => [] end.
  Notation is_qcandidate := (is_qcandidate c D tcol).
  Lemma sub_columns : forall X, description D tcol X -> 1 <= coverage D X -> length X <= length cols.
  Proof.
    intros X (NE & S0 & H) C. assert (F : Forall nominal X) by (apply Forall_forall; intros s Hs; destruct (H s Hs) as (A & B & _); split; auto).
    rewrite <- (map_length s_attr X), <- (map_length fst cols). apply NoDup_incl_length; [apply (distinct_attributes D Hcat); auto; apply sorted_nodup_nominal; auto|].
    intros a Ha. apply in_map_iff in Ha. destruct Ha as (s & <- & Hs). destruct (H s Hs) as (_ & _ & N & col & G). apply col_get_in in G; [|apply Hcat]. change (s_attr s) with (fst (s_attr s, col)). apply in_map. apply cols_in; auto.
  Qed.
  Lemma qcandidate_in : forall X, In X (q_candidates c D tcol) /\ 1 <= coverage D X <-> is_qcandidate kept_of_column X.
  Proof.
    intros X. pose proof (cols_nodup D tcol "" Hcat (fun _ _ => true)) as NC. split.
    - intros [H C]. destruct (candidate_description X H) as (Ds & I & L). split; auto. split; auto. split.
      + destruct (q_max c =? -1)%Z eqn:E; [left; apply Z.eqb_eq; auto|right]. lia.
      + intros s Hs. pose proof (I s Hs) as Q. apply qs_in in Q. destruct Q as (a & col & x & Q1 & Q2 & ->). cbn [s_attr s_val]. unfold kept_of_column. rewrite (proj2 (col_get_in cols a col NC) Q1).
        assert (J := description_sels D tcol "" Hcat X Ds C _ Hs). apply (sels_in D tcol "" Hcat) in J. destruct J as (a' & col' & x' & J1 & J2 & J3). injection J3 as <- <-.
        assert (col' = col). { apply (col_get_in cols a col' NC) in J1. apply (col_get_in cols a col NC) in Q1. congruence. } subst col'. apply values_kept; auto. apply (col_texts a); auto.
    - intros (Ds & C & L & Kp). split; auto. assert (LC := sub_columns X Ds C). assert (LX : 1 <= length X) by (destruct X; [destruct Ds; congruence|cbn; lia]). destruct Ds as (NE & S0 & Hs).
      assert (I : incl X QS).
      { intros s Is. destruct (Hs s Is) as (A & B & N & col & G). apply col_get_in in G; [|apply Hcat]. assert (G' : In (s_attr s, col) cols) by (apply cols_in; auto). apply qs_in. exists (s_attr s), col, (s_val s). split; auto. split; [|destruct s; cbn in *; subst; auto].
        specialize (Kp s Is). unfold kept_of_column in Kp. rewrite (proj2 (col_get_in cols _ col NC) G') in Kp. apply values_kept; auto; [apply (col_texts (s_attr s)); auto|]. apply (kept_in (q_cats c)); auto. apply (col_texts (s_attr s)); auto. }
      assert (FX : Forall nominal X) by (apply Forall_forall; intros s Is; destruct (Hs s Is) as (A & B & _); split; auto). assert (NX : NoDup X) by (apply sorted_nodup_nominal; auto).
      set (Z := filter (fun x => if in_dec selector_eq_dec x X then true else false) QS).
      assert (MZ : forall s, In s Z <-> In s X). { intros s. unfold Z. rewrite filter_In. destruct (in_dec selector_eq_dec s X) as [i|i]; split; [auto|auto|intros [_ Hf]; discriminate|contradiction]. }
      assert (NZ : NoDup Z) by (apply NoDup_filter, qs_nodup). assert (FZ : Forall nominal Z) by (apply Forall_forall; intros s Is; apply MZ in Is; rewrite Forall_forall in FX; auto).
      assert (PZ : Permutation Z X) by (apply NoDup_Permutation; auto). destruct (pattern_nominal Z NZ FZ) as [P S1].
      assert (E : pattern_init Z = X).
      { apply sorted_unique; auto. - apply Forall_forall. intros s Is. apply (Permutation_in s (Permutation_sym P)) in Is. rewrite Forall_forall in FZ. auto.
        - intros s. rewrite <- MZ. split; [apply (Permutation_in s (Permutation_sym P))|apply (Permutation_in s P)]. }
      rewrite q_candidates_eq. apply in_flat_map. exists (length X). split; [apply in_seq; destruct (q_max c =? -1)%Z eqn:Em; [lia|apply Z.eqb_neq in Em; lia]|]. rewrite <- E at 1. apply in_map. apply filter_In. split; [rewrite <- (Permutation_length PZ); apply combos_filter|].
      apply negb_true_iff, same_columns_spec. apply (Permutation_NoDup (Permutation_map s_attr (Permutation_sym PZ))). apply (distinct_attributes D Hcat); auto.
  Qed.
End Candidates.

(** * The bitset *)
Lemma zcount_map' : forall (f : nat -> bool) l, zcount (map f l) = Z.of_nat (length (filter f l)).
Proof. intros f l. unfold zcount. f_equal. induction l as [|i l IH]; cbn [map filter]; auto. destruct (f i); cbn [length]; auto. Qed.
Lemma q_count : forall D X, zcount (rows_mask D X) = Z.of_nat (coverage D X).
Proof. intros D X. unfold rows_mask. rewrite zcount_map'. reflexivity. Qed.
Lemma coverage_antitone : forall D X Y, incl X Y -> coverage D Y <= coverage D X.
Proof.
  intros D X Y I. unfold coverage. generalize (seq 0 (df_n D)). intros l. induction l as [|i l IH]; cbn [filter]; auto.
  assert (H : forallb (row_matchesb D i) Y = true -> forallb (row_matchesb D i) X = true) by (rewrite !forallb_forall; intros H s Hs; apply H, I, Hs).
  destruct (forallb _ Y), (forallb _ X); cbn [length]; try lia; discriminate H; auto.
Qed.
Lemma bit_set_new : forall d k a, ~ In k (map fst d) -> bit_set d k a = d ++ [(k, a)].
Proof.
  induction d as [|[k' b] d IH]; intros k a N; cbn [bit_set app]; [reflexivity|]. cbn [map fst In] in N. destruct (String.eqb k' k) eqn:E; [apply String.eqb_eq in E; tauto|]. rewrite IH; auto.
Qed.
Lemma assoc_in : forall {A} (d : list (string * A)) k a, NoDup (map fst d) -> In (k, a) d -> assoc d k = Ok a.
Proof.
  intros A d k a N H. induction d as [|[k' b] d IH]; [destruct H|]. cbn [map fst] in N. inversion N as [|? ? N1 N2]; subst. cbn [assoc]. destruct (String.eqb k' k) eqn:E.
  - apply String.eqb_eq in E. subst k'. destruct H as [H|H]; [injection H as ->; auto|]. exfalso. apply N1. change k with (fst (k, a)). apply in_map; auto.
  - destruct H as [H|H]; [injection H as -> _; rewrite String.eqb_refl in E; discriminate|auto].
Qed.
Lemma assoc_none : forall {A} (d : list (string * A)) k, ~ In k (map fst d) -> assoc d k = Err KeyError.
Proof. intros A d k N. induction d as [|[k' b] d IH]; [reflexivity|]. cbn [map fst In assoc] in *. destruct (String.eqb k' k) eqn:E; [apply String.eqb_eq in E; tauto|]. apply IH. tauto. Qed.
Lemma assoc_err : forall {A} (d : list (string * A)) k e, assoc d k = Err e -> e = KeyError.
Proof. intros A d k e. induction d as [|[k' b] d IH]; cbn [assoc]; [congruence|]. destruct (String.eqb k' k); [discriminate|auto]. Qed.
Lemma map_res_ok : forall {A B} (f : A -> res B) (g : A -> B) l, (forall x, In x l -> f x = Ok (g x)) -> map_res f l = Ok (map g l).
Proof. intros A B f g l H. induction l as [|x l IH]; [reflexivity|]. cbn [map_res map]. rewrite H by (left; auto). cbn [bind]. rewrite IH by (intros; apply H; right; auto). reflexivity. Qed.
Lemma map_res_err : forall {A B} (f : A -> res B) l e, (forall x e', In x l -> f x = Err e' -> e' = e) -> (exists x e', In x l /\ f x = Err e') -> map_res f l = Err e.
Proof.
  intros A B f l e H (x & e' & Hx & E). induction l as [|y l IH]; [destruct Hx|]. cbn [map_res]. destruct (f y) as [b|e0] eqn:Ey; cbn [bind]; [|rewrite (H y e0); auto; left; auto].
  destruct Hx as [->|Hx]; [congruence|]. rewrite IH; auto. intros z e1 Hz. apply H. right; auto.
Qed.
Section Rows.
  Variable c : qconfig.
  Variable D : dataframe.
  Variables tcol tval : string.
  Hypothesis Hcat : categorical D.
  Notation cols := (other_columns D tcol).
  Notation tsel := (Sel tcol EQUAL (VStr tval)).
  Lemma q_mask_ok : forall X s, description D tcol X -> In s X -> q_mask D tcol s = Ok (col_mask D s).
  Proof.
    intros X s (_ & _ & H) Hs. destruct (H s Hs) as (O & V & N & col & G). unfold q_mask. pose proof (cols_nodup D tcol "" Hcat (fun _ _ => true)) as NC.
    assert (I : In (s_attr s, col) (df_cols D)) by (apply col_get_in; auto; apply Hcat). rewrite (proj2 (col_get_in cols (s_attr s) col NC)) by (apply cols_in; auto). f_equal.
    pose proof (col_length D Hcat _ _ I) as L. apply (nth_ext _ _ false false); [unfold col_mask; rewrite !map_length, seq_length; auto|]. intros i Hi. rewrite map_length, L in Hi. unfold col_mask.
    rewrite (nth_indep (map _ (seq _ _)) false (row_matchesb D 0 s)) by (rewrite map_length, seq_length; auto). rewrite (map_nth (fun i => row_matchesb D i s)), seq_nth by auto. cbn [plus].
    unfold row_matchesb, cell. rewrite G. destruct (nth_error col i) as [y|] eqn:E; [|apply nth_error_None in E; lia]. rewrite O. cbn [op_evaluate].
    rewrite (nth_indep _ false (py_eq y (s_val s))) by (rewrite map_length; lia). rewrite (map_nth (fun y => py_eq y (s_val s))). f_equal. apply nth_error_nth; auto.
  Qed.
  Lemma q_entry_ok : forall X, description D tcol X -> q_entry D tcol X = Ok (rows_mask D X).
  Proof.
    intros X Ds. assert (H := fun s => q_mask_ok X s Ds). destruct X as [|s X]; [destruct Ds; congruence|]. cbn [q_entry]. rewrite H by (left; auto). cbn [bind].
    assert (E : col_mask D s = rows_mask D [s]) by (unfold col_mask, rows_mask; apply map_ext; intros i; cbn; rewrite andb_true_r; reflexivity). rewrite E.
    change (s :: X) with ([s] ++ X). assert (G : forall X Y, (forall t, In t X -> q_mask D tcol t = Ok (col_mask D t)) -> fold_res (fun acc t => do m <- q_mask D tcol t; Ok (series_and acc m)) X (rows_mask D Y) = Ok (rows_mask D (Y ++ X))).
    { clear. induction X as [|t X IH]; intros Y H; cbn [fold_res]; [rewrite app_nil_r; reflexivity|]. rewrite H by (left; auto). cbn [bind]. rewrite mask_snoc, IH, <- app_assoc by (intros; apply H; right; auto). reflexivity. }
    apply G. intros t Ht. apply H. right; auto.
  Qed.
  Definition bits (ps : list pattern) : bitset := map (fun X => (pattern_str X, rows_mask D X)) ps.
  Definition covered (ps : list pattern) : list pattern := filter (fun X => 1 <=? coverage D X) ps.
  Lemma generate_ok : forall ps, (forall X, In X ps -> description D tcol X) -> NoDup (map pattern_str (covered ps)) -> generate_bitset D tcol ps = Ok (bits (covered ps)).
  Proof.
    intros ps Hd N. unfold generate_bitset. change (bits (covered ps)) with ([] ++ bits (covered ps)).
    assert (G : forall ps d, (forall X, In X ps -> description D tcol X) -> NoDup (map fst (d ++ bits (covered ps))) ->
      fold_res (fun d p => do a <- q_entry D tcol p; Ok (if (zcount a =? 0)%Z then d else bit_set d (pattern_str p) a)) ps d = Ok (d ++ bits (covered ps))).
    { clear ps Hd N. induction ps as [|X ps IH]; intros d Hd N; cbn [fold_res]; [rewrite app_nil_r; reflexivity|]. rewrite q_entry_ok by (apply Hd; left; auto). cbn [bind]. rewrite q_count. unfold covered in *. cbn [filter] in *.
      destruct (1 <=? coverage D X) eqn:E.
      - apply Nat.leb_le in E. replace (Z.of_nat (coverage D X) =? 0)%Z with false by (symmetry; apply Z.eqb_neq; lia). cbn [bits map] in *. rewrite bit_set_new.
        + rewrite IH; [rewrite <- app_assoc; reflexivity|intros Y HY; apply Hd; right; auto|rewrite <- app_assoc; exact N].
        + intros K. rewrite map_app in N. cbn [map fst] in N. apply NoDup_remove_2 in N. apply N, in_or_app; auto.
      - apply Nat.leb_gt in E. replace (Z.of_nat (coverage D X) =? 0)%Z with true by (symmetry; apply Z.eqb_eq; lia). apply IH; auto. intros Y HY; apply Hd; right; auto. }
    apply G; auto. cbn [app]. unfold bits. rewrite map_map. exact N.
  Qed.
  (** ** The texts *)
  Hypothesis Hread : readable D tcol.
  Lemma parse_ok : forall X, description D tcol X -> 1 <= coverage D X -> pattern_parse (pattern_str X) = Ok X.
  Proof.
    intros X Ds C. assert (I := description_sels D tcol "" Hcat X Ds C). assert (R : forall s, In s X -> constructible s /\ no_space (s_attr s) /\ contains ", " (sel_str s) = false).
    { intros s Hs. apply I in Hs. apply (sels_in D tcol "" Hcat) in Hs. destruct Hs as (a & col & x & Hc & Hx & ->). apply cols_in in Hc. apply (Hread a col x); tauto. }
    destruct Ds as (NE & S0 & H). apply C08_pattern_roundtrip_clean; auto; apply Forall_forall; intros s Hs; apply R; auto.
  Qed.
  Lemma str_nodup : forall L, (forall X, In X L -> description D tcol X /\ 1 <= coverage D X) -> NoDup L -> NoDup (map pattern_str L).
  Proof.
    intros L H N. induction N as [|X L NX N IH]; cbn [map]; constructor; [|apply IH; intros; apply H; right; auto]. intros K. apply in_map_iff in K. destruct K as (Y & E & HY).
    destruct (H X (or_introl eq_refl)) as [D1 C1]. destruct (H Y (or_intror HY)) as [D2 C2]. apply parse_ok in D1, D2; auto. rewrite E, D1 in D2. injection D2 as <-. contradiction.
  Qed.
  (** ** The measures *)
  Definition or_of (X : list selector) : xnum := q_glm_or c (col_mask D tsel) (rows_mask D X).
  Definition p_of (X : list selector) : xnum := q_glm_p c (col_mask D tsel) (rows_mask D X).
  Definition contributions_of (X : list selector) : xnum * xnum := match selector_contribution (fun Y => Ok (or_of Y)) None X with Ok r => r | Err _ => (XNan, XNan) end.
  Definition measures_of (N : nat) (X : list selector) : qcred :=
    QCred (XFin (share D X)) (or_of X) (p_of X) (fst (contributions_of X)) (snd (contributions_of X)) (xtimes (p_of X) N).
  Lemma contributions_ok : forall X, selector_contribution (fun Y => Ok (or_of Y)) None X = Ok (contributions_of X).
  Proof. intros X. unfold contributions_of. destruct (contribution_total (fun Y => Ok (or_of Y)) X) as (r & ->); eauto. Qed.
  Lemma remove_description : forall X s, description D tcol X -> In s X -> remove_selector (pattern_copy X) s = filter (fun t => negb (sel_eq t s)) X /\ (2 <= length X -> description D tcol (filter (fun t => negb (sel_eq t s)) X)).
  Proof.
    intros X s (NE & S0 & H) Hs. assert (F : Forall nominal X) by (apply Forall_forall; intros t Ht; destruct (H t Ht) as (A & B & _); split; auto). assert (HO := nominal_homogeneous X F).
    split; [unfold pattern_copy; apply remove_selector_spec; [apply sorted_strictly_slt; auto|intros x Hx; apply HO; auto]|]. intros L2. split; [|split].
    - intros E. assert (NX := sorted_nodup_nominal X F S0). assert (A : forall t, In t X -> t = s). { intros t Ht. destruct (sel_eq t s) eqn:Q; [rewrite Forall_forall in F; apply sel_eq_nominal in Q; auto|]. assert (K : In t (filter (fun t => negb (sel_eq t s)) X)) by (apply filter_In; rewrite Q; auto). rewrite E in K. destruct K. }
      destruct X as [|a [|b X]]; cbn in L2; try lia. inversion NX as [|? ? N1 N2]; subst. apply N1. left. rewrite (A a), (A b); auto; [right; left; auto|left; auto].
    - unfold sorted_strictly in *. apply SS_filter'; auto.
    - intros t Ht. apply filter_In in Ht. apply H. tauto.
  Qed.
  Lemma contribution_ext' : forall odds odds' p, (2 <= length p -> odds p = odds' p) -> (2 <= length p -> forall s, In s p -> odds (remove_selector (pattern_copy p) s) = odds' (remove_selector (pattern_copy p) s)) -> selector_contribution odds None p = selector_contribution odds' None p.
  Proof.
    intros odds odds' p H1 H2. unfold selector_contribution. destruct (length p) as [|[|k]]; auto. rewrite H1 by lia. destruct (odds' p) as [o|]; [|reflexivity]. cbn [bind]. specialize (H2 ltac:(lia)).
    assert (G : forall l mn mx, incl l p -> contribution_loop odds p o None l mn mx = contribution_loop odds' p o None l mn mx).
    { induction l as [|s l IH]; intros mn mx I; cbn [contribution_loop]; [reflexivity|]. rewrite H2 by (apply I; left; auto). destruct (odds' _); [cbn [bind]; apply IH; intros x Hx; apply I; right; auto|reflexivity]. }
    apply G. intros x Hx; exact Hx.
  Qed.
  Lemma measures_ok : forall L, NoDup L -> (forall X, In X L -> description D tcol X /\ 1 <= coverage D X) -> (forall X s, In X L -> 2 <= length X -> In s X -> In (filter (fun t => negb (sel_eq t s)) X) L) ->
    q_measures c (df_n D) (col_mask D tsel) (bits L) = Ok (map (fun X => (pattern_str X, measures_of (length L) X)) L).
  Proof.
    intros L N H Cl. unfold q_measures, bits.
    assert (E1 : map_res (fun ka : string * list bool => zdiv (inject_Z (zcount (snd ka))) (inject_Z (Z.of_nat (df_n D)))) (map (fun X => (pattern_str X, rows_mask D X)) L) = Ok (map (share D) L)).
    { rewrite <- (map_map (fun X => (pattern_str X, rows_mask D X)) (fun ka : string * list bool => (inject_Z (zcount (snd ka)) / inject_Z (Z.of_nat (df_n D)))%Q) L) || idtac.
      replace (map (share D) L) with (map (fun ka : string * list bool => (inject_Z (zcount (snd ka)) / inject_Z (Z.of_nat (df_n D)))%Q) (map (fun X => (pattern_str X, rows_mask D X)) L)) by (rewrite map_map; apply map_ext; intros X; cbn [snd]; rewrite q_count; reflexivity).
      apply map_res_ok. intros [k a] Hx. apply in_map_iff in Hx. destruct Hx as (X & E & HX). injection E as <- <-. cbn [snd]. unfold zdiv. destruct (H X HX) as [_ Cv]. assert (P : 1 <= df_n D).
      { unfold coverage in Cv. destruct (df_n D); [cbn in Cv; lia|lia]. }
      replace (Qeq_bool (inject_Z (Z.of_nat (df_n D))) 0) with false; [reflexivity|]. symmetry. apply not_true_iff_false. rewrite Qeq_bool_iff. unfold Qeq, inject_Z. cbn. lia. }
    rewrite E1. cbn [bind].
    assert (NS : NoDup (map pattern_str L)) by (apply str_nodup; auto).
    set (odds := map (fun ka : string * list bool => (fst ka, q_glm_or c (col_mask D tsel) (snd ka))) (map (fun X => (pattern_str X, rows_mask D X)) L)).
    assert (Eo : forall X, In X L -> assoc odds (pattern_str X) = Ok (or_of X)).
    { intros X HX. apply assoc_in; [unfold odds; rewrite !map_map; cbn [fst]; exact NS|]. unfold odds. rewrite map_map. apply in_map_iff. exists X. auto. }
    assert (E2 : map_res (fun ka : string * list bool => do p <- pattern_parse (fst ka); selector_contribution (fun q => assoc odds (pattern_str q)) None p) (map (fun X => (pattern_str X, rows_mask D X)) L) = Ok (map contributions_of L)).
    { assert (G : forall L', incl L' L -> map_res (fun ka : string * list bool => do p <- pattern_parse (fst ka); selector_contribution (fun q => assoc odds (pattern_str q)) None p) (map (fun X => (pattern_str X, rows_mask D X)) L') = Ok (map contributions_of L')).
      { induction L' as [|X L' IH]; intros I; [reflexivity|]. cbn [map map_res fst]. assert (HX : In X L) by (apply I; left; auto). destruct (H X HX) as [Ds Cv]. rewrite parse_ok by auto. cbn [bind].
        rewrite (contribution_ext' _ (fun Y => Ok (or_of Y)) X); [rewrite contributions_ok; cbn [bind]; rewrite IH; [reflexivity|intros Y HY; apply I; right; auto]|intros _; apply Eo; auto|].
        intros L2 s Hs. rewrite (proj1 (remove_description X s Ds Hs)). apply Eo. apply Cl; auto. }
      apply G. intros X HX; exact HX. }
    rewrite E2. cbn [bind]. f_equal. clear.
    assert (G : forall (n m : nat) (K : list pattern), n = m -> map (fun x : string * list bool * (Q * (xnum * xnum)) => (fst (fst x), QCred (XFin (fst (snd x))) (q_glm_or c (col_mask D tsel) (snd (fst x))) (q_glm_p c (col_mask D tsel) (snd (fst x))) (fst (snd (snd x))) (snd (snd (snd x)))
      (xtimes (q_glm_p c (col_mask D tsel) (snd (fst x))) n))) (combine (map (fun X => (pattern_str X, rows_mask D X)) K) (combine (map (share D) K) (map contributions_of K))) = map (fun X => (pattern_str X, measures_of m X)) K).
    { intros n m K ->. induction K as [|X K IH]; [reflexivity|]. cbn [map combine]. rewrite IH. reflexivity. }
    apply G. apply map_length.
  Qed.
End Rows.
