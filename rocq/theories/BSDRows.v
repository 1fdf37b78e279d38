(** The bitsets of BSD are the rows of the dataset. *)
From Verif Require Export BSDModel MiningSpec.
From Verif Require Import OrderFacts CoreOrder CoreFrame CoreText SDMapProofs MiningProofs.
Open Scope string_scope.
Open Scope list_scope.
Open Scope Z_scope.

Lemma split1_char : forall q x r, has_char q x = false -> split1 q (x ++ String q r) = Some (x, r).
Proof.
  intros q x. induction x as [|d x IH]; intros r H; cbn [append split1].
  - rewrite Ascii.eqb_refl. reflexivity.
  - cbn [has_char] in H. apply orb_false_iff in H. destruct H as [H1 H2]. rewrite H1, IH; auto.
Qed.
Lemma has_char_app : forall q a b, has_char q (a ++ b) = has_char q a || has_char q b.
Proof. intros q a b. induction a as [|d a IH]; cbn [append has_char]; auto. rewrite IH, orb_assoc. reflexivity. Qed.
Lemma app_suffix_inj : forall (a b s : string), (a ++ s = b ++ s)%string -> a = b.
Proof.
  intros a. induction a as [|d a IH]; intros [|e b] s E; cbn [append] in E; auto.
  - apply (f_equal String.length) in E. cbn [String.length] in E. rewrite CoreText.length_app_str in E. lia.
  - apply (f_equal String.length) in E. cbn [String.length] in E. rewrite CoreText.length_app_str in E. lia.
  - injection E as -> E. f_equal. eapply IH; eauto.
Qed.
Lemma bit_key_inj : forall s t, nominal s -> nominal t -> has_char "'" (s_attr s) = false -> has_char "'" (s_attr t) = false -> bit_key s = bit_key t -> s = t.
Proof.
  intros [a o v] [b o' w] [H1 H2] [H3 H4] Na Nb E. cbn [s_op s_val s_attr] in *. subst.
  destruct v as [v| |]; try discriminate. destruct w as [w| |]; try discriminate.
  unfold bit_key, pattern_init in E. cbn [sort_by insert_by dedup_consecutive pattern_str pattern_str_loop] in E.
  unfold sel_str in E. cbn [s_attr s_op s_val op_str quoted] in E. cbn [append] in E. injection E as E.
  assert (F : forall x y, (x ++ " " ++ "=" ++ " " ++ "'" ++ y ++ "'" = (x ++ " = ") ++ String "'" (y ++ "'"))%string).
  { intros x y. induction x as [|d x IH]; cbn [append]; auto. cbn [append] in IH. rewrite IH. reflexivity. }
  assert (A : forall x y z : string, ((x ++ y) ++ z = x ++ (y ++ z))%string) by (intros x y z; induction x; cbn [append]; congruence).
  assert (E' : ((a ++ " = ") ++ String "'" (v ++ "']") = (b ++ " = ") ++ String "'" (w ++ "']"))%string).
  { rewrite !A in *. cbn [append] in *. rewrite !A in E. exact E. }
  apply (f_equal (split1 "'")) in E'. rewrite !split1_char in E' by (rewrite has_char_app; apply orb_false_iff; split; auto).
  injection E' as Ea Ev. apply app_suffix_inj in Ea, Ev. congruence.
Qed.

Lemma bit_key_text : forall s t, bit_key s = bit_key t -> sel_str s = sel_str t.
Proof.
  intros s t E. unfold bit_key, pattern_init in E. cbn [sort_by insert_by dedup_consecutive pattern_str pattern_str_loop] in E. cbn [append] in E. injection E as E.
  apply app_suffix_inj in E. exact E.
Qed.
Lemma no_quotes_texts : forall df tcol, categorical df -> no_quotes df -> distinct_texts df tcol.
Proof.
  intros df tcol (_ & _ & Hs) Hq a col v b col' w Ia Ib _ _ Iv Iw E. assert (X : Sel a EQUAL v = Sel b EQUAL w); [|injection X as -> ->; auto].
  apply bit_key_inj; [split; [reflexivity|exact (Hs _ _ _ Ia Iv)]|split; [reflexivity|exact (Hs _ _ _ Ib Iw)]|exact (proj1 (Hq _ _ Ia))|exact (proj1 (Hq _ _ Ib))|].
  unfold bit_key, pattern_init. cbn [sort_by insert_by dedup_consecutive pattern_str pattern_str_loop]. rewrite E. reflexivity.
Qed.

(** * Lists of booleans *)
Lemma and_map : forall {A} (f g : A -> bool) l, logical_and (map f l) (map g l) = Ok (map (fun i => f i && g i) l).
Proof.
  intros A f g l. unfold logical_and. rewrite !map_length, Nat.eqb_refl. f_equal. induction l as [|x l IH]; cbn [map combine]; auto. rewrite IH. reflexivity.
Qed.
Lemma card_map : forall {A} (f : A -> bool) l, cardinality (map f l) = Z.of_nat (length (filter f l)).
Proof.
  intros A f l. unfold cardinality. f_equal. induction l as [|x l IH]; cbn [map filter]; auto. destruct (f x); cbn [length]; auto.
Qed.
Lemma filter_filter : forall {A} (f g : A -> bool) l, filter f (filter g l) = filter (fun x => g x && f x) l.
Proof. intros A f g l. induction l as [|x l IH]; cbn [filter]; auto. destruct (g x); cbn [filter andb]; rewrite IH; auto. Qed.
Lemma mask_list_seq : forall {A} (d : A) (f : nat -> bool) mask col k, length mask = length col -> (forall i, (i < length col)%nat -> nth i mask false = f (k + i)%nat) ->
  mask_list mask col = map (fun i => nth (i - k) col d) (filter f (seq k (length col))).
Proof.
  intros A d f mask. induction mask as [|b mask IH]; intros [|x col] k L H; try discriminate; cbn [mask_list length seq filter map]; auto.
  assert (Hb := H 0%nat). cbn [length nth] in Hb. rewrite Nat.add_0_r in Hb.
  rewrite (IH col (S k)); [|cbn [length] in L; lia|].
  - assert (E : map (fun i => nth (i - S k) col d) (filter f (seq (S k) (length col))) = map (fun i => nth (i - k) (x :: col) d) (filter f (seq (S k) (length col)))).
    { apply map_ext_in. intros i I. apply filter_In in I. destruct I as [I _]. apply in_seq in I. replace (i - k)%nat with (S (i - S k)) by lia. reflexivity. }
    rewrite E, <- Hb by lia. destruct b; cbn [map]; auto. rewrite Nat.sub_diag. reflexivity.
  - intros i Hi. specialize (H (S i)). cbn [length nth] in H. rewrite H by lia. f_equal. lia.
Qed.
(** * The dictionary *)
Lemma str_assoc_set : forall {B} k k' (v : B) d, str_assoc k (str_set k' v d) = if String.eqb k' k then Some v else str_assoc k d.
Proof.
  intros B k k' v d. induction d as [|[k0 w] d IH]; cbn [str_set str_assoc].
  - reflexivity.
  - destruct (String.eqb k0 k') eqn:E0; cbn [str_assoc].
    + apply String.eqb_eq in E0. subst k0. destruct (String.eqb k' k); auto.
    + destruct (String.eqb k0 k) eqn:E1; [|rewrite IH; auto]. destruct (String.eqb k' k) eqn:E2; auto.
      apply String.eqb_eq in E1, E2. subst. rewrite String.eqb_refl in E0. discriminate.
Qed.
Lemma str_assoc_fold : forall {A B} (key : A -> string) (val : A -> B) l d x, In x l -> NoDup (map key l) ->
  str_assoc (key x) (fold_left (fun d a => str_set (key a) (val a) d) l d) = Some (val x).
Proof.
  intros A B key val l. 
  assert (K : forall l d k, ~ In k (map key l) -> str_assoc k (fold_left (fun d a => str_set (key a) (val a) d) l d) = str_assoc k d).
  { clear. intros l. induction l as [|y l IH]; intros d k H; cbn [fold_left]; auto. cbn [map In] in H. rewrite IH by tauto. rewrite str_assoc_set.
    destruct (String.eqb (key y) k) eqn:E; auto. apply String.eqb_eq in E. tauto. }
  induction l as [|y l IH]; intros d x I ND; [destruct I|]. cbn [fold_left map] in *. inversion ND as [|? ? N1 N2]; subst.
  destruct I as [->|I]; [|apply IH; auto]. rewrite K by auto. rewrite str_assoc_set, String.eqb_refl. reflexivity.
Qed.

Section Rows.
  Variable df : dataframe.
  Variables tcol tval : string.
  Hypothesis Hcat : categorical df.
  Hypothesis Hquo : distinct_texts df tcol.
  Hypothesis Hcol : has_column df tcol.
  Let tsel := Sel tcol EQUAL (VStr tval).
  Definition prow : list nat := pos_rows df tsel [].
  Definition nrow : list nat := neg_rows df tsel [].
  (** The bits of a set of selectors over a list of rows. *)
  Definition bits_of (R : list nat) (X : list selector) : list bool := map (matches_all df X) R.
  Lemma prow_filter : prow = filter (fun i => row_matchesb df i tsel) (seq 0 (df_n df)).
  Proof. unfold prow, pos_rows. apply filter_ext. intros i. apply andb_true_r. Qed.
  Lemma nrow_filter : nrow = filter (fun i => negb (row_matchesb df i tsel)) (seq 0 (df_n df)).
  Proof. unfold nrow, neg_rows. apply filter_ext. intros i. apply andb_true_r. Qed.
  Lemma pos_filter : forall X, filter (matches_all df X) prow = pos_rows df tsel X.
  Proof. intros X. rewrite prow_filter, filter_filter. reflexivity. Qed.
  Lemma neg_filter : forall X, filter (matches_all df X) nrow = neg_rows df tsel X.
  Proof. intros X. rewrite nrow_filter, filter_filter. reflexivity. Qed.
  Lemma card_pos : forall X, cardinality (bits_of prow X) = tp_of df tsel X.
  Proof. intros X. unfold bits_of. rewrite card_map, pos_filter. reflexivity. Qed.
  Lemma card_neg : forall X, cardinality (bits_of nrow X) = fp_of df tsel X.
  Proof. intros X. unfold bits_of. rewrite card_map, neg_filter. reflexivity. Qed.
  Lemma bits_and : forall R X s, logical_and (bits_of R X) (bits_of R [s]) = Ok (bits_of R (s :: X)).
  Proof.
    intros R X s. unfold bits_of. rewrite and_map. f_equal. apply map_ext. intros i. unfold matches_all. cbn [forallb]. rewrite andb_true_r. apply andb_comm.
  Qed.
  Lemma bits_same : forall R X Y, (forall s, In s X <-> In s Y) -> bits_of R X = bits_of R Y.
  Proof. intros R X Y E. unfold bits_of. apply map_ext. intros i. apply matches_perm. auto. Qed.
  Lemma bits_nil : forall R, bits_of R [] = repeat true (length R).
  Proof. intros R. unfold bits_of. induction R as [|x R IH]; cbn [map length repeat]; auto. rewrite IH. reflexivity. Qed.
  Lemma TP_length : TP_of df tcol tval = Z.of_nat (length prow).
  Proof. reflexivity. Qed.
  Lemma FP_length : FP_of df tcol tval = Z.of_nat (length nrow).
  Proof. reflexivity. Qed.
  Lemma cover_sum : forall X, tp_of df tsel X + fp_of df tsel X = Z.of_nat (coverage df X).
  Proof.
    intros X. unfold tp_of, fp_of, pos_rows, neg_rows, coverage. rewrite <- Nat2Z.inj_add. f_equal.
    change (fun i : nat => forallb (row_matchesb df i) X) with (matches_all df X).
    induction (seq 0 (df_n df)) as [|i l IH]; cbn [filter length]; auto. destruct (row_matchesb df i tsel), (matches_all df X i); cbn [andb negb length]; lia.
  Qed.

  Variable mask : list bool.
  Hypothesis Hmask : target_mask df tcol (VStr tval) = Ok mask.
  Lemma mask_facts : length mask = df_n df /\ forall i, (i < df_n df)%nat -> nth i mask false = row_matchesb df i tsel.
  Proof.
    destruct (mask_spec df tcol tval Hcat Hcol) as (m & E & L & H). assert (m = mask) by congruence. subst m. auto.
  Qed.
  Lemma count_mask : forall (m : list bool) (f : nat -> bool) k, (forall i, (i < length m)%nat -> nth i m false = f (k + i)%nat) ->
    length (filter (fun b => b) m) = length (filter f (seq k (length m))).
  Proof.
    intros m. induction m as [|b m IH]; intros f k H; cbn [filter length seq]; auto.
    assert (Hb := H 0%nat). cbn [length nth] in Hb. rewrite Nat.add_0_r in Hb. rewrite <- Hb by lia.
    assert (E : length (filter (fun b => b) m) = length (filter f (seq (S k) (length m)))).
    { apply IH. intros i Hi. specialize (H (S i)). cbn [length nth] in H. rewrite H by lia. f_equal. lia. }
    destruct b; cbn [length]; congruence.
  Qed.
  Lemma count_pos : length (filter (fun b => b) mask) = length prow.
  Proof. destruct mask_facts as [L H]. rewrite prow_filter, <- L. apply count_mask. intros i Hi. apply H. lia. Qed.
  Lemma negb_nth : forall m i, (i < length m)%nat -> nth i (map negb m) false = negb (nth i m false).
  Proof. intros m. induction m as [|b m IH]; intros [|i] H; cbn [map nth length] in *; auto; try lia. apply IH. lia. Qed.
  Lemma count_neg : length (filter negb mask) = length nrow.
  Proof.
    destruct mask_facts as [L H]. assert (E : length (filter negb mask) = length (filter (fun b => b) (map negb mask))).
    { clear. induction mask as [|b m IH]; cbn [filter map]; auto. destruct b; cbn [negb length]; auto. }
    rewrite E, nrow_filter, <- L. rewrite <- (map_length negb mask). apply count_mask. intros i Hi. rewrite map_length in Hi. rewrite negb_nth, H by lia. reflexivity.
  Qed.
  Lemma row_bits_spec : forall m f a col v, length m = df_n df -> (forall i, (i < df_n df)%nat -> nth i m false = f i) ->
    In (a, col) (df_cols df) -> is_str v = true -> row_bits m col v = bits_of (filter f (seq 0 (df_n df))) [Sel a EQUAL v].
  Proof.
    intros m f a col v Lm Hm I Sv. assert (Lc : length col = df_n df) by (eapply col_length; eauto).
    unfold row_bits. rewrite (mask_list_seq (VStr "") f m col 0); [|lia|intros i Hi; apply Hm; lia]. rewrite map_map, Lc. unfold bits_of. apply map_ext_in. intros i Ii.
    apply filter_In in Ii. destruct Ii as [Ii _]. apply in_seq in Ii. rewrite Nat.sub_0_r. unfold matches_all. cbn [forallb]. rewrite andb_true_r.
    assert (Nv : nth_error col i = Some (nth i col (VStr ""))) by (apply nth_error_nth'; lia).
    assert (Sc : is_str (nth i col (VStr "")) = true) by (destruct Hcat as (_ & _ & HS); apply (HS a col); auto; apply nth_In; lia).
    apply eq_true_iff_eq. rewrite (row_match_cell df Hcat) by (split; auto). cbn [s_attr s_val]. unfold cell.
    rewrite (proj2 (col_get_in (df_cols df) a col (proj1 (proj2 Hcat))) I), Nv, py_eq_str by auto. split; [congruence|]. intros X; injection X; auto.
  Qed.
  Lemma mask_pos_bits : forall a col v, In (a, col) (df_cols df) -> is_str v = true -> row_bits mask col v = bits_of prow [Sel a EQUAL v].
  Proof. intros a col v I Sv. destruct mask_facts as [L H]. rewrite prow_filter. apply row_bits_spec; auto. Qed.
  Lemma mask_neg_bits : forall a col v, In (a, col) (df_cols df) -> is_str v = true -> row_bits (map negb mask) col v = bits_of nrow [Sel a EQUAL v].
  Proof.
    intros a col v I Sv. destruct mask_facts as [L H]. rewrite nrow_filter. apply row_bits_spec; auto; [rewrite map_length; auto|].
    intros i Hi. rewrite negb_nth, H by lia. reflexivity.
  Qed.

  (** The selectors of the columns. *)
  Lemma column_selectors_in : forall s col, In (s, col) (column_selectors df tcol) ->
    U df tcol s /\ In (s_attr s, col) (df_cols df) /\ In (s_val s) col /\ s = Sel (s_attr s) EQUAL (s_val s).
  Proof.
    intros s col I. unfold column_selectors in I. apply in_flat_map in I. destruct I as ([a cl] & Ic & J). cbn [fst snd] in J.
    destruct (forallb is_str cl) eqn:Es; [|destruct J]. apply in_map_iff in J. destruct J as (v & E & Iv). injection E as <- <-. cbn [s_attr s_val].
    rewrite forallb_forall in Es. apply (proj1 (distinct_in df tcol tval (fun _ _ => true) cl v Es)) in Iv.
    assert (Ic' := proj1 (cols_in df tcol a cl) Ic). split; [|split; [apply Ic'|split; auto]]. split; [split; cbn; auto|]. exists cl. exact Ic.
  Qed.
  Lemma column_selectors_perm : Permutation (all_sels (other_columns df tcol)) (map fst (column_selectors df tcol)).
  Proof.
    unfold column_selectors, all_sels. assert (HI : incl (other_columns df tcol) (other_columns df tcol)) by (intros x; auto). revert HI.
    generalize (other_columns df tcol) at 1 3 4. intros cs HI. induction cs as [|[a cl] cs IH]; cbn [flat_map map]; [constructor|].
    rewrite map_app. apply Permutation_app; [|apply IH; intros x Ix; apply HI; right; auto]. cbn [fst snd].
    assert (Es : forallb is_str cl = true).
    { apply forallb_forall. intros v Iv. destruct Hcat as (_ & _ & HS). apply (HS a cl); auto. apply (cols_in df tcol). apply HI. left; auto. }
    rewrite Es, map_map. cbn [fst]. apply Permutation_map. unfold group_values. symmetry. apply sort_by_perm.
  Qed.
  Lemma column_selectors_nodup : NoDup (map fst (column_selectors df tcol)).
  Proof.
    eapply Permutation_NoDup; [apply column_selectors_perm|]. apply (all_sels_nodup df tcol tval Hcat (fun _ _ => true)); [intros x; auto|].
    apply (cols_nodup df tcol tval Hcat (fun _ _ => true)).
  Qed.
  (** The frequent selectors. *)
  Variable ms : Z.
  Definition L : list selector := bsd_frequent df mask tcol ms.
  Lemma sel_support : forall s col, In (s, col) (column_selectors df tcol) -> cardinality (row_bits mask col (s_val s)) = tp_of df tsel [s].
  Proof.
    intros s col I. destruct (column_selectors_in s col I) as (HU & Ic & Iv & E). rewrite (mask_pos_bits (s_attr s)); auto; [|apply HU].
    rewrite card_pos, <- E. reflexivity.
  Qed.
  Lemma L_perm : Permutation L (filter (fun s => ms <=? tp_of df tsel [s]) (map fst (column_selectors df tcol))).
  Proof.
    unfold L, bsd_frequent. rewrite <- sort_by_perm.
    assert (K : forall l, incl l (column_selectors df tcol) ->
      map fst (filter (fun p : selector * Z => ms <=? snd p) (map (fun sc => (fst sc, cardinality (row_bits mask (snd sc) (s_val (fst sc))))) l)) =
      filter (fun s => ms <=? tp_of df tsel [s]) (map fst l)).
    { intros l. induction l as [|[s col] l IH]; intros HI; cbn [map filter fst snd]; auto.
      rewrite (sel_support s col) by (apply HI; left; auto). destruct (ms <=? tp_of df tsel [s]); cbn [map fst]; rewrite IH by (intros x Ix; apply HI; right; auto); auto. }
    rewrite K by (intros x; auto). apply Permutation_refl.
  Qed.
  Lemma L_in : forall s, In s L <-> In s (map fst (column_selectors df tcol)) /\ ms <= tp_of df tsel [s].
  Proof.
    intros s. split; intros I.
    - apply (Permutation_in _ L_perm) in I. apply filter_In in I. rewrite Z.leb_le in I. exact I.
    - apply (Permutation_in _ (Permutation_sym L_perm)). apply filter_In. rewrite Z.leb_le. exact I.
  Qed.
  Lemma L_U : forall s, In s L -> U df tcol s.
  Proof. intros s I. apply L_in in I. destruct I as [I _]. apply in_map_iff in I. destruct I as ([s' col] & <- & I). apply (column_selectors_in s' col I). Qed.
  Lemma L_nodup : NoDup L.
  Proof. eapply Permutation_NoDup; [apply Permutation_sym, L_perm|]. apply NoDup_filter, column_selectors_nodup. Qed.
  Lemma built_get : forall m R, (forall a col v, In (a, col) (df_cols df) -> is_str v = true -> row_bits m col v = bits_of R [Sel a EQUAL v]) ->
    forall s, In s L -> bitset_get (build_bitset df m tcol L) s = Ok (bits_of R [s]).
  Proof.
    intros m R HR s Is. assert (Is' := proj1 (L_in s) Is). destruct Is' as [Ic _]. apply in_map_iff in Ic. destruct Ic as ([s' col] & E & Ic). cbn [fst] in E. subst s'.
    destruct (column_selectors_in s col Ic) as (HU & Icol & Iv & Es).
    unfold bitset_get, build_bitset.
    set (l := filter (fun sc : selector * list value => existsb (sel_eq (fst sc)) L) (column_selectors df tcol)).
    assert (Il : In (s, col) l).
    { unfold l. apply filter_In. split; auto. cbn [fst]. apply existsb_exists. exists s. split; auto. apply sel_eq_refl. }
    assert (ND : NoDup (map (fun sc => bit_key (fst sc)) l)).
    { rewrite <- (map_map fst bit_key). assert (N1 : NoDup (map fst l)).
      { unfold l. generalize column_selectors_nodup. generalize (column_selectors df tcol). intros cs. induction cs as [|x cs IH]; cbn [filter map]; auto.
        intros N. inversion N as [|? ? N1 N2]; subst. destruct (existsb (sel_eq (fst x)) L); [|auto]. cbn [map]. constructor; auto.
        intros I. apply N1. apply in_map_iff in I. destruct I as (y & Ey & Iy). apply filter_In in Iy. rewrite <- Ey. apply in_map. tauto. }
      assert (N2 : forall x, In x (map fst l) -> Uk df tcol x).
      { intros x I. apply in_map_iff in I. destruct I as ([y cy] & <- & Iy). unfold l in Iy. apply filter_In in Iy. destruct (column_selectors_in y cy (proj1 Iy)) as (HUy & Icy & Ivy & _). split; [apply HUy|]. exists cy. split; [|exact Ivy]. apply cols_in. split; [exact Icy|]. destruct HUy as [_ (c' & Ic')]. apply cols_in in Ic'. tauto. }
      clear -N1 N2 Hquo Hcat. induction (map fst l) as [|x xs IH]; cbn [map]; constructor.
      - intros I. apply in_map_iff in I. destruct I as (y & Ey & Iy). inversion N1 as [|? ? A B]; subst. apply A.
        assert (E : y = x); [|congruence]. assert (Ux := N2 x (or_introl eq_refl)). assert (Uy := N2 y (or_intror Iy)).
        apply bit_key_text in Ey. destruct Ux as [[Ox _] (cx & Icx & Ivx)], Uy as [[Oy _] (cy & Icy & Ivy)]. apply cols_in in Icx, Icy.
        destruct x as [ax ox vx], y as [ay oy vy]. cbn [s_attr s_op s_val] in *. subst ox oy. destruct (Hquo ay cy vy ax cx vx) as [-> ->]; tauto.
      - apply IH; [inversion N1; auto|intros y Iy; apply N2; right; auto]. }
    pose proof (str_assoc_fold (fun sc : selector * list value => bit_key (fst sc)) (fun sc => row_bits m (snd sc) (s_val (fst sc))) l [] (s, col) Il ND) as F.
    cbn [fst snd] in F. rewrite F. rewrite (HR (s_attr s)); auto; [|apply HU]. rewrite <- Es. reflexivity.
  Qed.
  Lemma get_pos : forall s, In s L -> bitset_get (build_bitset df mask tcol L) s = Ok (bits_of prow [s]).
  Proof. apply built_get. apply mask_pos_bits. Qed.
  Lemma get_neg : forall s, In s L -> bitset_get (build_bitset df (map negb mask) tcol L) s = Ok (bits_of nrow [s]).
  Proof. apply built_get. apply mask_neg_bits. Qed.
End Rows.
