(** From the rows of a dataset to the transaction database of the FP-tree. *)
From Verif Require Export MiningSpec FPGrowthProofs3.
From Verif Require Import OrderFacts CoreOrder CorePattern VerticalProofs CoreText.
Open Scope string_scope.
Open Scope list_scope.
Open Scope nat_scope.

(** * [column+repr(value)] identifies the selector *)
Definition hex_val (c : ascii) : N := let n := N_of_ascii c in if (n <? 58)%N then (n - 48)%N else (n - 87)%N.
Definition unesc (s : string) : option (ascii * string) :=
  match s with
  | EmptyString => None
  | String c r =>
      if Ascii.eqb c "\" then
        match r with
        | EmptyString => None
        | String d r' =>
            if Ascii.eqb d "n" then Some ("010"%char, r')
            else if Ascii.eqb d "r" then Some ("013"%char, r')
            else if Ascii.eqb d "t" then Some ("009"%char, r')
            else if Ascii.eqb d "x" then
              match r' with
              | String a (String b r'') => Some (ascii_of_N (16 * hex_val a + hex_val b), r'')
              | _ => None
              end
            else Some (d, r')
        end
      else Some (c, r)
  end.
Lemma unesc_esc : forall q c r, q = "'"%char \/ q = """"%char -> unesc (esc_char q c ++ r)%string = Some (c, r).
Proof. intros q c r [-> | ->]; destruct c as [[] [] [] [] [] [] [] []]; reflexivity. Qed.
Lemma repr_quote_cases : forall s, repr_quote s = "'"%char \/ repr_quote s = """"%char.
Proof. intros s. unfold repr_quote. destruct (_ && _); auto. Qed.
Lemma string_app_assoc : forall a b c : string, ((a ++ b) ++ c = a ++ (b ++ c))%string.
Proof. induction a as [|x a IH]; intros; cbn; congruence. Qed.
Lemma esc_str_inj : forall q s t, q = "'"%char \/ q = """"%char ->
  (esc_str q s ++ String q "" = esc_str q t ++ String q "")%string -> s = t.
Proof.
  intros q s t Hq. revert t. induction s as [|c s IH]; intros [|d t] E; auto.
  - exfalso. cbn [esc_str] in E. rewrite string_app_assoc in E. cbn in E.
    assert (unesc (String q "") = unesc (esc_char q d ++ (esc_str q t ++ String q ""))%string) as X by (rewrite <- E; reflexivity).
    rewrite unesc_esc in X by auto. destruct Hq as [-> | ->]; cbn in X; injection X as _ X; destruct (esc_str _ t); discriminate.
  - exfalso. cbn [esc_str] in E. rewrite string_app_assoc in E. cbn in E.
    assert (unesc (String q "") = unesc (esc_char q c ++ (esc_str q s ++ String q ""))%string) as X by (rewrite E; reflexivity).
    rewrite unesc_esc in X by auto. destruct Hq as [-> | ->]; cbn in X; injection X as _ X; destruct (esc_str _ s); discriminate.
  - cbn [esc_str] in E. rewrite !string_app_assoc in E. apply (f_equal unesc) in E. rewrite !unesc_esc in E by auto.
    injection E as -> E. f_equal. apply IH; auto.
Qed.
Lemma repr_str_inj : forall s t, repr_str s = repr_str t -> s = t.
Proof.
  intros s t E. unfold repr_str in E. injection E as E1 E2. rewrite <- E1 in E2.
  eapply esc_str_inj; [apply repr_quote_cases|exact E2].
Qed.
Definition no_quote (a : string) : Prop := has_char "'" a = false /\ has_char """" a = false.
Lemma key_split : forall a b x y p q, no_quote a -> no_quote b -> p = "'"%char \/ p = """"%char -> q = "'"%char \/ q = """"%char ->
  (a ++ String p x = b ++ String q y)%string -> a = b /\ String p x = String q y.
Proof.
  induction a as [|c a IH]; intros [|d b] x y p q [A1 A2] [B1 B2] Hp Hq E; cbn in *; auto.
  - injection E as <- _. exfalso. destruct Hp as [-> | ->]; discriminate.
  - injection E as -> _. exfalso. destruct Hq as [-> | ->]; discriminate.
  - injection E as -> E. apply orb_false_iff in A1, A2, B1, B2. destruct (IH b x y p q) as [-> ->]; auto; split; tauto.
Qed.
Lemma skey_inj : forall s t, nominal s -> nominal t -> no_quote (s_attr s) -> no_quote (s_attr t) -> skey s = skey t -> s = t.
Proof.
  intros [a o v] [b o' w] [H1 H2] [H3 H4] Na Nb E. cbn in *. subst.
  destruct v as [v| |]; try discriminate. destruct w as [w| |]; try discriminate.
  unfold skey, fkey in E. cbn [s_attr s_val py_repr] in E. unfold repr_str in E.
  apply key_split in E; auto using repr_quote_cases. destruct E as [-> E]. f_equal. f_equal. apply repr_str_inj. exact E.
Qed.

(** Without quotes in the column names the keys are distinct. *)
Lemma no_quotes_keys : forall df tcol, categorical df -> no_quotes df -> distinct_keys df tcol.
Proof.
  intros df tcol (_ & _ & Hs) Hq a col v b col' w Ia Ib _ _ Iv Iw E. assert (X : Sel a EQUAL v = Sel b EQUAL w); [|injection X as -> ->; auto].
  apply skey_inj; [split; [reflexivity|exact (Hs _ _ _ Ia Iv)]|split; [reflexivity|exact (Hs _ _ _ Ib Iw)]|exact (Hq _ _ Ia)|exact (Hq _ _ Ib)|exact E].
Qed.

(** * Rows *)
Section Rows.
  Variable df : dataframe.
  Variables tcol tval : string.
  Hypothesis Hcat : categorical df.
  Hypothesis Hquo : distinct_keys df tcol.
  Hypothesis Hcol : has_column df tcol.
  Let tsel := Sel tcol EQUAL (VStr tval).
  Let cols := other_columns df tcol.

  Definition U (s : selector) : Prop := nominal s /\ exists col, In (s_attr s, col) cols.
  Lemma cols_in : forall a col, In (a, col) cols <-> In (a, col) (df_cols df) /\ a <> tcol.
  Proof. intros. unfold cols, other_columns. rewrite filter_In, negb_true_iff, String.eqb_neq. reflexivity. Qed.
  Lemma U_nominal : forall s, U s -> nominal s.
  Proof. intros s [H _]; auto. Qed.
  (** The selectors of the dataset itself. *)
  Definition Uk (s : selector) : Prop := nominal s /\ exists col, In (s_attr s, col) cols /\ In (s_val s) col.
  Lemma Uk_U : forall s, Uk s -> U s.
  Proof. intros s [H (col & I & _)]. split; [exact H|exists col; exact I]. Qed.
  Lemma Uk_nominal : forall s, Uk s -> nominal s.
  Proof. intros s [H _]; auto. Qed.
  Lemma U_key : forall s t, Uk s -> Uk t -> skey s = skey t -> s = t.
  Proof.
    intros [a o v] [b o' w] [[N1 _] (c1 & I1 & J1)] [[N2 _] (c2 & I2 & J2)] E. apply cols_in in I1, I2. unfold skey, fkey in E. cbn [s_attr s_op s_val] in *. subst o o'.
    destruct (Hquo a c1 v b c2 w) as [-> ->]; tauto.
  Qed.
  Lemma col_get_in : forall l a c, NoDup (map fst l) -> (col_get l a = Some c <-> In (a, c) l).
  Proof.
    induction l as [|[b d] l IH]; intros a c ND; cbn [col_get].
    - split; [discriminate|intros []].
    - cbn [map fst] in ND. inversion ND; subst. destruct (String.eqb a b) eqn:E.
      + apply String.eqb_eq in E. subst. split; [intros X; injection X as ->; left; auto|].
        intros [X|X]; [injection X as ->; auto|]. exfalso. apply H1. change b with (fst (b, c)). apply in_map; auto.
      + apply String.eqb_neq in E. rewrite IH by auto. split; [right; auto|]. intros [X|X]; auto. injection X as -> ->. contradiction.
  Qed.
  Lemma col_length : forall a c, In (a, c) (df_cols df) -> length c = df_n df.
  Proof. intros a c I. destruct Hcat as (W & _). eapply W; eauto. Qed.
  Lemma has_column_in : forall a, has_column df a <-> exists c, In (a, c) (df_cols df).
  Proof.
    intros a. unfold has_column. split; intros [c H]; exists c; apply col_get_in; auto; apply Hcat.
  Qed.
  Lemma U_description : forall s, U s <-> s_op s = EQUAL /\ is_str (s_val s) = true /\ s_attr s <> tcol /\ has_column df (s_attr s).
  Proof.
    intros s. unfold U, nominal. rewrite has_column_in. split.
    - intros [[H1 H2] [c I]]. apply cols_in in I. destruct I as [I Nt]. repeat split; auto. exists c; auto.
    - intros (H1 & H2 & H3 & c & I). split; auto. exists c. apply cols_in; auto.
  Qed.
  Lemma py_eq_str : forall v w, is_str v = true -> is_str w = true -> (py_eq v w = true <-> v = w).
  Proof.
    intros [v| |] [w| |] H1 H2; try discriminate. cbn. rewrite String.eqb_eq. split; [intros ->; auto|intros E; injection E; auto].
  Qed.
  Lemma row_match_cell : forall i s, nominal s -> (row_matchesb df i s = true <-> cell df i (s_attr s) = Some (s_val s)).
  Proof.
    intros i [a o v] [H1 H2]. cbn in *. subst. unfold row_matchesb. cbn [s_attr s_op s_val op_evaluate].
    destruct (cell df i a) as [w|] eqn:E; [|split; discriminate].
    assert (is_str w = true).
    { unfold cell in E. destruct (col_get (df_cols df) a) as [c|] eqn:Ec; [|discriminate]. apply col_get_in in Ec; [|apply Hcat].
      apply nth_error_In in E. destruct Hcat as (_ & _ & S). eapply S; eauto. }
    rewrite py_eq_str by auto. split; [intros ->; auto|congruence].
  Qed.
  (** The target mask *)
  Lemma mask_spec : exists mask, target_mask df tcol (VStr tval) = Ok mask /\ length mask = df_n df /\
    forall i, i < df_n df -> nth i mask false = row_matchesb df i tsel.
  Proof.
    destruct Hcol as [c Hc]. exists (map (fun v => py_eq v (VStr tval)) c). unfold target_mask, df_col. rewrite Hc. cbn [bind].
    split; auto. pose proof Hc as Hc'. apply col_get_in in Hc'; [|apply Hcat]. pose proof (col_length _ _ Hc') as L.
    split; [rewrite map_length; auto|]. intros i Hi. unfold row_matchesb, cell, tsel. cbn [s_attr s_op s_val op_evaluate]. rewrite Hc.
    destruct (nth_error c i) as [v|] eqn:E.
    - apply nth_error_nth. rewrite nth_error_map, E. reflexivity.
    - apply nth_error_None in E. lia.
  Qed.
  (** Group counts *)
  Lemma combine_count : forall (P : bool * value -> bool) (mask : list bool) (col : list value) n, length mask = n -> length col = n ->
    length (filter P (combine mask col)) = length (filter (fun i => match nth_error col i with Some v => P (nth i mask false, v) | None => false end) (seq 0 n)).
  Proof.
    intros P mask col n. revert mask col. induction n as [|n IH]; intros [|m mask] [|c col] L1 L2; try discriminate; auto.
    cbn [combine filter seq nth_error nth]. cbn in L1, L2.
    rewrite <- seq_shift. assert (X : forall (Q : nat -> bool) l, filter Q (map S l) = map S (filter (fun i => Q (S i)) l)).
    { clear. induction l as [|x l IH]; cbn [map filter]; auto. destruct (Q (S x)); cbn [map]; congruence. }
    rewrite X. specialize (IH mask col ltac:(lia) ltac:(lia)).
    destruct (P (m, c)); cbn [length]; rewrite map_length, IH; reflexivity.
  Qed.
  Lemma group_counts_spec : forall a col v mask, In (a, col) (df_cols df) -> is_str v = true ->
    target_mask df tcol (VStr tval) = Ok mask ->
    group_counts mask col v = (tp_of df tsel [Sel a EQUAL v], fp_of df tsel [Sel a EQUAL v]).
  Proof.
    intros a col v mask I Hv Hm. destruct mask_spec as (mask' & Hm' & Lm & Nm). rewrite Hm in Hm'. injection Hm' as <-.
    pose proof (col_length _ _ I) as Lc. unfold group_counts.
    set (rows := filter (fun bv => py_eq (snd bv) v) (combine mask col)).
    assert (C : col_get (df_cols df) a = Some col) by (apply col_get_in; auto; apply Hcat).
    assert (M : forall i, matches_all df [Sel a EQUAL v] i = match nth_error col i with Some w => py_eq w v | None => false end).
    { intros i. unfold matches_all. cbn [forallb]. rewrite andb_true_r. unfold row_matchesb, cell. cbn [s_attr s_op s_val op_evaluate]. rewrite C. reflexivity. }
    assert (E1 : length (filter fst rows) = length (pos_rows df tsel [Sel a EQUAL v])).
    { unfold rows. assert (F : forall A (f g : A -> bool) l, filter f (filter g l) = filter (fun x => g x && f x) l).
      { clear. induction l as [|x l IH]; cbn [filter]; auto. destruct (g x); cbn [filter andb]; [destruct (f x)|]; congruence. }
      rewrite F, (combine_count _ mask col (df_n df)) by auto. unfold pos_rows. f_equal. apply filter_ext_in.
      intros i Ii. apply in_seq in Ii. rewrite M, <- Nm by lia. destruct (nth_error col i); cbn [fst snd]; [apply andb_comm|rewrite andb_false_r; auto]. }
    assert (E2 : length rows = coverage df [Sel a EQUAL v]).
    { unfold rows. rewrite (combine_count _ mask col (df_n df)) by auto. unfold coverage. f_equal. apply filter_ext_in.
      intros i Ii. change (forallb (row_matchesb df i) [Sel a EQUAL v]) with (matches_all df [Sel a EQUAL v] i). rewrite M. reflexivity. }
    unfold tp_of, fp_of. rewrite E1, E2, <- (pos_neg_cover df tsel). f_equal. lia.
  Qed.
  (** The population *)
  Lemma population_spec : forall mask, target_mask df tcol (VStr tval) = Ok mask -> population df mask = (TP_of df tcol tval, FP_of df tcol tval).
  Proof.
    intros mask Hm. destruct mask_spec as (mask' & Hm' & Lm & Nm). rewrite Hm in Hm'. injection Hm' as <-.
    unfold population, TP_of, FP_of, tp_of, fp_of. fold tsel.
    assert (E : length (filter (fun b : bool => b) mask) = length (pos_rows df tsel [])).
    { assert (X : filter (fun b : bool => b) mask = map (fun i => nth i mask false) (filter (fun i => nth i mask false) (seq 0 (length mask)))).
      { clear. induction mask as [|m mask IH]; cbn [filter length seq map nth]; auto. rewrite <- seq_shift.
        assert (F : forall (Q : nat -> bool) l, filter Q (map S l) = map S (filter (fun i => Q (S i)) l)).
        { clear. induction l as [|x l IH]; cbn [map filter]; auto. destruct (Q (S x)); cbn [map]; congruence. }
        rewrite F. destruct m; cbn [map]; rewrite map_map; [f_equal|]; auto. }
      rewrite X, map_length, Lm. unfold pos_rows. f_equal. apply filter_ext_in. intros i Ii. apply in_seq in Ii.
      rewrite <- Nm by lia. cbn. rewrite andb_true_r. reflexivity. }
    rewrite E. f_equal. pose proof (pos_neg_cover df tsel []). unfold coverage in H. cbn [forallb] in H.
    rewrite (filter_all (fun _ => true)) in H by auto. rewrite seq_length in H. lia.
  Qed.

  (** * The dictionary of frequent selectors *)
  Variable ok : Z -> Z -> bool.
  Variable mask : list bool.
  Hypothesis Hmask : target_mask df tcol (VStr tval) = Ok mask.
  Let f (s : selector) : Z := tp_of df tsel [s].
  Let g (s : selector) : Z := fp_of df tsel [s].

  Lemma distinct_in : forall l v, (forall x, In x l -> is_str x = true) -> (In v (distinct_values l) <-> In v l).
  Proof.
    induction l as [|x l IH]; intros v H; cbn [distinct_values]; [tauto|]. cbn [In].
    rewrite filter_In, IH by (intros; apply H; right; auto). split; [tauto|].
    intros [->|I]; [left; auto|]. destruct (py_eq v x) eqn:E.
    - left. symmetry. apply py_eq_str; auto; apply H; [right; auto|left; auto].
    - right; auto.
  Qed.
  Lemma distinct_nodup : forall l, NoDup (distinct_values l).
  Proof.
    assert (R : forall x, py_eq x x = true).
    { intros [x|z|m e]; cbn; [apply String.eqb_refl| |]; apply Z.eqb_refl. }
    induction l as [|x l IH]; cbn [distinct_values]; [constructor|]. constructor; [|apply NoDup_filter; auto].
    intros I. apply filter_In in I. rewrite R in I. destruct I; discriminate.
  Qed.
  Lemma group_in : forall l v, (forall x, In x l -> is_str x = true) -> (In v (group_values l) <-> In v l).
  Proof. intros. unfold group_values. rewrite sort_by_in. apply distinct_in; auto. Qed.
  Lemma group_nodup : forall l, NoDup (group_values l).
  Proof. intros. apply (Permutation_NoDup (sort_by_perm _ _)). apply distinct_nodup. Qed.

  Lemma fdict_set_new : forall k e d, fdict_get k d = None -> fdict_set k e d = d ++ [(k, e)].
  Proof.
    induction d as [|[k' e'] d IH]; cbn [fdict_get fdict_set app]; auto. destruct (String.eqb k' k); [discriminate|]. intros H; rewrite IH; auto.
  Qed.
  Definition dict_ok (L : list selector) (acc : fdict * Z) : Prop :=
    exists o, fst acc = dict_of f g o (filter (fun s => ok (f s) (g s)) L) /\
      (forall s, In s L -> o s < snd acc)%Z /\
      (forall s t, In s (filter (fun s => ok (f s) (g s)) L) -> In t (filter (fun s => ok (f s) (g s)) L) -> o s = o t -> s = t).
  Lemma add_values : forall a col, In (a, col) cols -> forall vs L acc, NoDup (L ++ map (Sel a EQUAL) vs) -> (forall s, In s L -> Uk s) ->
    (forall v, In v vs -> is_str v = true) -> (forall v, In v vs -> In v col) -> dict_ok L acc ->
    dict_ok (L ++ map (Sel a EQUAL) vs) (fold_left (fun '(d, o) v =>
               let '(tp, fp) := group_counts mask col v in
               if ok tp fp then (fdict_set (fkey a v) (FE (Sel a EQUAL v) tp fp o) d, (o + 1)%Z)
               else (d, o)) vs acc).
  Proof.
    intros a col I. induction vs as [|v vs IH]; intros L acc ND HL Hv Hin HD; cbn [map fold_left]; cbn [map] in ND; [rewrite app_nil_r; auto|].
    assert (HUs : Uk (Sel a EQUAL v)).
    { split; [split; auto; apply Hv; left; auto|]. exists col. split; [exact I|apply Hin; left; auto]. }
    replace (L ++ Sel a EQUAL v :: map (Sel a EQUAL) vs) with ((L ++ [Sel a EQUAL v]) ++ map (Sel a EQUAL) vs) in * by (rewrite <- app_assoc; auto).
    apply IH; auto.
    - intros s Is. apply in_app_or in Is. destruct Is as [Is|[<-|[]]]; auto.
    - intros; apply Hv; right; auto.
    - intros; apply Hin; right; auto.
    - destruct acc as [d n]. destruct HD as (o & E & O1 & O2). cbn [fst snd] in *.
      pose proof (proj1 (cols_in a col) I) as [I' _].
      rewrite (group_counts_spec a col v mask I' ltac:(apply Hv; left; auto) Hmask). fold (f (Sel a EQUAL v)) (g (Sel a EQUAL v)).
      assert (Nin : ~ In (Sel a EQUAL v) L).
      { intros X. rewrite <- app_assoc in ND. cbn [app] in ND. apply NoDup_remove_2 in ND. apply ND, in_or_app; auto. }
      set (s := Sel a EQUAL v) in *. unfold dict_ok. rewrite filter_app. cbn [filter]. destruct (ok (f s) (g s)) eqn:Ok; cbn [fst snd].
      + exists (fun x => if selector_eq_dec x s then n else o x). split; [|split].
        * change (fkey a v) with (skey s). rewrite fdict_set_new.
          -- rewrite E. unfold dict_of. rewrite map_app. cbn [map]. destruct (selector_eq_dec s s); [|contradiction]. f_equal.
             apply map_ext_in. intros x Ix. apply filter_In in Ix. destruct (selector_eq_dec x s) as [->|]; [tauto|auto].
          -- rewrite E. rewrite (dict_get Uk U_key) by (auto; intros x Ix; apply filter_In in Ix; apply HL; tauto).
             destruct (in_dec _ _ _) as [X|]; auto. apply filter_In in X. tauto.
        * intros x Ix. apply in_app_or in Ix. destruct (selector_eq_dec x s); [lia|]. destruct Ix as [Ix|[<-|[]]]; [|contradiction]. specialize (O1 x Ix). lia.
        * intros x y Ix Iy Q. apply in_app_or in Ix, Iy. cbn in Ix, Iy.
          assert (G : forall z, In z (filter (fun s => ok (f s) (g s)) L) -> (o z < n)%Z) by (intros z Iz; apply filter_In in Iz; apply O1; tauto).
          destruct (selector_eq_dec x s) as [->|Nx], (selector_eq_dec y s) as [->|Ny]; auto.
          -- destruct Iy as [Iy|[<-|[]]]; [|contradiction]. specialize (G _ Iy). lia.
          -- destruct Ix as [Ix|[<-|[]]]; [|contradiction]. specialize (G _ Ix). lia.
          -- destruct Iy as [Iy|[<-|[]]]; [|contradiction]. destruct Ix as [Ix|[<-|[]]]; [|contradiction]. auto.
      + exists (fun x => if selector_eq_dec x s then (n - 1)%Z else o x). rewrite app_nil_r. split; [|split].
        * rewrite E. apply dict_ext. intros x Ix. apply filter_In in Ix. destruct (selector_eq_dec x s) as [->|]; [tauto|auto].
        * intros x Ix. apply in_app_or in Ix. destruct (selector_eq_dec x s); [lia|]. destruct Ix as [Ix|[<-|[]]]; [|contradiction]. specialize (O1 x Ix). lia.
        * intros x y Ix Iy. destruct (selector_eq_dec x s) as [->|]; [apply filter_In in Ix; tauto|].
          destruct (selector_eq_dec y s) as [->|]; [apply filter_In in Iy; tauto|]. auto.
  Qed.
  Definition all_sels (cs : list (string * list value)) : list selector :=
    flat_map (fun c => map (Sel (fst c) EQUAL) (group_values (snd c))) cs.
  Lemma all_sels_in : forall cs s, incl cs cols -> (In s (all_sels cs) <-> exists a col v, In (a, col) cs /\ In v col /\ s = Sel a EQUAL v).
  Proof.
    intros cs s HI. unfold all_sels. rewrite in_flat_map. split.
    - intros ([a col] & I & J). cbn [fst snd] in J. apply in_map_iff in J. destruct J as (v & <- & J).
      assert (S : forall x, In x col -> is_str x = true).
      { intros x Ix. apply HI, cols_in in I. destruct Hcat as (_ & _ & S). eapply S; [apply I|auto]. }
      apply (proj1 (group_in col v S)) in J. exists a, col, v. auto.
    - intros (a & col & v & I & J & ->). exists (a, col). split; auto. cbn [fst snd]. apply in_map. apply group_in; auto.
      intros x Ix. apply HI, cols_in in I. destruct Hcat as (_ & _ & S). eapply S; [apply I|auto].
  Qed.
  Lemma cols_nodup : NoDup (map fst cols).
  Proof.
    destruct Hcat as (_ & ND & _). unfold cols, other_columns. revert ND. generalize (df_cols df). induction l as [|c l IH]; intros ND; cbn [filter map]; [constructor|].
    cbn [map] in ND. inversion ND; subst. destruct (negb _); cbn [map]; auto. constructor; auto.
    intros I. apply H1. apply in_map_iff in I. destruct I as (x & E & I). apply filter_In in I. rewrite <- E. apply in_map; tauto.
  Qed.
  Lemma all_sels_nodup : forall cs, incl cs cols -> NoDup (map fst cs) -> NoDup (all_sels cs).
  Proof.
    induction cs as [|[a col] cs IH]; intros HI ND; cbn [all_sels flat_map fst snd]; [constructor|]. fold (all_sels cs).
    cbn [map fst] in ND. inversion ND; subst.
    assert (N1 : NoDup (map (Sel a EQUAL) (group_values col))).
    { pose proof (group_nodup col) as N. induction N as [|x l Nx N IHn]; cbn [map]; constructor; auto.
      intros X. apply in_map_iff in X. destruct X as (y & E & Iy). injection E as ->. contradiction. }
    assert (N2 : NoDup (all_sels cs)) by (apply IH; auto; intros x Ix; apply HI; right; auto).
    assert (Dj : forall s, In s (map (Sel a EQUAL) (group_values col)) -> In s (all_sels cs) -> False).
    { intros s Is J. apply in_map_iff in Is. destruct Is as (v & <- & _). apply all_sels_in in J; [|intros x Ix; apply HI; right; auto].
      destruct J as (b & c & w & Ib & _ & E). injection E as <- _. apply H1. change a with (fst (a, c)). apply in_map; auto. }
    clear -N1 N2 Dj. induction N1 as [|x l Nx N IHn]; cbn [app]; auto. constructor.
    - intros I. apply in_app_or in I. destruct I as [I|I]; auto. apply (Dj x); auto. left; auto.
    - apply IHn. intros s Is; apply Dj. right; auto.
  Qed.
  Lemma all_sels_U : forall cs s, incl cs cols -> In s (all_sels cs) -> Uk s.
  Proof.
    intros cs s HI I. apply all_sels_in in I; auto. destruct I as (a & col & v & I & J & ->). apply HI in I. split.
    - split; auto. apply cols_in in I. destruct Hcat as (_ & _ & S). eapply S; [apply I|auto].
    - exists col. split; [exact I|exact J].
  Qed.
  Lemma add_columns : forall cs L acc, incl cs cols -> NoDup (L ++ all_sels cs) -> (forall s, In s L -> Uk s) -> dict_ok L acc ->
    dict_ok (L ++ all_sels cs) (fold_left (add_column ok mask) cs acc).
  Proof.
    induction cs as [|[a col] cs IH]; intros L acc HI ND HL HD; cbn [all_sels flat_map fold_left fst snd]; [rewrite app_nil_r; auto|].
    fold (all_sels cs). rewrite app_assoc. apply IH.
    - intros x Ix; apply HI; right; auto.
    - rewrite <- app_assoc. exact ND.
    - intros s Is. apply in_app_or in Is. destruct Is as [Is|Is]; auto. apply (all_sels_U ((a, col) :: cs)); auto. cbn [all_sels flat_map fst snd]. apply in_or_app; auto.
    - unfold add_column. apply add_values; auto.
      + apply HI; left; auto.
      + cbn [all_sels flat_map fst snd] in ND. fold (all_sels cs) in ND. rewrite app_assoc in ND. clear -ND.
        revert ND. generalize (L ++ map (Sel a EQUAL) (group_values col)) as X. intros X ND. induction X as [|x X IH]; [constructor|].
        cbn [app] in ND. inversion ND; subst. constructor; auto. intros I; apply H1, in_or_app; auto.
      + intros v Iv. pose proof (HI (a, col) (or_introl eq_refl)) as I. apply cols_in in I.
        assert (S : forall x, In x col -> is_str x = true). { destruct Hcat as (_ & _ & S). intros; eapply S; [apply I|auto]. }
        apply S. apply group_in; auto.
      + intros v Iv. pose proof (HI (a, col) (or_introl eq_refl)) as I. apply cols_in in I.
        assert (S : forall x, In x col -> is_str x = true). { destruct Hcat as (_ & _ & S). intros; eapply S; [apply I|auto]. }
        apply (group_in col v S). exact Iv.
  Qed.
  Definition ks : list selector := filter (fun s => ok (f s) (g s)) (all_sels cols).
  Lemma dictionary : exists o, fst (fold_left (add_column ok mask) cols ([], 0%Z)) = dict_of f g o ks /\
    forall s t, In s ks -> In t ks -> o s = o t -> s = t.
  Proof.
    destruct (add_columns cols [] ([], 0%Z)) as (o & E & _ & O).
    - apply incl_refl.
    - apply all_sels_nodup; [apply incl_refl|apply cols_nodup].
    - intros s [].
    - exists (fun _ => 0%Z). split; [reflexivity|]. split; intros s; [intros []|intros t []].
    - exists o. auto.
  Qed.
  Lemma ks_Uk : forall s, In s ks -> Uk s.
  Proof. intros s I. apply filter_In in I. apply (all_sels_U cols); [apply incl_refl|tauto]. Qed.
  Lemma ks_U : forall s, In s ks -> U s.
  Proof. intros s I. apply Uk_U, ks_Uk, I. Qed.
  Lemma matching_in : forall i s, U s -> row_matchesb df i s = true -> In s (all_sels cols).
  Proof.
    intros i s [N [col I]] M. apply (row_match_cell i s N) in M. unfold cell in M.
    destruct (col_get (df_cols df) (s_attr s)) as [c|] eqn:Ec; [|discriminate]. pose proof I as I'. apply cols_in in I'.
    apply col_get_in in Ec; [|apply Hcat]. assert (col = c).
    { destruct I' as [I' _]. apply col_get_in in I'; [|apply Hcat]. apply col_get_in in Ec; [|apply Hcat]. congruence. }
    subst c. apply all_sels_in; [apply incl_refl|]. exists (s_attr s), col, (s_val s). split; auto. split; [apply nth_error_In in M; auto|].
    destruct s as [a o v]; destruct N as [N1 _]; cbn in *; subst; auto.
  Qed.

  (** * Transactions *)
  Section Trans.
    Variable o : selector -> Z.
    Hypothesis Ho : forall s t, In s ks -> In t ks -> o s = o t -> s = t.
    Let d := dict_of f g o ks.
    Lemma row_selectors_spec : forall cs i, incl cs cols -> NoDup (map fst cs) ->
      NoDup (row_selectors d cs i) /\
      forall s, In s (row_selectors d cs i) <-> In s ks /\ row_matchesb df i s = true /\ In (s_attr s) (map fst cs).
    Proof.
      induction cs as [|[a col] cs IH]; intros i HI ND; cbn [row_selectors map fst].
      - split; [constructor|]. intros s; split; [intros []|intros (_ & _ & [])].
      - cbn [map fst] in ND. inversion ND; subst. destruct (IH i) as [IH1 IH2]; auto; [intros x Ix; apply HI; right; auto|].
        assert (Ic : In (a, col) (df_cols df)) by (apply cols_in, HI; left; auto).
        assert (Cell : cell df i a = nth_error col i).
        { unfold cell. apply (col_get_in _ a col (proj1 (proj2 Hcat))) in Ic. rewrite Ic. reflexivity. }
        assert (Other : forall s, In s ks -> row_matchesb df i s = true -> s_attr s = a -> cell df i a = Some (s_val s)).
        { intros s Is M <-. apply row_match_cell; auto. apply ks_U; auto. }
        destruct (nth_error col i) as [v|] eqn:Ev.
        + assert (Hv : is_str v = true). { apply nth_error_In in Ev. destruct Hcat as (_ & _ & S). eapply S; eauto. }
          assert (HU : Uk (Sel a EQUAL v)). { split; [split; auto|]. exists col. split; [apply HI; left; auto|apply nth_error_In in Ev; exact Ev]. }
          change (fkey a v) with (skey (Sel a EQUAL v)).
          pose proof (dict_get Uk U_key f g o ks (Sel a EQUAL v) ks_Uk HU) as Eg. fold d in Eg. rewrite Eg.
          assert (M : row_matchesb df i (Sel a EQUAL v) = true) by (apply row_match_cell; [apply HU|auto]).
          destruct (in_dec selector_eq_dec (Sel a EQUAL v) ks) as [Ik|Nk]; cbn [fe_sel].
          * split.
            -- constructor; auto. intros X. apply IH2 in X. destruct X as (_ & _ & X). cbn in X. contradiction.
            -- intros s. cbn [In]. rewrite IH2. split.
               ++ intros [<-|(A1 & A2 & A3)]; (split; [|split; [|cbn; auto]]; auto).
               ++ intros (A1 & A2 & [A3|A3]); [left|right; auto].
                  pose proof (Other s A1 A2 (eq_sym A3)) as X. rewrite Cell in X. injection X as X. destruct s as [a' o' v'].
                  destruct (ks_U _ A1) as [[B _] _]. cbn in *. subst. auto.
          * split; auto. intros s. rewrite IH2. split; [intros (A1 & A2 & A3); split; [|split; [|right]]; auto|].
            intros (A1 & A2 & [A3|A3]); auto. exfalso. pose proof (Other s A1 A2 (eq_sym A3)) as X. rewrite Cell in X. injection X as X.
            apply Nk. destruct s as [a' o' v']. destruct (ks_U _ A1) as [[B _] _]. cbn in *. subst. auto.
        + split; auto. intros s. rewrite IH2. split; [intros (A1 & A2 & A3); split; [|split; [|right]]; auto|].
          intros (A1 & A2 & [A3|A3]); auto. exfalso. pose proof (Other s A1 A2 (eq_sym A3)) as X. rewrite Cell in X. discriminate.
    Qed.
    Definition row_trans (i : nat) : list selector := sort_transaction d (row_selectors d cols i).
    Definition row_weight (i : nat) : Z * Z := if row_matchesb df i tsel then (1, 0)%Z else (0, 1)%Z.
    Definition D0 : db := map (fun i => (row_trans i, row_weight i)) (seq 0 (df_n df)).
    Definition lt0 := ltd (fun s => f s + g s)%Z o.
    Lemma row_trans_spec : forall i, StronglySorted lt0 (row_trans i) /\ forall s, In s (row_trans i) <-> In s ks /\ row_matchesb df i s = true.
    Proof.
      intros i. destruct (row_selectors_spec cols i (incl_refl _) cols_nodup) as [H1 H2].
      destruct (sort_transaction_spec Uk U_key f g o ks (row_selectors d cols i)) as [P S]; auto using ks_Uk.
      - intros x Ix. apply H2 in Ix. tauto.
      - split; auto. intros s. fold d in P. fold (row_trans i) in P. split.
        + intros I. apply (Permutation_in s (Permutation_sym P)) in I. apply H2 in I. tauto.
        + intros [I M]. apply (Permutation_in s P). apply H2. split; auto. split; auto. destruct (ks_U s I) as [_ [col Ic]].
          change (s_attr s) with (fst (s_attr s, col)). apply in_map; auto.
    Qed.
    Lemma cnt_rows : forall (k : bool) Y, incl Y ks -> cnt k D0 Y = (if k then tp_of df tsel Y else fp_of df tsel Y).
    Proof.
      intros k Y IY. unfold cnt, D0, tp_of, fp_of, pos_rows, neg_rows. induction (seq 0 (df_n df)) as [|i l IH]; cbn [map asum filter].
      - destruct k; reflexivity.
      - rewrite IH. assert (E : subb Y (row_trans i) = matches_all df Y i).
        { apply bool_iff. rewrite subb_true. unfold matches_all. rewrite forallb_forall. destruct (row_trans_spec i) as [_ R]. split.
          - intros H s Is. apply R; auto.
          - intros H s Is. apply R. auto. }
        rewrite E. unfold row_weight. destruct k, (row_matchesb df i tsel), (matches_all df Y i); cbn [andb negb pr fst snd length]; lia.
    Qed.
    Lemma cn_zero : forall Y, ~ incl Y ks -> cn D0 Y = 0%Z.
    Proof.
      intros Y N. assert (G : forall k, cnt k D0 Y = 0%Z).
      { intros k. unfold cnt, D0. induction (seq 0 (df_n df)) as [|i l IH]; cbn [map asum]; auto. rewrite IH.
        replace (subb Y (row_trans i)) with false; [destruct k; reflexivity|]. symmetry. apply not_true_iff_false. rewrite subb_true.
        intros H. apply N. intros y Iy. specialize (H y Iy). apply (row_trans_spec i) in H. tauto. }
      unfold cn. rewrite !G. reflexivity.
    Qed.
    Lemma good0 : good Uk ok lt0 D0.
    Proof.
      split; [split; [intros x; apply ltd_irrefl|intros x y z; apply ltd_trans]|]. split; [|split; [|split]].
      - intros e x Ie Ix. apply in_map_iff in Ie. destruct Ie as (i & <- & _). apply (row_trans_spec i) in Ix. apply ks_Uk; tauto.
      - intros e Ie. apply in_map_iff in Ie. destruct Ie as (i & <- & _). cbn [snd]. unfold row_weight, weight_ok. destruct (row_matchesb df i tsel); cbn; lia.
      - intros e Ie. apply in_map_iff in Ie. destruct Ie as (i & <- & _). apply row_trans_spec.
      - intros e x Ie Ix. apply in_map_iff in Ie. destruct Ie as (i & <- & _). apply (row_trans_spec i) in Ix. destruct Ix as [Ix _].
        rewrite !cnt_rows by (intros y [<-|[]]; auto). apply filter_In in Ix. tauto.
    Qed.
    Lemma build_tree_spec : exists t, build_tree empty_tree df d tcol (VStr tval) = Ok t /\ tree_for t D0.
    Proof.
      unfold build_tree. rewrite Hmask. cbn [bind].
      destruct (fold_insert_represents D0 empty_tree [] represents_empty) as (t & E & R).
      { intros e Ie. apply Forall_forall. intros x Ix. pose proof good0 as (_ & G & _). apply Uk_nominal, (G e); auto. }
      unfold D0 in E. rewrite fold_res_map in E.
      assert (E' : fold_res (fun t i => insert_tree t (sort_transaction d (row_selectors d (other_columns df tcol) i)) (nth i mask false)) (seq 0 (df_n df)) empty_tree = Ok t).
      { rewrite <- E. apply fold_res_ext. intros t' i Ii. apply in_seq in Ii. cbn [fst snd]. unfold insert_tree, row_weight.
        destruct mask_spec as (mask' & Hm' & Lm & Nm). rewrite Hmask in Hm'. injection Hm' as <-. rewrite Nm by lia.
        destruct (row_matchesb df i tsel); reflexivity. }
      rewrite E'. cbn [bind]. exists (finish_header t). split; auto. apply (finish_tree Uk Uk_nominal ok lt0); auto using good0.
    Qed.
    (** Frequent sets of the database are the frequent descriptions. *)
    Hypothesis ok_mono : forall a b a' b', (a <= a' -> b <= b' -> ok a b = true -> ok a' b' = true)%Z.
    Lemma rows_le : forall Y s, In s Y -> (tp_of df tsel Y <= tp_of df tsel [s])%Z /\ (fp_of df tsel Y <= fp_of df tsel [s])%Z.
    Proof.
      intros Y s Is. unfold tp_of, fp_of. split; apply inj_le; unfold pos_rows, neg_rows.
      - apply NoDup_incl_length; [apply NoDup_filter, seq_NoDup|]. intros i Ii. apply filter_In in Ii. apply filter_In. split; [tauto|].
        destruct Ii as [_ Ii]. apply andb_true_iff in Ii. destruct Ii as [H1 H2]. rewrite H1. cbn [andb]. unfold matches_all in *. cbn [forallb]. rewrite andb_true_r.
        rewrite forallb_forall in H2. auto.
      - apply NoDup_incl_length; [apply NoDup_filter, seq_NoDup|]. intros i Ii. apply filter_In in Ii. apply filter_In. split; [tauto|].
        destruct Ii as [_ Ii]. apply andb_true_iff in Ii. destruct Ii as [H1 H2]. rewrite H1. cbn [andb]. unfold matches_all in *. cbn [forallb]. rewrite andb_true_r.
        rewrite forallb_forall in H2. auto.
    Qed.
    Lemma itemset_rows : forall Y, itemset ok D0 Y <-> Y <> [] /\ NoDup Y /\ (forall s, In s Y -> U s) /\ 1 <= coverage df Y /\ ok (tp_of df tsel Y) (fp_of df tsel Y) = true.
    Proof.
      intros Y. split.
      - intros (NY & ND & P & Ok). assert (IY : incl Y ks).
        { intros y Iy. destruct (in_dec selector_eq_dec y ks) as [|N]; auto. rewrite cn_zero in P by (intros H; apply N; auto). lia. }
        unfold cn in P. rewrite !cnt_rows in P, Ok by auto. split; auto. split; auto. split; [auto using ks_U|]. split; auto.
        rewrite <- (pos_neg_cover df tsel). unfold tp_of, fp_of in P. lia.
      - intros (NY & ND & HU & C & Ok).
        assert (IY : incl Y ks).
        { intros s Is. apply filter_In. split.
          - unfold coverage in C. destruct (filter (fun i => forallb (row_matchesb df i) Y) (seq 0 (df_n df))) as [|i l] eqn:E; [cbn in C; lia|].
            assert (I : In i (filter (fun i => forallb (row_matchesb df i) Y) (seq 0 (df_n df)))) by (rewrite E; left; auto).
            apply filter_In in I. destruct I as [_ I]. rewrite forallb_forall in I. apply (matching_in i); auto.
          - destruct (rows_le Y s Is) as [L1 L2]. apply (ok_mono _ _ _ _ L1 L2 Ok). }
        split; auto. split; auto. unfold cn. rewrite !cnt_rows by auto. split; auto.
        rewrite <- (pos_neg_cover df tsel) in C. unfold tp_of, fp_of. lia.
    Qed.
  End Trans.
End Rows.
