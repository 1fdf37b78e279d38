(** Facts about DataFrames with any labels. *)
From Coq Require Import Lia Permutation.
From Verif Require Import Base CoreModel CoreSpec CoreFrame LabelModel.
Open Scope string_scope.
Open Scope list_scope.
Open Scope nat_scope.

Lemma label_eqb_eq : forall x y, label_eqb x y = true <-> x = y.
Proof.
  intros [a|a] [b|b]; cbn; split; intro H; try discriminate.
  - apply Z.eqb_eq in H. congruence.
  - injection H as ->. apply Z.eqb_refl.
  - apply String.eqb_eq in H. congruence.
  - injection H as ->. apply String.eqb_refl.
Qed.
Lemma label_eqb_refl : forall x, label_eqb x x = true. Proof. intro x. now apply label_eqb_eq. Qed.
Lemma memb_In : forall x l, memb x l = true <-> In x l.
Proof. intros x l. unfold memb. rewrite existsb_exists. split; [intros (y & I & E); apply label_eqb_eq in E; congruence|intro I; exists x; split; [exact I|apply label_eqb_refl]]. Qed.
Lemma index_equals_eq : forall a b, index_equals a b = true <-> a = b.
Proof.
  induction a as [|x a IH]; intros [|y b]; cbn; split; intro H; try discriminate; auto.
  - apply andb_true_iff in H. destruct H as [H1 H2]. apply label_eqb_eq in H1. apply IH in H2. congruence.
  - injection H as -> ->. rewrite label_eqb_refl. cbn. now apply IH.
Qed.
Lemma value_at_In : forall s x, value_at s x = true <-> In (x, true) s.
Proof.
  intros s x. unfold value_at. rewrite existsb_exists. split.
  - intros ([y b] & I & E). cbn in E. apply andb_true_iff in E. destruct E as [E Eb]. apply label_eqb_eq in E. subst. exact I.
  - intro I. exists (x, true). split; [exact I|]. cbn. rewrite label_eqb_refl. reflexivity.
Qed.
Lemma combine_at : forall (L : list label) (m : list bool) x, length m = length L ->
  (value_at (combine L m) x = true <-> exists i, nth_error L i = Some x /\ nth i m false = true).
Proof.
  intros L m x H. rewrite value_at_In. revert m H. induction L as [|y L IH]; intros [|b m] H; cbn in *; try discriminate.
  - split; [tauto|]. intros (i & E & _). destruct i; discriminate.
  - rewrite (IH m ltac:(lia)). split.
    + intros [E|(i & E1 & E2)]; [injection E as -> ->; exists 0; auto|exists (S i); auto].
    + intros (i & E1 & E2). destruct i as [|i]; cbn in *; [left; congruence|right; eauto].
Qed.
Lemma labels_combine : forall (L : list label) (m : list bool), length m = length L -> labels_of (combine L m) = L.
Proof. induction L as [|x L IH]; intros [|b m] H; cbn in *; try discriminate; auto. f_equal. apply IH. lia. Qed.
Lemma values_combine : forall (L : list label) (m : list bool), length m = length L -> map snd (combine L m) = m.
Proof. induction L as [|x L IH]; intros [|b m] H; cbn in *; try discriminate; auto. f_equal. apply IH. lia. Qed.
Lemma combine_back : forall (s : lseries), combine (labels_of s) (map snd s) = s.
Proof. induction s as [|[x b] s IH]; cbn; [auto|]. f_equal. exact IH. Qed.
Lemma nodup_nth : forall (L : list label) i j x, NoDup L -> nth_error L i = Some x -> nth_error L j = Some x -> i = j.
Proof. intros L i j x N E1 E2. rewrite NoDup_nth_error in N. apply N; [apply nth_error_Some; congruence|congruence]. Qed.
Lemma len_series_and : forall a b, length a = length b -> length (series_and a b) = length a.
Proof. exact series_and_length. Qed.

(** A label of the default index of [n] rows. *)
Definition in_range (n : nat) (x : label) : Prop := exists k, k < n /\ x = default_label k.
Definition in_rangeb (n : nat) (x : label) : bool := memb x (map default_label (seq 0 n)).
Lemma in_rangeb_spec : forall n x, in_rangeb n x = true <-> in_range n x.
Proof.
  intros n x. unfold in_rangeb. rewrite memb_In, in_map_iff. split.
  - intros (k & E & I). apply in_seq in I. exists k. split; [lia|congruence].
  - intros (k & L & E). exists k. split; [congruence|apply in_seq; lia].
Qed.
Lemma labels_default : forall n, labels_of (default_series n) = map default_label (seq 0 n).
Proof. intro n. unfold labels_of, default_series. rewrite map_map. reflexivity. Qed.
Lemma default_inj : forall i j, default_label i = default_label j -> i = j.
Proof. unfold default_label. intros i j H. injection H. lia. Qed.
Lemma nodup_default : forall n, NoDup (map default_label (seq 0 n)).
Proof. intro n. apply FinFun.Injective_map_NoDup; [exact default_inj|apply seq_NoDup]. Qed.
Lemma in_default : forall n x, In x (map default_label (seq 0 n)) <-> in_range n x.
Proof. intros n x. rewrite <- memb_In. apply in_rangeb_spec. Qed.
Lemma value_default : forall n x, value_at (default_series n) x = true <-> in_range n x.
Proof.
  intros n x. rewrite value_at_In. unfold default_series. rewrite in_map_iff. split.
  - intros (k & E & I). apply in_seq in I. injection E as <-. exists k. split; [lia|auto].
  - intros (k & L & ->). exists k. split; [auto|apply in_seq; lia].
Qed.

Lemma nodup_app2 : forall {A} (a b : list A), NoDup a -> NoDup b -> (forall x, In x a -> ~ In x b) -> NoDup (a ++ b).
Proof.
  intros A a b Na Nb D. induction a as [|x a IH]; cbn; [exact Nb|]. inversion Na; subst. constructor.
  - rewrite in_app_iff. intros [I|I]; [contradiction|]. apply (D x); cbn; auto.
  - apply IH; [assumption|]. intros y I. apply D. cbn. auto.
Qed.
Section And.
Context (arrange : list label -> list label) (Harr : forall l, Permutation (arrange l) l).
Lemma aligned_and_spec : forall a b, NoDup (labels_of a) -> NoDup (labels_of b) ->
  let r := aligned_and arrange a b in
  NoDup (labels_of r) /\ (forall x, In x (labels_of r) <-> In x (labels_of a) \/ In x (labels_of b)) /\
  forall x, value_at r x = value_at a x && value_at b x.
Proof.
  intros a b Na Nb r. unfold r, aligned_and. destruct (index_equals _ _) eqn:E.
  - apply index_equals_eq in E. set (L := labels_of a) in *.
    assert (La : length (map snd a) = length L) by (unfold L, labels_of; rewrite !map_length; auto).
    assert (Lb : length (map snd b) = length L) by (rewrite E; unfold labels_of; rewrite !map_length; auto).
    assert (Ls : length (series_and (map snd a) (map snd b)) = length L) by (rewrite series_and_length; lia).
    rewrite labels_combine by exact Ls. split; [exact Na|]. split; [rewrite <- E; tauto|]. intro x.
    apply eq_true_iff_eq. rewrite andb_true_iff, combine_at by exact Ls. 
    replace (value_at a x) with (value_at (combine L (map snd a)) x) by (unfold L; rewrite combine_back; reflexivity).
    replace (value_at b x) with (value_at (combine L (map snd b)) x) by (rewrite E; rewrite combine_back; reflexivity). rewrite !combine_at by assumption. split.
    + intros (i & E1 & E2). rewrite nth_series_and in E2 by lia. apply andb_true_iff in E2. destruct E2. split; exists i; auto.
    + intros [(i & E1 & E2) (j & E3 & E4)]. assert (i = j) by exact (nodup_nth L i j x Na E1 E3). subst j. exists i. split; [auto|]. rewrite nth_series_and by lia. rewrite E2, E4. reflexivity.
  - set (U := labels_of a ++ filter (fun x => negb (memb x (labels_of a))) (labels_of b)).
    assert (El : forall f, labels_of (map (fun x => (x, f x)) (arrange U)) = arrange U) by (intro f; unfold labels_of; rewrite map_map; apply map_id).
    assert (IU : forall x, In x U <-> In x (labels_of a) \/ In x (labels_of b)).
    { intro x. unfold U. rewrite in_app_iff, filter_In, negb_true_iff. destruct (memb x (labels_of a)) eqn:M.
      - apply memb_In in M. split; [tauto|]. intros _. left. exact M.
      - split; [tauto|]. intros [I|I]; auto. }
    assert (NU : NoDup U).
    { unfold U. apply nodup_app2; [exact Na|apply NoDup_filter; exact Nb|]. intros x I J. apply filter_In in J. destruct J as [_ J]. apply negb_true_iff in J. apply memb_In in I. congruence. }
    rewrite El. split; [eapply Permutation_NoDup; [apply Permutation_sym, Harr|exact NU]|]. split.
    + intro x. rewrite <- IU. split; apply Permutation_in; [apply Harr|apply Permutation_sym, Harr].
    + intro x. apply eq_true_iff_eq. rewrite value_at_In, in_map_iff. split.
      * intros (y & Ey & _). injection Ey as -> Ey. exact Ey.
      * intro V. exists x. rewrite V. split; [auto|]. apply Permutation_in with U; [apply Permutation_sym, Harr|]. apply IU. left.
        apply andb_true_iff in V. destruct V as [V _]. apply value_at_In in V. apply (in_map fst) in V. exact V.
Qed.

(** The loop: [done] are the selectors already evaluated. *)
Definition loop_inv (df : ldataframe) (done : list selector) (acc : lseries) : Prop :=
  NoDup (labels_of acc) /\
  (forall x, In x (labels_of acc) <-> in_range (length (lf_index df)) x \/ (done <> [] /\ In x (lf_index df))) /\
  forall x, value_at acc x = true <-> in_range (length (lf_index df)) x /\
    (done <> [] -> exists i, nth_error (lf_index df) i = Some x /\ forall s, In s done -> row_matches (plain df) i s).
Lemma none_true : forall acc, any_true (map snd acc) = false -> forall x, value_at acc x = false.
Proof.
  intros acc H x. destruct (value_at acc x) eqn:E; [|reflexivity]. apply value_at_In in E. unfold any_true in H.
  assert (K : existsb (fun b => b) (map snd acc) = true) by (apply existsb_exists; exists true; split; [apply (in_map snd) in E; exact E|reflexivity]). congruence.
Qed.
Lemma aligned_loop_spec : forall df, wf_df (plain df) -> NoDup (lf_index df) -> forall l done acc s, loop_inv df done acc ->
  aligned_loop arrange df acc l = Ok s -> loop_inv df (done ++ l) s.
Proof.
  intros df Hwf N. induction l as [|t l IH]; intros done acc s I E; cbn [aligned_loop] in E.
  - rewrite app_nil_r. destruct (any_true _); injection E as <-; exact I.
  - destruct (any_true (map snd acc)) eqn:A.
    + destruct (df_col (plain df) (s_attr t)) as [col|] eqn:Ec; [|discriminate]. cbn [bind] in E.
      destruct (op_evaluate_series (s_op t) col (s_val t)) as [m|] eqn:Em; [|discriminate]. cbn [bind] in E.
      assert (Hc : col_get (df_cols (plain df)) (s_attr t) = Some col) by (unfold df_col in Ec; destruct (col_get _ _); [congruence|discriminate]).
      destruct (series_row (plain df) t col m Hwf Hc Em) as [Lm Mr]. cbn [df_n plain] in Lm, Mr.
      replace (done ++ t :: l) with ((done ++ [t]) ++ l) by (rewrite <- app_assoc; reflexivity).
      apply (IH (done ++ [t]) (aligned_and arrange acc (combine (lf_index df) m)) s); [|exact E]. clear E IH. destruct I as (I1 & I2 & I3). set (b := combine (lf_index df) m).
      assert (Lb : labels_of b = lf_index df) by (apply labels_combine; exact Lm).
      destruct (aligned_and_spec acc b I1 ltac:(rewrite Lb; exact N)) as (R1 & R2 & R3). split; [exact R1|]. split.
      * intro x. rewrite R2, I2, Lb. split; [intros [[H|H]|H]; [auto|destruct H; right; split; [destruct done; discriminate|auto]|right; split; [destruct done; discriminate|auto]]|tauto].
      * intro x. rewrite R3, andb_true_iff, I3. unfold b. rewrite combine_at by exact Lm. split.
        -- intros ((H1 & H2) & (i & E1 & E2)). split; [exact H1|]. intros _. exists i. split; [exact E1|].
           assert (Li : i < length (lf_index df)) by (apply nth_error_Some; congruence).
           intros u Iu. apply in_app_or in Iu. destruct Iu as [Iu|[<-|[]]].
           ++ destruct H2 as (j & E3 & H2); [intros ->; destruct Iu|]. assert (i = j) by exact (nodup_nth _ i j x N E1 E3). subst j. auto.
           ++ apply row_matchesb_spec. rewrite <- Mr by exact Li. exact E2.
        -- intros (H1 & H2). destruct H2 as (i & E1 & H2); [destruct done; discriminate|]. assert (Li : i < length (lf_index df)) by (apply nth_error_Some; congruence).
           split; [split; [exact H1|]; intros _; exists i; split; [exact E1|]; intros u Iu; apply H2, in_or_app; auto|].
           exists i. split; [exact E1|]. rewrite Mr by exact Li. apply row_matchesb_spec, H2, in_or_app. cbn. auto.
    + injection E as <-. pose proof (none_true _ A) as NT. destruct I as (I1 & I2 & I3). split; [exact I1|]. split.
      * intro x. rewrite I2. destruct done as [|u done].
        -- split; [intros [H|[H _]]; [auto|congruence]|]. intros [H|[_ H]]; [auto|]. exfalso.
           assert (K : in_range (length (lf_index df)) (default_label 0)). { exists 0. split; [|reflexivity]. destruct (lf_index df); [destruct H|cbn; lia]. }
           assert (K2 : value_at acc (default_label 0) = true) by (apply I3; split; [exact K|congruence]). rewrite NT in K2. discriminate.
        -- cbn [app]. split; (intros [H|[_ H]]; [auto|right; split; [discriminate|exact H]]).
      * intro x. rewrite NT. split; [discriminate|]. intros (H1 & H2). exfalso.
        assert (K : value_at acc x = true).
        { apply I3. split; [exact H1|]. intro D. destruct H2 as (i & E1 & H2); [destruct done; discriminate|]. exists i. split; [exact E1|]. intros u Iu. apply H2, in_or_app. auto. }
        rewrite NT in K. discriminate.
Qed.
Lemma loop_start : forall df, loop_inv df [] (default_series (length (lf_index df))).
Proof.
  intro df. split; [rewrite labels_default; apply nodup_default|]. split.
  - intro x. rewrite labels_default, in_default. split; [auto|]. intros [H|[H _]]; [auto|congruence].
  - intro x. rewrite value_default. split; [intro H; split; [exact H|congruence]|tauto].
Qed.
Lemma loop_total : forall df l acc, (forall s, In s l -> evaluable (plain df) s) -> exists s, aligned_loop arrange df acc l = Ok s.
Proof.
  intros df. induction l as [|t l IH]; intros acc H; cbn [aligned_loop]; [destruct (any_true _); eauto|].
  destruct (any_true _); [|eauto]. destruct (H t (or_introl eq_refl)) as (c & Hc & Hev). unfold df_col. rewrite Hc. cbn [bind].
  destruct (map_res_total (fun x => op_evaluate (s_op t) x (s_val t)) c Hev) as [ms Hms]. unfold op_evaluate_series. rewrite Hms. cbn [bind]. apply IH. intros u Hu. apply H. cbn. auto.
Qed.
End And.
