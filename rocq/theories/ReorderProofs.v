(** The same rows in another order, under columns in another order (C85). *)
From Coq Require Import String.
From Verif Require Import Properties_VLSD.
From Verif Require Export MiningSpec.
From Coq Require Import Permutation Lia.
Open Scope string_scope.
Open Scope list_scope.
Open Scope nat_scope.

(** [df'] has the columns of [df] and its rows, each as often as in [df]: row [i] of [df'] is row [sg i] of [df]. *)
Definition reordered_by (sg : list nat) (df df' : dataframe) : Prop :=
  df_n df' = df_n df /\ wf_df df' /\ Permutation (map fst (df_cols df)) (map fst (df_cols df')) /\ Permutation (seq 0 (df_n df)) sg /\
  forall i j a, nth_error sg i = Some j -> cell df' i a = cell df j a.
Definition reordered (df df' : dataframe) : Prop := exists sg, reordered_by sg df df'.

Lemma map_through : forall A (f g : nat -> A) sg k, (forall i j, nth_error sg i = Some j -> g (k + i) = f j) -> map g (seq k (length sg)) = map f sg.
Proof.
  intros A f g sg. induction sg as [|x sg IH]; intros k H; [reflexivity|]. cbn [length seq map]. f_equal.
  - specialize (H 0 x eq_refl). rewrite Nat.add_0_r in H. exact H.
  - apply IH. intros i j E. specialize (H (S i) j E). rewrite <- plus_n_Sm in H. exact H.
Qed.
Lemma filter_map_length : forall A (f : A -> bool) l, length (filter f l) = length (filter (fun b => b) (map f l)).
Proof. intros A f l. induction l as [|x l IH]; [reflexivity|]. cbn [map filter]. destruct (f x); cbn [length]; auto. Qed.

Section Reordered.
  Variables (df df' : dataframe) (sg : list nat).
  Hypothesis HR : reordered_by sg df df'.
  Lemma sg_length : length sg = df_n df.
  Proof. destruct HR as (_ & _ & _ & P & _). rewrite <- (Permutation_length P), seq_length. reflexivity. Qed.
  Lemma count_same : forall f g, (forall i j, nth_error sg i = Some j -> g i = f j) ->
    length (filter g (seq 0 (df_n df'))) = length (filter f (seq 0 (df_n df))).
  Proof.
    intros f g H. destruct HR as (En & _ & _ & P & _). rewrite En. rewrite (filter_map_length _ g). rewrite <- sg_length at 1.
    rewrite (map_through _ f g sg 0) by exact H. rewrite <- filter_map_length. symmetry. clear -P.
    induction P; cbn [filter]; auto; [destruct (f x); cbn [length]; auto|destruct (f x), (f y); cbn [length]; auto|congruence].
  Qed.
  Lemma row_same : forall i j s, nth_error sg i = Some j -> row_matchesb df' i s = row_matchesb df j s.
  Proof. intros i j s E. unfold row_matchesb. destruct HR as (_ & _ & _ & _ & H). rewrite (H i j _ E). reflexivity. Qed.
  Lemma all_same : forall i j l, nth_error sg i = Some j -> forallb (row_matchesb df' i) l = forallb (row_matchesb df j) l.
  Proof. intros i j l E. induction l as [|s l IH]; [reflexivity|]. cbn [forallb]. rewrite IH, (row_same i j s E). reflexivity. Qed.
  Lemma counts_same : forall t X, tp_of df' t X = tp_of df t X /\ fp_of df' t X = fp_of df t X /\ coverage df' X = coverage df X.
  Proof.
    intros t X. unfold tp_of, fp_of, pos_rows, neg_rows, coverage, matches_all. split; [|split].
    - f_equal. apply count_same. intros i j E. rewrite (row_same i j t E), (all_same i j X E). reflexivity.
    - f_equal. apply count_same. intros i j E. rewrite (row_same i j t E), (all_same i j X E). reflexivity.
    - apply count_same. intros i j E. apply (all_same i j X E).
  Qed.
  Lemma totals_same : forall tcol tval, TP_of df' tcol tval = TP_of df tcol tval /\ FP_of df' tcol tval = FP_of df tcol tval.
  Proof. intros tcol tval. unfold TP_of, FP_of. destruct (counts_same (Sel tcol EQUAL (VStr tval)) []) as (-> & -> & _). auto. Qed.
  Lemma get_in : forall (cols : list (string * list value)) a, (exists c, col_get cols a = Some c) <-> In a (map fst cols).
  Proof.
    induction cols as [|[b c] cols IH]; intros a; cbn [col_get map fst].
    - split; [intros [c H]; discriminate|intros []].
    - destruct (String.eqb a b) eqn:E.
      + apply String.eqb_eq in E. subst. split; [left; reflexivity|exists c; reflexivity].
      + apply String.eqb_neq in E. rewrite IH. split; [right; auto|intros [H|H]; [congruence|auto]].
  Qed.
  Lemma column_same : forall a, has_column df' a <-> has_column df a.
  Proof.
    intros a. unfold has_column. rewrite !get_in. destruct HR as (_ & _ & P & _). split; apply Permutation_in; [symmetry|]; exact P.
  Qed.
  Lemma quality_same : forall V (m : Z -> Z -> Z -> Z -> res V) tcol tval X, quality m df' tcol tval X = quality m df tcol tval X.
  Proof.
    intros V m tcol tval X. unfold quality. destruct (counts_same (Sel tcol EQUAL (VStr tval)) X) as (-> & -> & _). destruct (totals_same tcol tval) as [-> ->]. reflexivity.
  Qed.
  Lemma line_same : forall V tcol tval X (q : V), line_of df' tcol tval X q = line_of df tcol tval X q.
  Proof.
    intros V tcol tval X q. unfold line_of. destruct (counts_same (Sel tcol EQUAL (VStr tval)) X) as (-> & -> & _). destruct (totals_same tcol tval) as [-> ->]. reflexivity.
  Qed.
  Lemma description_same : forall tcol X, description df' tcol X <-> description df tcol X.
  Proof.
    intros tcol X. unfold description. split; intros (A & B & C); (split; [exact A|]; split; [exact B|]; intros s Is; destruct (C s Is) as (C1 & C2 & C3 & C4); repeat (split; auto); apply column_same; auto).
  Qed.
  Lemma frequent_same : forall tcol tval a b n X, frequent df' tcol tval a b n X <-> frequent df tcol tval a b n X.
  Proof.
    intros tcol tval a b n X. unfold frequent. destruct (counts_same (Sel tcol EQUAL (VStr tval)) X) as (-> & -> & ->). rewrite description_same. tauto.
  Qed.
  Lemma candidate_same : forall tcol X, candidate df' tcol X <-> candidate df tcol X.
  Proof. intros tcol X. unfold candidate. destruct (counts_same (Sel tcol EQUAL (VStr "")) X) as (_ & _ & ->). rewrite description_same. tauto. Qed.
  Hypothesis Hcat : categorical df.
  Lemma names_nodup : NoDup (map fst (df_cols df')).
  Proof. destruct HR as (_ & _ & P & _). apply (Permutation_NoDup P). apply Hcat. Qed.
  Lemma in_cells : forall a col v, In (a, col) (df_cols df') -> In v col -> exists col', In (a, col') (df_cols df) /\ In v col'.
  Proof.
    intros a col v I J. apply In_nth_error in J. destruct J as [i Ei].
    assert (G : col_get (df_cols df') a = Some col).
    { pose proof names_nodup as ND. revert I ND. generalize (df_cols df') as cols. induction cols as [|[b c] cols IH]; intros I ND; [destruct I|]. cbn [col_get]. cbn [map fst] in ND. inversion ND; subst.
      destruct I as [I|I]; [injection I as <- <-; rewrite String.eqb_refl; reflexivity|]. destruct (String.eqb a b) eqn:E; [|auto]. apply String.eqb_eq in E. subst. exfalso. apply H1. apply in_map_iff. exists (b, col); auto. }
    destruct HR as (En & W & _ & P & H). assert (L : i < length sg).
    { rewrite sg_length, <- En, <- (W a col I). apply nth_error_Some. congruence. }
    destruct (nth_error sg i) as [j|] eqn:Ej; [|apply nth_error_None in Ej; lia]. specialize (H i j a Ej). unfold cell in H. rewrite G, Ei in H.
    destruct (col_get (df_cols df) a) as [col'|] eqn:E'; [|discriminate]. exists col'. split; [|eapply nth_error_In; eauto].
    clear -E'. revert E'. generalize (df_cols df) as cols. induction cols as [|[b c] cols IH]; cbn [col_get]; [discriminate|]. destruct (String.eqb a b) eqn:E; [|right; auto].
    apply String.eqb_eq in E. intros X. injection X as ->. left. congruence.
  Qed.
  Lemma categorical_same : categorical df'.
  Proof.
    split; [apply HR|]. split; [apply names_nodup|]. intros a col v I J. destruct (in_cells a col v I J) as (col' & I' & J'). destruct Hcat as (_ & _ & S0). eapply S0; eauto.
  Qed.
  Lemma keys_same : forall tcol, distinct_keys df tcol -> distinct_keys df' tcol.
  Proof.
    intros tcol H a col v b col' w I J Na Nb Iv Iw E. destruct (in_cells _ _ _ I Iv) as (c1 & I1 & J1). destruct (in_cells _ _ _ J Iw) as (c2 & I2 & J2). eapply H; [exact I1|exact I2|..]; eauto.
  Qed.
  Lemma texts_same : forall tcol, distinct_texts df tcol -> distinct_texts df' tcol.
  Proof.
    intros tcol H a col v b col' w I J Na Nb Iv Iw E. destruct (in_cells _ _ _ I Iv) as (c1 & I1 & J1). destruct (in_cells _ _ _ J Iw) as (c2 & I2 & J2). eapply H; [exact I1|exact I2|..]; eauto.
  Qed.
End Reordered.

(** Two duplicate-free lists without order. *)
Lemma same_members : forall A (l m : list A), NoDup l -> NoDup m -> (forall x, In x l <-> In x m) -> Permutation l m.
Proof. intros A l m H1 H2 H. apply NoDup_Permutation; auto. Qed.
Lemma nodup_of_map : forall A B (f : A -> B) l, NoDup (map f l) -> NoDup l.
Proof.
  intros A B f l. induction l as [|x l IH]; intros H; [constructor|]. cbn [map] in H. inversion H; subst. constructor; auto. intros I. apply H2. apply in_map; auto.
Qed.
