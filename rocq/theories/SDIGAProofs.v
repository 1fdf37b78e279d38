(** SDIGA: the encoding, the evolution and the local search. *)
From Verif Require Import CorePattern SDIGASpec MiningProofs SDMapProofs FPTreeProofs OrderFacts CoreFrame.
From Coq Require Import Lia Lqa.
Open Scope string_scope.
Open Scope list_scope.
Open Scope nat_scope.

(** * Codes *)
Lemma gv_in : forall l v, (forall x, In x l -> is_str x = true) -> (In v (group_values l) <-> In v l).
Proof. exact (group_in (DF 0 []) "" "" (fun _ _ => true)). Qed.
Lemma gv_nodup : forall l, NoDup (group_values l).
Proof. exact group_nodup. Qed.
Lemma py_eq_refl_v : forall x, py_eq x x = true.
Proof. intros [x|z|m e]; cbn; [apply String.eqb_refl| |]; apply Z.eqb_refl. Qed.
Lemma position_in : forall l v, (forall x, In x l -> is_str x = true) -> is_str v = true -> In v l ->
  position v l < length l /\ nth_error l (position v l) = Some v.
Proof.
  induction l as [|w l IH]; intros v H Hv I; [destruct I|]. cbn [position]. destruct (py_eq v w) eqn:E.
  - apply py_eq_str in E; auto; [|apply H; left; auto]. subst. cbn. split; [lia|auto].
  - destruct I as [->|I]; [rewrite py_eq_refl_v in E; discriminate|]. destruct (IH v) as [A B]; auto; [intros; apply H; right; auto|]. cbn [length nth_error]. split; [lia|auto].
Qed.
Lemma code_spec : forall l v g, (forall x, In x l -> is_str x = true) -> NoDup l -> In v l -> (Z.of_nat (length l) <= 65535)%Z -> 1 <= g ->
  (gene_code l v = g <-> nth_error l (g - 1) = Some v).
Proof.
  intros l v g H ND I L Hg. destruct (position_in l v H (H v I) I) as [A B]. unfold gene_code. rewrite Z.mod_small by lia. rewrite Nat2Z.id.
  split; intros E.
  - replace (g - 1) with (position v l) by lia. auto.
  - assert (g - 1 < length l) by (apply nth_error_Some; congruence). rewrite NoDup_nth_error in ND. specialize (ND (g - 1) (position v l)). rewrite E, B in ND. specialize (ND H0 eq_refl). lia.
Qed.
Lemma code_range : forall l v, (forall x, In x l -> is_str x = true) -> In v l -> (Z.of_nat (length l) <= 65535)%Z -> 1 <= gene_code l v <= length l.
Proof. intros l v H I L. destruct (position_in l v H (H v I) I) as [A B]. unfold gene_code. rewrite Z.mod_small by lia. rewrite Nat2Z.id. lia. Qed.

(** * Chromosomes of a dictionary *)
Definition gene_sels (g : string * nat) (d : string * list value) : list selector :=
  if snd g =? 0 then [] else match nth_error (snd d) (snd g - 1) with Some v => [Sel (fst g) EQUAL v] | None => [] end.
Fixpoint sels (c : chromosome) (d : enc_dict) : list selector :=
  match c, d with g :: c', e :: d' => gene_sels g e ++ sels c' d' | _, _ => [] end.
Lemma dict_values_in : forall d k vs, NoDup (map fst d) -> In (k, vs) d -> dict_values d k = Some vs.
Proof.
  induction d as [|[a ws] d IH]; intros k vs ND I; [destruct I|]. cbn [map fst] in ND. inversion ND as [|? ? N ND']; subst. cbn [dict_values].
  destruct I as [I|I]; [injection I as <- <-; now rewrite String.eqb_refl|]. destruct (String.eqb k a) eqn:E; auto. apply String.eqb_eq in E. subst. exfalso. apply N. apply in_map_iff. exists (a, vs). auto.
Qed.
Lemma decode_sels : forall dict c, NoDup (map fst dict) -> chrom_ok dict c -> decode c dict = Ok (pattern_init (sels c dict)).
Proof.
  intros dict c ND H. unfold decode. assert (K : forall d c', incl d dict -> chrom_ok d c' -> exists l, map_res (gene_selector dict) c' = Ok l /\ concat l = sels c' d).
  { intros d c' I F. induction F as [|g e c0 d0 (E & L) F IH]; [exists []; auto|].
    destruct IH as (l & El & Ec); [intros x Hx; apply I; right; auto|]. destruct g as [k n], e as [k' vs]. cbn [fst snd] in E, L. subst k'.
    cbn [map_res sels]. unfold gene_selector at 1, gene_sels. cbn [fst snd]. destruct (n =? 0) eqn:Z.
    - rewrite El. cbn [bind]. exists ([] :: l). cbn [concat app]. auto.
    - apply Nat.eqb_neq in Z. rewrite (dict_values_in dict k vs) by (auto; apply I; left; auto). destruct (nth_error vs (n - 1)) as [v|] eqn:N; [|apply nth_error_None in N; lia].
      rewrite El. cbn [bind]. exists ([Sel k EQUAL v] :: l). cbn [concat app]. rewrite Ec. auto. }
  destruct (K dict c (incl_refl _) H) as (l & -> & E). cbn [bind]. rewrite E. reflexivity.
Qed.
Lemma chrom_keys : forall dict c, chrom_ok dict c -> map fst c = map fst dict.
Proof. intros dict c H. induction H as [|g e c d (E & _) H IH]; auto. cbn. congruence. Qed.
Lemma sels_in : forall c d s, chrom_ok d c -> (In s (sels c d) <-> exists i k g vs v, nth_error c i = Some (k, g) /\ nth_error d i = Some (k, vs) /\ g <> 0 /\ nth_error vs (g - 1) = Some v /\ s = Sel k EQUAL v).
Proof.
  intros c d s H. induction H as [|[k g] [k' vs] c d (E & L) H IH]; cbn [sels].
  - split; [intros []|]. intros (i & k & g & vs & v & N & _). destruct i; discriminate.
  - cbn [fst snd] in E, L. subst k'. rewrite in_app_iff, IH. split.
    + intros [I|I].
      * unfold gene_sels in I. cbn [fst snd] in I. destruct (g =? 0) eqn:Z; [destruct I|]. apply Nat.eqb_neq in Z. destruct (nth_error vs (g - 1)) as [v|] eqn:N; [|destruct I]. destruct I as [<-|[]].
        exists 0, k, g, vs, v. auto.
      * destruct I as (i & R). exists (S i). exact R.
    + intros (i & k2 & g2 & vs2 & v & N1 & N2 & Z & N & ->). destruct i as [|i].
      * cbn in N1, N2. injection N1 as <- <-. injection N2 as <-. left. unfold gene_sels. cbn [fst snd]. apply Nat.eqb_neq in Z. rewrite Z, N. left; auto.
      * right. exists i, k2, g2, vs2, v. auto.
Qed.

(** * The rows of a chromosome *)
Lemma matches_members : forall df X Y i, (forall s, In s X <-> In s Y) -> matches_all df X i = matches_all df Y i.
Proof.
  intros df X Y i H. unfold matches_all. apply Bool.eq_true_iff_eq. rewrite !forallb_forall. split; intros K s I; apply K, H; auto.
Qed.
Section Encoded.
  Variable df : dataframe.
  Variables tcol tval : string.
  Hypothesis Hin : sdiga_input df tcol tval.
  Notation dict := (encoded_dict df tcol).
  Notation cols := (other_columns df tcol).
  Notation tsel := (Sel tcol EQUAL (VStr tval)).
  Notation pat c := (pattern_init (sels c dict)).
  Lemma in_cat : categorical df.
  Proof. apply Hin. Qed.
  Lemma dict_nodup : NoDup (map fst dict).
  Proof. unfold encoded_dict. rewrite map_map. cbn [fst]. apply (cols_nodup df tcol tval in_cat (fun _ _ => true)). Qed.
  Lemma dict_nth : forall i k vs, nth_error dict i = Some (k, vs) -> exists col, nth_error cols i = Some (k, col) /\ vs = group_values col /\ In (k, col) (df_cols df) /\ k <> tcol.
  Proof.
    intros i k vs H. unfold encoded_dict in H. rewrite nth_error_map in H. destruct (nth_error cols i) as [[a col]|] eqn:E; [|discriminate]. cbn in H. injection H as <- <-.
    exists col. split; auto. split; auto. apply nth_error_In in E. apply cols_in in E. auto.
  Qed.
  Lemma col_str : forall a col, In (a, col) (df_cols df) -> forall x, In x col -> is_str x = true.
  Proof. intros a col I x Ix. destruct in_cat as (_ & _ & H). eapply H; eauto. Qed.
  Lemma group_str : forall a col, In (a, col) (df_cols df) -> forall x, In x (group_values col) -> is_str x = true.
  Proof. intros a col I x Ix. apply (col_str a col I). apply (proj1 (gv_in col x (col_str a col I)) Ix). Qed.
  Lemma group_len : forall a col, In (a, col) (df_cols df) -> (Z.of_nat (length (group_values col)) <= 65535)%Z.
  Proof. intros a col I. unfold group_values. rewrite sort_by_length. destruct Hin as (_ & _ & _ & H & _). eauto. Qed.
  Lemma sels_attrs : forall c d, chrom_ok d c -> NoDup (map fst d) -> NoDup (map s_attr (sels c d)) /\ incl (map s_attr (sels c d)) (map fst d).
  Proof.
    intros c d H. induction H as [|[k g] [k' vs] c d (E & L) H IH]; intros ND; cbn [sels map]; [split; [constructor|intros x []]|]. cbn [fst snd] in *. subst k'.
    inversion ND as [|? ? N ND']; subst. destruct (IH ND') as [A B]. unfold gene_sels. cbn [fst snd]. destruct (g =? 0); [split; auto; intros x I; right; auto|].
    destruct (nth_error vs (g - 1)) as [v|]; cbn [app map s_attr]; [|split; auto; intros x I; right; auto]. split; [constructor; auto|]. intros x [<-|I]; [left; auto|right; auto].
  Qed.
  Lemma sel_facts : forall c s, chrom_ok dict c -> In s (sels c dict) -> nominal s /\ s_attr s <> tcol /\ exists col, In (s_attr s, col) (df_cols df) /\ In (s_val s) col.
  Proof.
    intros c s H I. apply sels_in in I; auto. destruct I as (i & k & g & vs & v & _ & N & _ & Nv & ->). apply dict_nth in N. destruct N as (col & _ & -> & I & D).
    apply nth_error_In in Nv. pose proof (group_str _ _ I v Nv) as S1. split; [split; auto|]. split; auto. exists col. split; auto. apply (proj1 (gv_in col v (col_str k col I)) Nv).
  Qed.
  Lemma sels_nominal : forall c, chrom_ok dict c -> Forall nominal (sels c dict) /\ NoDup (sels c dict).
  Proof.
    intros c H. split; [apply Forall_forall; intros s I; eapply sel_facts; eauto|]. destruct (sels_attrs c dict H dict_nodup) as [N _]. eapply NoDup_map_inv; eauto.
  Qed.
  Lemma pat_facts : forall c, chrom_ok dict c -> Permutation (sels c dict) (pat c) /\ rule df tcol (pat c) /\ Forall nominal (pat c).
  Proof.
    intros c H. destruct (sels_nominal c H) as [N D]. destruct (pattern_nominal _ D N) as [P S1]. split; auto. split; [split; [|split]|].
    - auto.
    - eapply Permutation_NoDup; [apply Permutation_map; exact P|]. apply (sels_attrs c dict H dict_nodup).
    - intros s I. apply (Permutation_in s (Permutation_sym P)) in I. destruct (sel_facts c s H I) as ((E & _) & D' & col & Ic & Iv). split; auto. split; auto. exists col. split; auto. apply MiningProofs.col_get_in; auto. apply in_cat.
    - apply Forall_forall. intros s I. apply (Permutation_in s (Permutation_sym P)) in I. rewrite Forall_forall in N. auto.
  Qed.
  (** The encoded row number [i]. *)
  Definition erow (tc : list value) (i : nat) : enc_row :=
    (map (fun c => gene_code (group_values (snd c)) (nth i (snd c) (VStr ""))) cols, nth i tc (VStr "")).
  Lemma row_gene : forall i k col v, In (k, col) (df_cols df) -> In v (group_values col) -> i < df_n df ->
    row_matchesb df i (Sel k EQUAL v) = (gene_code (group_values col) (nth i col (VStr "")) =? S (position v (group_values col))).
  Proof.
    intros i k col v I Iv Li. unfold row_matchesb, cell. cbn [s_attr s_op s_val]. assert (Ec : col_get (df_cols df) k = Some col) by (apply MiningProofs.col_get_in; auto; apply in_cat).
    rewrite Ec. destruct in_cat as (W & _ & Hs). assert (Lc : i < length col) by (rewrite (W _ _ I); auto).
    rewrite (nth_error_nth' col (VStr "") Lc). cbn [op_evaluate]. set (w := nth i col (VStr "")). assert (Iw : In w col) by (apply nth_In; auto).
    pose proof (Hs _ _ _ I Iw) as Sw. pose proof (group_str _ _ I v Iv) as Sv. destruct (position_in (group_values col) v (group_str _ _ I) Sv Iv) as [P1 P2].
    apply Bool.eq_true_iff_eq. rewrite Nat.eqb_eq. rewrite (code_spec (group_values col) w (S (position v (group_values col)))); [|apply (group_str _ _ I)|apply gv_nodup|apply gv_in; auto; apply (col_str _ _ I)|apply (group_len _ _ I)|lia].
    cbn [Nat.sub]. rewrite Nat.sub_0_r, P2. split; intros E; [apply py_eq_str in E; auto; congruence|]. injection E as ->. apply py_eq_refl_v.
  Qed.
  Lemma row_in_sels : forall tc c i, chrom_ok dict c -> i < df_n df -> row_in c (erow tc i) = matches_all df (sels c dict) i.
  Proof.
    intros tc c i H Li. unfold row_in, erow. cbn [fst]. unfold encoded_dict in *. assert (K : incl cols (df_cols df)) by (intros [a x] I; apply cols_in in I; apply I).
    revert c H K. generalize cols. intros cs. induction cs as [|[k col] cs IH]; intros c H K; inversion H as [|[k' g] ? c' ? (E & L) H']; subst; [reflexivity|].
    cbn [fst snd] in E, L. subst k'. cbn [map fst snd genes_match sels]. rewrite IH by (auto; intros x I; apply K; right; auto).
    unfold matches_all. rewrite forallb_app. f_equal. unfold gene_sels. cbn [fst snd]. destruct (g =? 0) eqn:Z; [reflexivity|]. apply Nat.eqb_neq in Z.
    destruct (nth_error (group_values col) (g - 1)) as [v|] eqn:N; [|apply nth_error_None in N; lia]. cbn [forallb]. rewrite Bool.andb_true_r.
    assert (Ic : In (k, col) (df_cols df)) by (apply K; left; auto). pose proof (nth_error_In _ _ N) as Iv. rewrite (row_gene i k col v) by auto.
    f_equal. destruct (position_in (group_values col) v (group_str _ _ Ic) (group_str _ _ Ic v Iv) Iv) as [P1 P2].
    pose proof (gv_nodup col) as ND. rewrite NoDup_nth_error in ND. rewrite <- P2 in N. apply ND in N; [lia|]. apply nth_error_Some. congruence.
  Qed.
  Lemma row_in_pat : forall tc c i, chrom_ok dict c -> i < df_n df -> row_in c (erow tc i) = matches_all df (pat c) i.
  Proof.
    intros tc c i H Li. rewrite row_in_sels by auto. apply matches_members. intros s. destruct (pat_facts c H) as [P _]. split; apply Permutation_in; auto. now apply Permutation_sym.
  Qed.
End Encoded.

(** * Counts *)
Lemma filter_map : forall {A B} (f : B -> bool) (g : A -> B) l, filter f (map g l) = map g (filter (fun x => f (g x)) l).
Proof. induction l as [|x l IH]; cbn; auto. destruct (f (g x)); cbn; congruence. Qed.
Lemma filter_filter : forall {A} (f g : A -> bool) l, filter f (filter g l) = filter (fun x => f x && g x) l.
Proof. induction l as [|x l IH]; cbn; auto. destruct (g x), (f x) eqn:E; cbn; rewrite ?E; cbn; congruence. Qed.
Lemma support_share : forall tp TP FP, (support_of tp TP FP == share tp (TP + FP))%Q.
Proof.
  intros tp TP FP. unfold support_of, share. destruct ((tp =? TP) && (TP =? FP) && (FP =? 0)) eqn:E.
  - rewrite !Bool.andb_true_iff, !Nat.eqb_eq in E. destruct E as ((-> & ->) & ->). reflexivity.
  - destruct (TP + FP =? 0) eqn:Z; [|reflexivity]. apply Nat.eqb_eq in Z. rewrite Z. unfold nQ, Qdiv. cbn. apply Qmult_0_r.
Qed.
Lemma confidence_share : forall tp fp, (confidence_of tp fp == share tp (tp + fp))%Q.
Proof.
  intros tp fp. unfold confidence_of, share. destruct ((tp =? fp) && (fp =? 0)) eqn:E.
  - rewrite !Bool.andb_true_iff, !Nat.eqb_eq in E. destruct E as (-> & ->). reflexivity.
  - destruct (tp + fp =? 0) eqn:Z; [|reflexivity]. apply Nat.eqb_eq in Z. rewrite Z. unfold nQ, Qdiv. cbn. apply Qmult_0_r.
Qed.
Section Counts.
  Variable df : dataframe.
  Variables tcol tval : string.
  Hypothesis Hin : sdiga_input df tcol tval.
  Notation dict := (encoded_dict df tcol).
  Notation tsel := (Sel tcol EQUAL (VStr tval)).
  Notation pat c := (pattern_init (sels c dict)).
  Variable tc : list value.
  Hypothesis Htc : col_get (df_cols df) tcol = Some tc.
  Notation rows R := (map (erow df tcol tc) R).
  Definition real (R : list nat) : Prop := forall i, In i R -> i < df_n df.
  Lemma target_row : forall i, i < df_n df -> py_eq (snd (erow df tcol tc i)) (VStr tval) = row_matchesb df i tsel.
  Proof.
    intros i Li. unfold erow, row_matchesb, cell. cbn [snd s_attr s_op s_val]. rewrite Htc. pose proof (in_cat df tcol tval Hin) as (W & ND & _).
    assert (I : In (tcol, tc) (df_cols df)) by (apply MiningProofs.col_get_in; auto). rewrite (nth_error_nth' tc (VStr "")) by (rewrite (W _ _ I); auto). reflexivity.
  Qed.
  Lemma rows_with_spec : forall c R, chrom_ok dict c -> real R -> rows_with c (rows R) = rows (filter (matches_all df (pat c)) R).
  Proof.
    intros c R H HR. unfold rows_with. rewrite filter_map. f_equal. apply filter_ext_in. intros i I. apply (row_in_pat df tcol tval); auto.
  Qed.
  Lemma rows_without_spec : forall c R, chrom_ok dict c -> real R -> rows_without c (rows R) = rows (filter (fun i => negb (matches_all df (pat c) i)) R).
  Proof.
    intros c R H HR. unfold rows_without. rewrite filter_map. f_equal. apply filter_ext_in. intros i I. f_equal. apply (row_in_pat df tcol tval); auto.
  Qed.
  Lemma positives_spec : forall R, real R -> positives tval (rows R) = length (filter (fun i => row_matchesb df i tsel) R).
  Proof. intros R HR. unfold positives. rewrite filter_map, map_length. f_equal. apply filter_ext_in. intros i I. apply target_row; auto. Qed.
  Lemma split_length : forall {A} (f : A -> bool) l, length (filter f l) + length (filter (fun x => negb (f x)) l) = length l.
  Proof. induction l as [|x l IH]; cbn; auto. destruct (f x); cbn; lia. Qed.
  Lemma get_counts : forall c R, chrom_ok dict c -> real R -> get_tp_fp c (rows R) tval = (pos_in df tsel R (pat c), neg_in df tsel R (pat c)).
  Proof.
    intros c R H HR. unfold get_tp_fp. cbv zeta. rewrite rows_with_spec by auto. rewrite positives_spec by (intros i I; apply filter_In in I; apply HR, I).
    rewrite filter_filter, map_length. unfold pos_in, neg_in. f_equal.
    pose proof (split_length (fun i => row_matchesb df i tsel) (filter (matches_all df (pat c)) R)) as K. rewrite !filter_filter in K. lia.
  Qed.
  Lemma counts_nil : forall R, real R -> positives tval (rows R) = pos_in df tsel R [] /\ length (rows R) - positives tval (rows R) = neg_in df tsel R [].
  Proof.
    intros R HR. rewrite positives_spec by auto. rewrite map_length. unfold pos_in, neg_in. cbn [matches_all forallb].
    assert (E : forall f : nat -> bool, filter (fun i => f i && true) R = filter f R) by (intros f; apply filter_ext; intros i; apply Bool.andb_true_r).
    unfold matches_all. cbn [forallb]. rewrite (E (fun i => row_matchesb df i tsel)), (E (fun i => negb (row_matchesb df i tsel))). split; auto.
    pose proof (split_length (fun i => row_matchesb df i tsel) R). lia.
  Qed.
  Lemma pos_neg_total : forall R, pos_in df tsel R [] + neg_in df tsel R [] = length R.
  Proof.
    intros R. unfold pos_in, neg_in. assert (E : forall f : nat -> bool, filter (fun i => f i && true) R = filter f R) by (intros f; apply filter_ext; intros i; apply Bool.andb_true_r).
    unfold matches_all. cbn [forallb]. rewrite (E (fun i => row_matchesb df i tsel)), (E (fun i => negb (row_matchesb df i tsel))). apply split_length.
  Qed.
  Lemma fitness_spec : forall cfg c R, chrom_ok dict c -> real R ->
    (fitness cfg tval (rows (seq 0 (df_n df))) (rows R) (pos_in df tsel R []) (neg_in df tsel R []) c == fitness_in cfg df tsel R (pat c))%Q.
  Proof.
    intros cfg c R H HR. unfold fitness. rewrite (get_counts c R H HR). rewrite (get_counts c (seq 0 (df_n df)) H) by (intros i I; apply in_seq in I; lia).
    unfold fitness_in. rewrite support_share, confidence_share, pos_neg_total. reflexivity.
  Qed.
End Counts.

(** * The evolution *)
Lemma Forall2_firstn : forall {A B} (P : A -> B -> Prop) n l m, Forall2 P l m -> Forall2 P (firstn n l) (firstn n m).
Proof. intros A B P n l m H. revert n. induction H; intros [|n]; cbn; constructor; auto. Qed.
Lemma Forall2_skipn : forall {A B} (P : A -> B -> Prop) n l m, Forall2 P l m -> Forall2 P (skipn n l) (skipn n m).
Proof. intros A B P n l m H. revert n. induction H; intros [|n]; cbn; try constructor; auto. Qed.
Lemma cut3 : forall {A} (l : list A) a b, a <= b -> firstn a l ++ skipn a (firstn b l) ++ skipn b l = l.
Proof.
  intros A l a b H. rewrite app_assoc. replace (firstn a l) with (firstn a (firstn b l)) by (rewrite firstn_firstn; f_equal; lia). rewrite firstn_skipn. apply firstn_skipn.
Qed.
Lemma splice_ok : forall dict p q a b, chrom_ok dict p -> chrom_ok dict q -> a <= b -> chrom_ok dict (firstn a p ++ skipn a (firstn b q) ++ skipn b p).
Proof.
  intros dict p q a b Hp Hq L. unfold chrom_ok in *. rewrite <- (cut3 dict a b L). apply Forall2_app; [apply Forall2_firstn; auto|]. apply Forall2_app; [apply Forall2_skipn, Forall2_firstn; auto|apply Forall2_skipn; auto].
Qed.
Lemma set_gene_ok : forall dict c i x k vs, chrom_ok dict c -> nth_error dict i = Some (k, vs) -> x <= length vs -> chrom_ok dict (set_gene i x c).
Proof.
  intros dict c i x k vs H. revert i. induction H as [|[a g] [a' ws] c d (E & L) H IH]; intros i N Lx; [destruct i; discriminate|]. cbn [fst snd] in *. subst a'. destruct i as [|i]; cbn [set_gene].
  - cbn in N. injection N as <- <-. constructor; auto. split; auto.
  - constructor; [split; auto|]. apply IH; auto.
Qed.
Lemma random_ok : forall env d t, chrom_ok d (fst (random_chromosome env t d)).
Proof.
  induction d as [|[k vs] d IH]; intros t; cbn [random_chromosome]; [constructor|]. specialize (IH (S t)). destruct (random_chromosome env (S t) d) as [c t']. cbn [fst] in *. constructor; auto.
  split; auto. cbn [fst snd]. unfold draw. pose proof (Nat.mod_upper_bound (en_random env t) (length vs + 1 - 0)). lia.
Qed.
Lemma population_ok : forall env dict n t, Forall (chrom_ok dict) (fst (generate_population env dict t n)) /\ length (fst (generate_population env dict t n)) = n.
Proof.
  induction n as [|n IH]; intros t; cbn [generate_population]; [split; constructor|]. pose proof (random_ok env dict t) as R. destruct (random_chromosome env t dict) as [c t1].
  specialize (IH t1). destruct (generate_population env dict t1 n) as [cs t2]. cbn [fst] in *. destruct IH. split; [constructor; auto|cbn; lia].
Qed.
Lemma drop_fitness_id : forall dict c, chrom_ok dict c -> ~ In "fitness" (map fst dict) -> drop_fitness c = c.
Proof.
  intros dict c H N. rewrite <- (chrom_keys _ _ H) in N. clear H. unfold drop_fitness. induction c as [|[k g] c IH]; auto. cbn [filter fst]. cbn [map fst] in N.
  destruct (String.eqb k "fitness") eqn:E; [apply String.eqb_eq in E; subst; exfalso; apply N; left; auto|]. cbn [negb]. rewrite IH; auto. intros I. apply N. right; auto.
Qed.
Section Evolution.
  Variable cfg : sdiga_config.
  Variable env : environment.
  Variable dict : enc_dict.
  Variable fit : chromosome -> Q.
  Hypothesis Hsort : sorts (en_sort env).
  Hypothesis Hkeys : NoDup (map fst dict).
  Hypothesis Hlen : 2 <= length dict.
  Hypothesis Hval : forall k vs, In (k, vs) dict -> vs <> [].
  Hypothesis Hfit : ~ In "fitness" (map fst dict).
  Definition ind_ok (x : individual) : Prop := chrom_ok dict (fst x) /\ snd x = fit (fst x).
  Definition topped (pop : list individual) : Prop := exists x r, pop = x :: r /\ forall y, In y pop -> (snd y <= snd x)%Q.
  Lemma crossover_ok : forall t p q, chrom_ok dict p -> chrom_ok dict q -> exists c1 c2 t', crossover env t p q = Ok (c1, c2, t') /\ chrom_ok dict c1 /\ chrom_ok dict c2.
  Proof.
    intros t p q Hp Hq. unfold crossover. destruct (flip env t); [|exists p, q, (t + 1); auto]. rewrite (Forall2_len _ _ _ Hp). destruct (length dict <? 2) eqn:E; [apply Nat.ltb_lt in E; lia|].
    cbv zeta. eexists _, _, _. split; [reflexivity|]. split; apply splice_ok; auto; lia.
  Qed.
  Lemma mutation_ok : forall t c, chrom_ok dict c -> exists c' t', mutation env dict t c = Ok (c', t') /\ chrom_ok dict c'.
  Proof.
    intros t c Hc. unfold mutation. pose proof (Forall2_len _ _ _ Hc) as L. destruct (flip env t); [|exists c, (t + 1); auto]. rewrite L. destruct (length dict =? 0) eqn:E; [apply Nat.eqb_eq in E; lia|].
    cbv zeta. set (i := draw env (t + 1) 0 (length dict)). assert (Li : i < length dict) by (unfold i, draw; pose proof (Nat.mod_upper_bound (en_random env (t + 1)) (length dict - 0)); lia).
    destruct (nth_error dict i) as [[k vs]|] eqn:N; [|apply nth_error_None in N; lia]. destruct (flip env (t + 2)).
    - eexists _, _. split; [reflexivity|]. eapply set_gene_ok; eauto. lia.
    - assert (Ek : fst (nth i c ("", 0)) = k).
      { pose proof (chrom_keys _ _ Hc) as K. change (fst (nth i c ("", 0))) with (fst (nth i c ("", 0))). rewrite <- (map_nth fst c ("", 0) i). cbn [fst]. rewrite K.
        apply nth_error_nth. rewrite nth_error_map, N. reflexivity. }
      rewrite Ek, (dict_values_in dict k vs) by (auto; eapply nth_error_In; eauto). destruct (length vs =? 0) eqn:Z; [apply Nat.eqb_eq in Z; apply length_zero_iff_nil in Z; exfalso; eapply Hval; eauto; eapply nth_error_In; eauto|].
      apply Nat.eqb_neq in Z. eexists _, _. split; [reflexivity|]. eapply set_gene_ok; eauto. unfold draw. pose proof (Nat.mod_upper_bound (en_random env (t + 3)) (length vs + 1 - 1)). lia.
  Qed.
  Lemma sort_topped : forall l, l <> [] -> topped (en_sort env l).
  Proof.
    intros l N. destruct (Hsort l) as [P S1]. destruct (en_sort env l) as [|x r] eqn:E; [apply Permutation_sym, Permutation_nil in P; contradiction|]. exists x, r. split; auto.
    intros y [<-|I]; [apply Qle_refl|]. apply In_nth_error in I. destruct I as [j N2]. apply (S1 0 (S j) x y); auto. lia.
  Qed.
  Lemma sort_ok : forall l, Forall ind_ok l -> Forall ind_ok (en_sort env l) /\ length (en_sort env l) = length l.
  Proof. intros l F. destruct (Hsort l) as [P _]. split; [eapply Permutation_Forall; eauto|]. symmetry. apply Permutation_length; auto. Qed.
  Lemma set_last_in : forall x l y, In y (set_last x l) -> y = x \/ In y l.
  Proof. intros x l y I. unfold set_last in I. apply in_app_iff in I. destruct I as [I|[I|[]]]; auto. right. destruct l as [|z l] using rev_ind; [destruct I|]. rewrite removelast_last in I. apply in_app_iff; auto. Qed.
  Lemma set_last_length : forall x l, l <> [] -> length (set_last x l) = length l.
  Proof. intros x l N. destruct l as [|z l] using rev_ind; [contradiction|]. unfold set_last. rewrite removelast_last, !app_length. reflexivity. Qed.
  Lemma set_last_head : forall x a b r, set_last x (a :: b :: r) = a :: set_last x (b :: r).
  Proof. reflexivity. Qed.
  Lemma generation_ok : forall t pop, 2 <= length pop -> Forall ind_ok pop -> topped pop ->
    exists pop' t', generation env dict fit t pop = Ok (pop', t') /\ length pop' = length pop /\ Forall ind_ok pop' /\ topped pop' /\
      (snd (hd ([], 0%Q) pop) <= snd (hd ([], 0%Q) pop'))%Q.
  Proof.
    intros t pop L F T. destruct pop as [|p1 [|p2 r]]; try (cbn in L; lia). cbn [generation]. inversion F as [|? ? O1 F1]; subst. inversion F1 as [|? ? O2 F2]; subst.
    destruct (crossover_ok t (fst p1) (fst p2)) as (c1 & c2 & t1 & E & K1 & K2); [apply O1|apply O2|]. rewrite E. cbn [bind].
    destruct (mutation_ok t1 c1 K1) as (m1 & t2 & E1 & M1). rewrite E1. cbn [bind snd fst]. destruct (mutation_ok t2 c2 K2) as (m2 & t3 & E2 & M2). rewrite E2. cbn [bind snd fst].
    set (ch1 := (m1, fit m1)). set (ch2 := (m2, fit m2)). set (pop := p1 :: p2 :: r) in *.
    set (pop2 := set_last ch2 (set_last ch1 pop)).
    assert (L2 : length pop2 = length pop). { unfold pop2. rewrite !set_last_length; auto; [discriminate|]. unfold pop, set_last. destruct (removelast (p1 :: p2 :: r)); discriminate. }
    assert (F3 : Forall ind_ok pop2).
    { apply Forall_forall. intros y I. unfold pop2 in I. apply set_last_in in I. destruct I as [->|I]; [split; auto|]. apply set_last_in in I. destruct I as [->|I]; [split; auto|]. rewrite Forall_forall in F. auto. }
    assert (N2 : pop2 <> []) by (intros Z; rewrite Z in L2; cbn in L2; lia).
    destruct (sort_ok pop2 F3) as [F4 L4]. exists (en_sort env pop2), t3. split; [reflexivity|]. split; [lia|]. split; auto. split; [apply sort_topped; auto|].
    destruct (sort_topped pop2 N2) as (x & r' & Ex & Hx). rewrite Ex. cbn [hd]. unfold pop. cbn [hd]. apply Hx. destruct (Hsort pop2) as [P _]. apply (Permutation_in _ P).
    assert (H2 : exists l2, pop2 = p1 :: l2).
    { unfold pop2, pop. rewrite set_last_head. destruct (set_last ch1 (p2 :: r)) as [|z l] eqn:Z; [unfold set_last in Z; destruct (removelast (p2 :: r)); discriminate|]. rewrite set_last_head. eauto. }
    destruct H2 as [l2 ->]. left; auto.
  Qed.
  Lemma generations_ok : forall n t pop, 2 <= length pop -> Forall ind_ok pop -> topped pop ->
    exists pop' t', generations env dict fit n t pop = Ok (pop', t') /\ length pop' = length pop /\ Forall ind_ok pop' /\ topped pop' /\
      (snd (hd ([], 0%Q) pop) <= snd (hd ([], 0%Q) pop'))%Q.
  Proof.
    induction n as [|n IH]; intros t pop L F T; cbn [generations].
    - exists pop, t. split; auto. split; auto. split; auto. split; auto. apply Qle_refl.
    - destruct (generation_ok t pop L F T) as (p1 & t1 & -> & L1 & F1 & T1 & B1). cbn [bind fst snd]. destruct (IH t1 p1) as (p2 & t2 & -> & L2 & F2 & T2 & B2); auto; [lia|].
      exists p2, t2. split; auto. split; [lia|]. split; auto. split; auto. eapply Qle_trans; eauto.
  Qed.
  Lemma evolve_ok : forall t, 2 <= gc_population cfg -> exists pop t', evolve cfg env dict fit t = Ok (pop, t') /\ length pop = gc_population cfg /\ Forall ind_ok pop /\ topped pop /\
    forall c, In c (fst (generate_population env dict t (gc_population cfg))) -> (fit c <= snd (hd ([], 0%Q) pop))%Q.
  Proof.
    intros t L. unfold evolve. destruct (population_ok env dict (gc_population cfg) t) as [F E]. destruct (generate_population env dict t (gc_population cfg)) as [cs t1]. cbn [fst] in *.
    set (pop := map (fun c => (drop_fitness c, fit c)) cs : list individual). assert (F0 : Forall ind_ok pop).
    { apply Forall_map. eapply Forall_impl; [|exact F]. intros c Hc. cbn. rewrite (drop_fitness_id dict c Hc Hfit). split; auto. }
    assert (L0 : length pop = gc_population cfg) by (unfold pop; rewrite map_length; auto). destruct (sort_ok pop F0) as [F1 L1].
    assert (T1 : topped (en_sort env pop)) by (apply sort_topped; intros Z; rewrite Z in L0; cbn in L0; lia).
    destruct (generations_ok (gc_generations cfg) t1 (en_sort env pop)) as (p2 & t2 & -> & L2 & F2 & T2 & B2); auto; [lia|].
    exists p2, t2. split; auto. split; [lia|]. split; auto. split; auto. intros c I. eapply Qle_trans; [|exact B2].
    destruct T1 as (x & r & Ex & Hx). rewrite Ex in *. cbn [hd]. assert (Ic : In (drop_fitness c, fit c) (x :: r)).
    { rewrite <- Ex. destruct (Hsort pop) as [P _]. apply (Permutation_in _ P). unfold pop. apply in_map_iff. exists c. auto. }
    apply (Hx _ Ic).
  Qed.
End Evolution.
