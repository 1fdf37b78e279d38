(** SDIGA: the local search as a whole, the main loop and fit. *)
From Verif Require Import SDIGASpec SDIGAProofs SDIGASearch OrderFacts MiningProofs SDMapProofs FPTreeProofs VerticalProofs CorePattern CoreFrame IDSDTop Properties_IDSD.
From Coq Require Import Lia Lqa.
Open Scope string_scope.
Open Scope list_scope.
Open Scope nat_scope.

(** * All the chromosomes *)
Fixpoint all_chroms (d : enc_dict) : list chromosome :=
  match d with
  | [] => [[]]
  | (k, vs) :: r => flat_map (fun g => map (fun c => (k, g) :: c) (all_chroms r)) (seq 0 (S (length vs)))
  end.
Lemma all_chroms_in : forall d c, chrom_ok d c -> In c (all_chroms d).
Proof.
  intros d c H. induction H as [|[k g] [k' vs] c d [E L] H IH]; [left; auto|]. cbn [fst snd] in E, L. subst k'. cbn [all_chroms]. apply in_flat_map. exists g. split; [apply in_seq; lia|].
  apply in_map_iff. exists c. auto.
Qed.
Lemma flat_map_const : forall {A B} (f : A -> list B) n l, (forall x, length (f x) = n) -> length (flat_map f l) = length l * n.
Proof. intros A B f n l H. induction l as [|x l IH]; cbn [flat_map length]; auto. rewrite app_length, H, IH. cbn. lia. Qed.
Lemma all_chroms_length : forall d, length (all_chroms d) = chromosomes d.
Proof.
  unfold chromosomes. induction d as [|[k vs] d IH]; [reflexivity|]. cbn [all_chroms fold_right snd]. rewrite <- IH.
  rewrite (flat_map_const _ (length (all_chroms d))) by (intros; apply map_length). rewrite seq_length. reflexivity.
Qed.
Lemma chrom_bound : forall d cs, NoDup cs -> Forall (chrom_ok d) cs -> length cs <= chromosomes d.
Proof. intros d cs N F. rewrite <- all_chroms_length. apply NoDup_incl_length; auto. intros c I. apply all_chroms_in. rewrite Forall_forall in F. auto. Qed.

Lemma NoDup_snoc : forall {A} (l : list A) x, NoDup l -> ~ In x l -> NoDup (l ++ [x]).
Proof. intros A l x N H. apply (Permutation_NoDup (l := x :: l)); [apply Permutation_cons_append|constructor; auto]. Qed.

Section Main.
  Variable cfg : sdiga_config.
  Variable env : environment.
  Variable df : dataframe.
  Variables tcol tval : string.
  Hypothesis Hin : sdiga_input df tcol tval.
  Hypothesis Hpar : sdiga_parameters cfg.
  Hypothesis Hsort : sorts (en_sort env).
  Notation dict := (encoded_dict df tcol).
  Notation tsel := (Sel tcol EQUAL (VStr tval)).
  Notation pat c := (pattern_init (sels c dict)).
  Notation R0 := (seq 0 (df_n df)).
  Variable tc : list value.
  Hypothesis Htc : col_get (df_cols df) tcol = Some tc.
  Notation rows R := (map (erow df tcol tc) R).
  Notation enc := (rows R0).
  Notation TP := (pos_in df tsel R0 []).
  Notation FP := (neg_in df tsel R0 []).
  Notation meas c := (measure tval enc TP FP c).

  Lemma local_search_ok : forall c, chrom_ok dict c -> exists b conf, local_search cfg tval enc TP FP c = Ok (b, conf, pos_in df tsel R0 (pat b), neg_in df tsel R0 (pat b)) /\
    chrom_ok dict b /\ incl (pat b) (pat c) /\ (confidence df tsel (pat c) <= confidence df tsel (pat b))%Q /\ (b = c \/ pos_in df tsel R0 (pat c) < pos_in df tsel R0 (pat b)) /\
    ((gc_min_confidence cfg <= conf)%Q /\ (conf == confidence df tsel (pat b))%Q /\ irreducible df tsel (pat b) \/
     (conf < gc_min_confidence cfg)%Q /\ b = c /\ (confidence df tsel (pat c) < gc_min_confidence cfg)%Q).
  Proof.
    intros c H. unfold local_search. destruct (climb_ok df tcol tval Hin tc Htc (S (length c)) c H) as (c' & Ec & Hc & Ic & Kc & Rc & Pc); [pose proof (active_le c); lia|].
    rewrite Ec. cbn [bind]. destruct (meas_spec df tcol tval Hin tc Htc c H) as (T0 & F0 & _ & C0). destruct (meas_spec df tcol tval Hin tc Htc c' Hc) as (T1 & F1 & _ & C1). rewrite C0, C1 in Kc.
    destruct (Qle_bool (gc_min_confidence cfg) (me_confidence (meas c'))) eqn:Q.
    - apply Qle_bool_iff in Q. exists c', (me_confidence (meas c')). rewrite T1, F1. repeat (split; auto).
    - assert (Q' : (me_confidence (meas c') < gc_min_confidence cfg)%Q) by (apply Qnot_le_lt; intros K; apply Qle_bool_iff in K; congruence).
      exists c, (me_confidence (meas c')). rewrite T0, F0. split; auto. split; auto. split; [apply incl_refl|]. split; [apply Qle_refl|]. split; auto. right. split; auto. split; auto. rewrite C1 in Q'. lra.
  Qed.

  Lemma refinement_pat : forall c d, chrom_ok dict c -> chrom_ok dict d -> (pattern_is_refinement (en_hash env) (pat c) (pat d) true = true <-> incl (pat c) (pat d)).
  Proof.
    intros c d Hc Hd. destruct (pat_facts df tcol tval Hin c Hc) as (_ & (S1 & _) & N1). destruct (pat_facts df tcol tval Hin d Hd) as (_ & (S2 & _) & N2).
    rewrite is_refinement_spec; auto using nominal_homogeneous; [tauto|]. apply typed_nominal, Forall_app; auto.
  Qed.
  Lemma rows_left_snoc : forall Xs X, filter (fun i => negb (matches_all df X i)) (rows_left df Xs) = rows_left df (Xs ++ [X]).
  Proof. intros. unfold rows_left. rewrite filter_filter. apply filter_ext. intros i. rewrite forallb_app. cbn. rewrite Bool.andb_true_r, Bool.andb_comm. reflexivity. Qed.
  Lemma rows_left_real : forall Xs, real df (rows_left df Xs).
  Proof. intros Xs i I. apply filter_In in I. destruct I as [I _]. apply in_seq in I. lia. Qed.
  Lemma dict_ok : 2 <= length dict /\ (forall k vs, In (k, vs) dict -> vs <> []) /\ ~ In "fitness" (map fst dict).
  Proof.
    pose proof (in_cat df tcol tval Hin) as (W & _). pose proof (rows_positive df tcol tval Hin) as P. destruct Hin as (_ & L & NF & _). unfold encoded_dict. split; [rewrite map_length; auto|]. split.
    - intros k vs I. apply in_map_iff in I. destruct I as ([a col] & E & I). cbn in E. injection E as <- <-. apply filter_In in I. destruct I as [I _]. pose proof (W _ _ I) as Lc. intros Z.
      destruct col as [|v col]; [cbn in Lc; lia|]. assert (Iv : In v (group_values (v :: col))) by (apply gv_in; [eapply col_str; eauto|left; auto]). change (group_values (v :: col) = []) in Z. rewrite Z in Iv. destruct Iv.
    - intros I. apply in_map_iff in I. destruct I as ([k vs] & Ek & I). cbn in Ek. subst k. apply in_map_iff in I. destruct I as ([a col] & E & I). cbn in E. injection E as -> _. eapply NF; eauto.
  Qed.

  Definition inv (u0 s0 : nat) (s : sg_loop) (cs : list chromosome) : Prop :=
    sl_cases s = map (fun c => pat c) cs /\ Forall (chrom_ok dict) cs /\ NoDup cs /\ sl_unchecked s = rows (rows_left df (sl_cases s)) /\
    sl_uTP s = pos_in df tsel (rows_left df (sl_cases s)) [] /\ sl_uFP s = neg_in df tsel (rows_left df (sl_cases s)) [] /\
    map line_desc (sl_lines s) = sl_cases s /\ lines_ok cfg df tcol tval (sl_lines s) /\ sl_selected s = s0 + length cs.
  Notation step := (2 * gc_generations cfg + (gc_population cfg - 1)).
  Lemma lines_snoc : forall ls l, lines_ok cfg df tcol tval ls -> line_ok cfg df tcol tval (map line_desc ls) l -> lines_ok cfg df tcol tval (ls ++ [l]).
  Proof.
    intros ls l H1 H2 k x N. destruct (Nat.lt_ge_cases k (length ls)) as [L|L].
    - rewrite nth_error_app1 in N by auto. rewrite firstn_app. replace (k - length ls) with 0 by lia. cbn [firstn]. rewrite app_nil_r. auto.
    - rewrite nth_error_app2 in N by auto. destruct (k - length ls) as [|m] eqn:E; [|destruct m; discriminate]. cbn in N. injection N as <-. replace k with (length ls) by lia.
      rewrite firstn_app, Nat.sub_diag, firstn_all. cbn [firstn]. rewrite app_nil_r. auto.
  Qed.
  Lemma main_ok : forall u0 s0 fuel s cs, inv u0 s0 s cs -> sl_unselected s = u0 + length cs * step -> chromosomes dict < fuel + length cs ->
    exists s' cs', main_loop cfg env dict tval fuel tcol enc TP FP s = Ok s' /\ inv u0 s0 s' cs' /\ sl_unselected s' = u0 + S (length cs') * step.
  Proof.
    intros u0 s0. destruct Hpar as (G1 & G2 & _). destruct dict_ok as (D1 & D2 & D3). induction fuel as [|f IH]; intros s cs I U L.
    - exfalso. destruct I as (_ & F & N & _). pose proof (chrom_bound dict cs N F). lia.
    - cbn [main_loop]. destruct I as (I1 & I2 & I3 & I4 & I5 & I6 & I7 & I8 & I9).
      set (fit := fitness cfg tval enc (sl_unchecked s) (sl_uTP s) (sl_uFP s)).
      destruct (evolve_ok cfg env dict fit Hsort (dict_nodup df tcol tval Hin) D1 D2 D3 (sl_time s) G2) as (pop & t' & Ee & Lp & Fp & (top & r & Et & _) & _).
      rewrite Ee. cbn [bind fst snd]. rewrite Et. rewrite Et in Fp. inversion Fp as [|? ? [O1 _] _]; subst.
      destruct (local_search_ok (fst top) O1) as (b & conf & El & Hb & Ib & Cb & Pb & Q). rewrite El. cbn [bind]. rewrite (decode_sels dict b (dict_nodup df tcol tval Hin) Hb). cbn [bind].
      destruct (existsb (fun case => pattern_is_refinement (en_hash env) case (pat b) true) (sl_cases s)) eqn:X.
      + eexists. exists cs. split; [reflexivity|]. split; [exact (conj I1 (conj I2 (conj I3 (conj I4 (conj I5 (conj I6 (conj I7 (conj I8 I9))))))))|]. cbn [sl_unselected]. rewrite U. cbn. lia.
      + destruct (negb (Qle_bool (gc_min_confidence cfg) conf)) eqn:K.
        * eexists. exists cs. split; [reflexivity|]. split; [exact (conj I1 (conj I2 (conj I3 (conj I4 (conj I5 (conj I6 (conj I7 (conj I8 I9))))))))|]. cbn [sl_unselected]. rewrite U. cbn. lia.
        * apply Bool.negb_false_iff, Qle_bool_iff in K. destruct Q as [(Q1 & Q2 & Q3)|(Q1 & _)]; [|lra].
          assert (NI : forall d, In d cs -> ~ incl (pat d) (pat b)).
          { intros d Id A. rewrite Forall_forall in I2. apply (refinement_pat d b (I2 d Id) Hb) in A. assert (existsb (fun case => pattern_is_refinement (en_hash env) case (pat b) true) (sl_cases s) = true); [|congruence].
            apply existsb_exists. exists (pat d). split; auto. rewrite I1. apply in_map_iff. exists d; auto. }
          rewrite I4. rewrite (get_counts df tcol tval Hin tc Htc b _ Hb (rows_left_real _)). rewrite (rows_without_spec df tcol tval Hin tc b _ Hb (rows_left_real _)). rewrite rows_left_snoc.
          destruct (counts_nil df tcol tval Hin tc Htc (rows_left df (sl_cases s ++ [pat b])) (rows_left_real _)) as [Ep En].
          apply (IH _ (cs ++ [b])).
          -- unfold inv. cbn [sl_cases sl_unchecked sl_uTP sl_uFP sl_lines sl_selected]. split; [rewrite I1, map_app; reflexivity|]. split; [apply Forall_app; auto|]. split.
             { apply NoDup_snoc; auto. intros A. apply (NI b A). apply incl_refl. }
             split; [reflexivity|]. split; [exact Ep|]. split; [exact En|]. split; [rewrite map_app, I7; reflexivity|]. split; [|rewrite app_length; cbn; lia].
             apply lines_snoc; auto. rewrite I7. destruct (pat_facts df tcol tval Hin b Hb) as (_ & Rb & _). unfold line_ok, line_desc. cbn [gl_subgroup g_desc]. cbv zeta.
             split; auto. split; [|split; [rewrite <- Q2; auto|split; auto]].
             ++ unfold reports_rule. cbv zeta. cbn [gl_subgroup gl_fitness gl_tp gl_fp gl_TP gl_FP gl_utp gl_ufp gl_uTP gl_uFP]. split; auto. split; [|repeat split; auto].
                unfold fit. rewrite I4, I5, I6. apply (fitness_spec df tcol tval Hin tc Htc cfg b _ Hb (rows_left_real _)).
             ++ intros Y IY. rewrite I1 in IY. apply in_map_iff in IY. destruct IY as (d & <- & Id). auto.
          -- cbn [sl_unselected]. rewrite U, app_length. cbn. lia.
          -- rewrite app_length. cbn. lia.
  Qed.
  (** * fit *)
  Lemma encoded_is : encoded_rows df tcol = Ok enc.
  Proof. unfold encoded_rows, df_col. rewrite Htc. reflexivity. Qed.
  Lemma mask_rows : map (fun r : enc_row => py_eq (snd r) (VStr tval)) enc = map (fun v => py_eq v (VStr tval)) tc.
  Proof.
    rewrite map_map. unfold erow. cbn [snd]. pose proof (in_cat df tcol tval Hin) as (W & ND & _). pose proof Htc as I. apply MiningProofs.col_get_in in I; auto. rewrite <- (W _ _ I).
    clear. rewrite <- (map_map (fun i => nth i tc (VStr "")) (fun v => py_eq v (VStr tval))). f_equal. induction tc as [|v l IH]; [reflexivity|]. cbn [length seq map nth]. f_equal. rewrite <- seq_shift, map_map. exact IH.
  Qed.
  Lemma filter_id_map : forall {A} (f : A -> bool) l, length (filter (fun b => b) (map f l)) = length (filter f l).
  Proof. intros A f l. induction l as [|x l IH]; cbn; auto. destruct (f x); cbn; auto. Qed.
  Lemma TP_count : length (filter (fun b => b) (map (fun v => py_eq v (VStr tval)) tc)) = TP.
  Proof. rewrite <- mask_rows, filter_id_map. apply (counts_nil df tcol tval Hin tc Htc R0). apply R0_real. Qed.
  Lemma FP_count : df_n df - TP = FP.
  Proof. pose proof (pos_neg_total df tcol tval R0) as E. rewrite seq_length in E. lia. Qed.
  Lemma rows_left_nil : rows_left df [] = R0.
  Proof. unfold rows_left. cbn. clear. generalize R0. intros l. induction l; cbn; congruence. Qed.
  Lemma fit_ok : forall st, exists st' lines, sdiga_fit cfg env st df tcol tval = Ok st' /\ lines_ok cfg df tcol tval lines /\ length lines <= chromosomes dict /\
    st' = SDG (dg_unselected st + S (length lines) * step) (dg_selected st + length lines) TP FP
              (pos_in df tsel (rows_left df (map line_desc lines)) []) (neg_in df tsel (rows_left df (map line_desc lines)) [])
              (Some dict) (Some (rows (rows_left df (map line_desc lines)))) (if gc_write cfg then Some lines else None).
  Proof.
    intros st. unfold sdiga_fit. assert (AN : all_nominal df = true).
    { unfold all_nominal. apply forallb_forall. intros [a col] I. apply forallb_forall. intros v Iv. eapply col_str; eauto. }
    rewrite AN. cbn [negb]. unfold target_mask, df_col. rewrite Htc. cbn [bind].
    assert (AT : any_true (map (fun v => py_eq v (VStr tval)) tc) = true).
    { apply existsb_exists. exists true. split; auto. destruct Hin as (_ & _ & _ & _ & col & Ec & I). rewrite Htc in Ec. injection Ec as <-. apply in_map_iff. exists (VStr tval). split; auto. apply py_eq_refl_v. }
    rewrite AT. cbn [negb]. rewrite encoded_is. cbn [bind]. rewrite TP_count, FP_count.
    destruct (main_ok (dg_unselected st) (dg_selected st) (S (S (chromosomes dict))) (SGS 0 enc TP FP [] [] (dg_unselected st) (dg_selected st)) []) as (s' & cs & Em & (I1 & I2 & I3 & I4 & I5 & I6 & I7 & I8 & I9) & U).
    - unfold inv. cbn [sl_cases sl_unchecked sl_uTP sl_uFP sl_lines sl_selected]. change (@nil pattern) with (@nil (list selector)). rewrite rows_left_nil. split; auto. split; [constructor|]. split; [constructor|]. split; auto. split; auto. split; auto. split; auto. split; [intros k l N; destruct k; discriminate|]. cbn. lia.
    - cbn. lia.
    - cbn. lia.
    - rewrite Em. cbn [bind]. assert (Lc : length cs = length (sl_lines s')) by (rewrite <- (map_length line_desc), I7, I1, map_length; auto).
      eexists. exists (sl_lines s'). split; [reflexivity|]. split; auto. split; [rewrite <- Lc; apply chrom_bound; auto|]. rewrite I7, <- Lc. f_equal; auto. now f_equal.
  Qed.
  (** * A round: evolution and local search *)
  Lemma pos_in_incl : forall R X Y, incl Y X -> pos_in df tsel R X <= pos_in df tsel R Y.
  Proof. intros R X Y I. unfold pos_in. apply filter_le. intros j Hj. rewrite Bool.andb_true_iff in *. destruct Hj as [J1 J2]. split; auto. eapply matches_all_incl; [|exact J2]. exact I. Qed.
  Lemma share_mono : forall a b n, a <= b -> (share a n <= share b n)%Q.
  Proof. intros a b n L. destruct n as [|n]; [apply Qle_refl|]. apply (share_le a b (S n)); auto; lia. Qed.
  Lemma fitness_mono : forall R X Y, incl Y X -> (confidence df tsel X <= confidence df tsel Y)%Q -> (fitness_in cfg df tsel R X <= fitness_in cfg df tsel R Y)%Q.
  Proof.
    intros R X Y I C. destruct Hpar as (_ & _ & W1 & W2 & W3 & _). unfold fitness_in. unfold Qdiv. apply Qmult_le_compat_r; [|apply Qlt_le_weak, Qinv_lt_0_compat; auto].
    pose proof (share_mono _ _ (length R) (pos_in_incl R X Y I)) as Sm. apply Qplus_le_compat; [rewrite !(Qmult_comm (gc_support cfg) (share _ _))|rewrite !(Qmult_comm (gc_confidence cfg) (confidence _ _ _))]; apply Qmult_le_compat_r; auto.
  Qed.
  Lemma round_ok : forall Xs t, let L := rows_left df Xs in let fit := fitness cfg tval enc (rows L) (pos_in df tsel L []) (neg_in df tsel L []) in
    exists top r t' b conf tp fp, evolve cfg env dict fit t = Ok (top :: r, t') /\ local_search cfg tval enc TP FP (fst top) = Ok (b, conf, tp, fp) /\ chrom_ok dict (fst top) /\ chrom_ok dict b /\
      forall c, In c (fst (generate_population env dict t (gc_population cfg))) -> chrom_ok dict c /\ (fitness_in cfg df tsel L (pat c) <= fitness_in cfg df tsel L (pat (fst top)))%Q /\
        (fitness_in cfg df tsel L (pat (fst top)) <= fitness_in cfg df tsel L (pat b))%Q.
  Proof.
    intros Xs t. cbv zeta. set (L := rows_left df Xs). set (fit := fitness cfg tval enc (rows L) (pos_in df tsel L []) (neg_in df tsel L [])). destruct dict_ok as (D1 & D2 & D3). destruct Hpar as (G1 & G2 & _).
    destruct (evolve_ok cfg env dict fit Hsort (dict_nodup df tcol tval Hin) D1 D2 D3 t G2) as (pop & t' & Ee & Lp & Fp & (top & r & Et & _) & B).
    subst pop. inversion Fp as [|? ? [O1 O2] _]; subst. destruct (local_search_ok (fst top) O1) as (b & conf & El & Hb & Ib & Cb & Pb & Q).
    exists top, r, t', b, conf, (pos_in df tsel R0 (pat b)), (neg_in df tsel R0 (pat b)). split; auto. split; auto. split; auto. split; auto. intros c Ic.
    destruct (population_ok env dict (gc_population cfg) t) as [Fc _]. rewrite Forall_forall in Fc. pose proof (Fc c Ic) as Hc. split; auto. split; [|apply fitness_mono; auto].
    specialize (B c Ic). cbn [hd] in B. assert (B' : (fit c <= fit (fst top))%Q) by (rewrite <- O2; exact B). clear B. rename B' into B. unfold fit in B.
    rewrite (fitness_spec df tcol tval Hin tc Htc cfg c L Hc (rows_left_real Xs)), (fitness_spec df tcol tval Hin tc Htc cfg (fst top) L O1 (rows_left_real Xs)) in B. exact B.
  Qed.
End Main.

(** * The encoding *)
Section Encoding.
  Variable df : dataframe.
  Variables tcol tval : string.
  Hypothesis Hin : sdiga_input df tcol tval.
  Notation dict := (encoded_dict df tcol).
  Notation cols := (other_columns df tcol).
  Variable tc : list value.
  Hypothesis Htc : col_get (df_cols df) tcol = Some tc.
  (** The chromosome of a row. *)
  Notation row_chrom i := (combine (map fst dict) (fst (erow df tcol tc i))).
  Lemma row_chrom_ok : forall i, i < df_n df -> chrom_ok dict (row_chrom i) /\ sels (row_chrom i) dict = map (fun c => Sel (fst c) EQUAL (nth i (snd c) (VStr ""))) cols /\
    Forall2 (fun g (c : string * list value) => 1 <= g <= length (distinct_values (snd c))) (fst (erow df tcol tc i)) cols.
  Proof.
    intros i Li. unfold erow, encoded_dict. cbn [fst]. assert (K : incl cols (df_cols df)) by (intros [a x] I; apply cols_in in I; apply I).
    revert K. generalize cols. intros cs. induction cs as [|[k col] cs IH]; intros K; [repeat split; constructor|]. destruct IH as (IH1 & IH2 & IH3); [intros x I; apply K; right; auto|].
    assert (Ic : In (k, col) (df_cols df)) by (apply K; left; auto). pose proof (in_cat df tcol tval Hin) as (W & _ & Hs). assert (Lc : i < length col) by (rewrite (W _ _ Ic); auto).
    set (v := nth i col (VStr "")). assert (Iv : In v col) by (apply nth_In; auto). assert (Ig : In v (group_values col)) by (apply gv_in; auto; eapply col_str; eauto).
    pose proof (code_range (group_values col) v (group_str df tcol tval Hin _ _ Ic) Ig (group_len df tcol tval Hin _ _ Ic)) as CR.
    pose proof (code_spec (group_values col) v (gene_code (group_values col) v) (group_str df tcol tval Hin _ _ Ic) (gv_nodup col) Ig (group_len df tcol tval Hin _ _ Ic) (proj1 CR)) as CS.
    cbn [map combine fst snd]. fold v. split; [|split].
    - constructor; [split; cbn [fst snd]; auto; lia|exact IH1].
    - cbn [sels]. unfold gene_sels. cbn [fst snd]. replace (gene_code (group_values col) v =? 0) with false by (symmetry; apply Nat.eqb_neq; lia). rewrite (proj1 CS eq_refl). cbn [app]. f_equal. exact IH2.
    - constructor; [|exact IH3]. cbn [snd]. assert (EL : length (group_values col) = length (distinct_values col)) by (unfold group_values; apply sort_by_length). rewrite <- EL. exact CR.
  Qed.
  Lemma pat_inj : forall c c', chrom_ok dict c -> chrom_ok dict c' -> pattern_init (sels c dict) = pattern_init (sels c' dict) -> c = c'.
  Proof.
    intros c c' H H' E. destruct (pat_facts df tcol tval Hin c H) as (P & _). destruct (pat_facts df tcol tval Hin c' H') as (P' & _).
    assert (M : forall s, In s (sels c dict) <-> In s (sels c' dict)).
    { intros s. split; intros I; [apply (Permutation_in _ P) in I; rewrite E in I; apply (Permutation_in _ (Permutation_sym P')); auto|apply (Permutation_in _ P') in I; rewrite <- E in I; apply (Permutation_in _ (Permutation_sym P)); auto]. }
    assert (W : forall (a b : chromosome), chrom_ok dict a -> chrom_ok dict b -> (forall s, In s (sels a dict) -> In s (sels b dict)) -> forall i k g, nth_error a i = Some (k, g) -> g <> 0 -> nth_error b i = Some (k, g)).
    { intros a b Ha Hb Mab i k g N Z. destruct (nth_error dict i) as [[k' vs]|] eqn:Nd.
      2:{ apply nth_error_None in Nd. rewrite <- (Forall2_len _ _ _ Ha) in Nd. apply nth_error_None in Nd. congruence. }
      assert (G : gene_ok (k, g) (k', vs)).
      { clear -Ha N Nd. revert i N Nd. induction Ha as [|x y l m Hxy Ha IH]; intros [|i] N Nd; try discriminate; [cbn in *; congruence|eapply IH; eauto]. }
      destruct G as [G1 G2]. cbn [fst snd] in G1, G2. subst k'. destruct (nth_error vs (g - 1)) as [v|] eqn:Nv; [|apply nth_error_None in Nv; lia].
      assert (I : In (Sel k EQUAL v) (sels b dict)) by (apply Mab, sels_in; auto; exists i, k, g, vs, v; auto).
      apply sels_in in I; auto. destruct I as (j & k2 & g2 & vs2 & v2 & Nj & Dj & Z2 & Nv2 & Es). injection Es as <- <-.
      pose proof (dict_nodup df tcol tval Hin) as ND. rewrite NoDup_nth_error in ND. assert (j = i).
      { apply ND; [apply nth_error_Some; rewrite nth_error_map, Dj; discriminate|]. rewrite !nth_error_map, Dj, Nd. reflexivity. }
      subst j. rewrite Nd in Dj. injection Dj as <-. destruct (dict_nth df tcol i k vs Nd) as (col & _ & -> & _). pose proof (gv_nodup col) as NDv. rewrite NoDup_nth_error in NDv.
      rewrite <- Nv2 in Nv. apply NDv in Nv; [|apply nth_error_Some; rewrite Nv, Nv2; discriminate]. replace g with g2 by lia. exact Nj. }
    assert (LE : length c = length c') by (rewrite (Forall2_len _ _ _ H), (Forall2_len _ _ _ H'); auto).
    assert (EX : forall i, nth_error c i = nth_error c' i).
    { intros i. destruct (nth_error c i) as [[k g]|] eqn:N.
      - destruct g as [|g]; [|symmetry; apply (W c c' H H' (fun s => proj1 (M s)) i k (S g) N); discriminate].
        destruct (nth_error c' i) as [[k' g']|] eqn:N'; [|apply nth_error_None in N'; rewrite <- LE in N'; apply nth_error_None in N'; congruence].
        assert (k' = k). { pose proof (chrom_keys _ _ H) as A. pose proof (chrom_keys _ _ H') as B. assert (X : nth_error (map fst c) i = nth_error (map fst c') i) by congruence. rewrite !nth_error_map, N, N' in X. cbn in X. congruence. }
        subst k'. destruct g' as [|g']; auto. rewrite (W c' c H' H (fun s => proj2 (M s)) i k (S g') N') in N by discriminate. auto.
      - symmetry. apply nth_error_None. rewrite <- LE. apply nth_error_None. auto. }
    clear -EX LE. revert c' EX LE. induction c as [|x c IH]; intros [|y c'] EX LE; try discriminate; auto. pose proof (EX 0) as E0. cbn in E0. injection E0 as ->. f_equal. apply IH; auto. intros i. apply (EX (S i)).
  Qed.
End Encoding.
(** More values than codes: a value whose code is the one of absence. *)
Lemma position_nth : forall l i v, NoDup l -> (forall x, In x l -> is_str x = true) -> nth_error l i = Some v -> position v l = i.
Proof.
  intros l i v ND H N. pose proof (nth_error_In _ _ N) as I. destruct (position_in l v H (H v I) I) as [A B]. rewrite NoDup_nth_error in ND. apply ND; auto. congruence.
Qed.
