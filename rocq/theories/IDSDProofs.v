(** IDSD evaluates exactly the patterns with some row, in order: the pruning changes nothing. *)
From Verif Require Import IDSDSpec IDSDTop OrderFacts CoreOrder CorePattern CoreFrame MiningProofs SDMapProofs VLSDProofs Properties_Cred.
From Coq Require Import QArith Lia Sorted Permutation Lqa.
Open Scope string_scope.
Open Scope list_scope.
Open Scope nat_scope.

Lemma leading_rank : forall l, rank_is l (compute_rank l).
Proof.
  induction l as [|b l (H1 & H2 & H3)]; [split; [cbn; lia|split; [reflexivity|cbn; lia]]|]. destruct b; cbn [compute_rank].
  - split; [cbn [length]; lia|]. split; [cbn [firstn repeat]; f_equal; auto|]. intros H. cbn [nth]. apply H3. cbn [length] in H. lia.
  - split; [cbn; lia|]. split; reflexivity.
Qed.
(** * Patterns of nominal selectors, one selector at a time *)
Lemma add_nominal : forall X s, NoDup (X ++ [s]) -> Forall nominal (X ++ [s]) -> add_selector (pattern_init X) s = pattern_init (X ++ [s]).
Proof.
  intros X s ND F. assert (F1 : Forall nominal X) by (apply Forall_app in F; tauto). assert (Fs : nominal s) by (apply Forall_app in F; destruct F as [_ F]; inversion F; auto).
  assert (ND1 : NoDup X). { clear - ND. induction X as [|x X IH]; [constructor|]. cbn in ND. inversion ND; subst. constructor; auto. intros H; apply H1; apply in_or_app; auto. }
  destruct (pattern_nominal X ND1 F1) as [P S0]. destruct (pattern_nominal (X ++ [s]) ND F) as [P' S'].
  assert (FP : Forall nominal (pattern_init X)) by (apply (Permutation_Forall P); auto).
  assert (FP' : Forall nominal (pattern_init (X ++ [s]))) by (apply (Permutation_Forall P'); auto).
  assert (C : compat (pattern_init X) s). { intros x Hx. apply (nominal_homogeneous (s :: pattern_init X)); [constructor; auto|right; auto|left; auto]. }
  destruct (add_selector_spec (pattern_init X) s (proj1 (sorted_strictly_slt _ (nominal_homogeneous _ FP)) S0) C) as (A & B & M & _).
  assert (FA : Forall nominal (add_selector (pattern_init X) s)). { apply Forall_forall. intros x Hx. apply B in Hx. destruct Hx as [<-|Hx]; auto. rewrite Forall_forall in FP. auto. }
  apply sorted_unique; auto; [apply sorted_strictly_slt; auto using nominal_homogeneous|].
  intros x. assert (N : nominal x -> (In x (add_selector (pattern_init X) s) <-> x = s \/ In x X)).
  { intros Nx. rewrite <- (member_nominal _ x FA Nx), M. rewrite (member_nominal (s :: pattern_init X) x) by (auto; constructor; auto). cbn [In].
    split; (intros [H|H]; [left; congruence|right]); [apply (Permutation_in x (Permutation_sym P)); auto|apply (Permutation_in x P); auto]. }
  split; intros H.
  - assert (Nx : nominal x) by (rewrite Forall_forall in FA; auto). apply N in H; auto. apply (Permutation_in x P'). apply in_or_app. destruct H as [->|H]; [right; left; auto|left; auto].
  - assert (Nx : nominal x) by (rewrite Forall_forall in FP'; auto). apply N; auto. apply (Permutation_in x (Permutation_sym P')) in H. apply in_app_or in H. destruct H as [H|[H|[]]]; auto.
Qed.

Lemma forallb_ext_in : forall {A} (f g : A -> bool) l, (forall x, In x l -> f x = g x) -> forallb f l = forallb g l.
Proof. intros A f g l. induction l as [|x l IH]; intros H; cbn; [reflexivity|]. rewrite (H x), IH; auto; [intros; apply H; right; auto|left; auto]. Qed.

Section Data.
  Variable c : idsd_config.
  Variable D : dataframe.
  Variables tcol tval : string.
  Variable v : ienv.
  Notation n := (df_n D).
  Notation tsel := (Sel tcol EQUAL (VStr tval)).
  Notation SS := (idsd_selectors D tcol).
  Definition col_mask (s : selector) : list bool := map (fun i => row_matchesb D i s) (seq 0 n).
  Definition rows_mask (X : list selector) : list bool := map (fun i => matches_all D X i) (seq 0 n).
  Hypothesis Hn : 1 <= n.
  Hypothesis Hnom : Forall nominal SS.
  Hypothesis Happ : forall s, In s SS -> appearance (en_app v) s = Ok (col_mask s).
  Hypothesis Htarget : en_target v = col_mask tsel.
  Hypothesis HTP : en_TP v = TP_of D tcol tval.
  Hypothesis HFP : en_FP v = FP_of D tcol tval.
  Hypothesis Hidx : SS <> [] -> first_index (en_app v) = n.
  Hypothesis Hnum : 1 <= ic_num c.

  Lemma zcount_map : forall (f : nat -> bool) l, zcount (map f l) = Z.of_nat (length (filter f l)).
  Proof. intros f l. induction l as [|x l IH]; [reflexivity|]. cbn [map filter]. rewrite zcount_cons, IH. destruct (f x); cbn [length]; lia. Qed.
  Lemma series_map : forall (f g : nat -> bool) l, series_and (map f l) (map g l) = map (fun i => f i && g i) l.
  Proof. intros f g l. induction l as [|x l IH]; [reflexivity|]. cbn [map]. change (series_and (f x :: map f l) (g x :: map g l)) with ((f x && g x) :: series_and (map f l) (map g l)). rewrite IH. reflexivity. Qed.
  Lemma mask_count : forall X, zcount (rows_mask X) = Z.of_nat (coverage D X).
  Proof. intros X. unfold rows_mask. apply zcount_map. Qed.
  Lemma mask_snoc : forall X s, series_and (rows_mask X) (col_mask s) = rows_mask (X ++ [s]).
  Proof.
    intros X s. unfold rows_mask, col_mask. rewrite series_map. apply map_ext. intros i. unfold matches_all. rewrite forallb_app. cbn [forallb]. rewrite andb_true_r. reflexivity.
  Qed.
  Lemma mask_perm : forall X Y, (forall s, In s X <-> In s Y) -> rows_mask X = rows_mask Y.
  Proof. intros X Y H. unfold rows_mask. apply map_ext. intros i. apply matches_perm; auto. Qed.
  Lemma coverage_perm : forall X Y, (forall s, In s X <-> In s Y) -> coverage D X = coverage D Y.
  Proof. intros X Y H. assert (E := f_equal zcount (mask_perm X Y H)). rewrite !mask_count in E. lia. Qed.
  Lemma tp_count : forall X, zcount (series_and (col_mask tsel) (rows_mask X)) = tp_of D tsel X.
  Proof. intros X. unfold rows_mask, col_mask. rewrite series_map, zcount_map. reflexivity. Qed.
  Lemma fp_count : forall X, (zcount (rows_mask X) - tp_of D tsel X)%Z = fp_of D tsel X.
  Proof.
    intros X. rewrite mask_count. unfold coverage, tp_of, fp_of, pos_rows, neg_rows. generalize (seq 0 n). intros l. induction l as [|i l IH]; [reflexivity|].
    cbn [filter]. change (forallb (row_matchesb D i) X) with (matches_all D X i). destruct (row_matchesb D i tsel), (matches_all D X i); cbn [negb andb length]; lia.
  Qed.
  Lemma counts_sum : forall X, (tp_of D tsel X + fp_of D tsel X)%Z = Z.of_nat (coverage D X).
  Proof. intros X. rewrite <- fp_count, mask_count. lia. Qed.
  Lemma total_rows : (en_TP v + en_FP v)%Z = Z.of_nat n.
  Proof.
    rewrite HTP, HFP. unfold TP_of, FP_of. rewrite counts_sum. f_equal. unfold coverage. cbn [forallb]. rewrite filter_all by auto. apply seq_length.
  Qed.
  Lemma coverage_val : forall X, coverage_value (Z.of_nat (coverage D X)) (en_TP v + en_FP v) = Ok (share D X).
  Proof. intros X. rewrite total_rows. unfold coverage_value, zdiv. rewrite inject_nz by lia. reflexivity. Qed.
  Lemma share_zero : forall X, Qeq_bool (share D X) 0 = negb (1 <=? coverage D X).
  Proof.
    intros X. unfold share. destruct (coverage D X) as [|k] eqn:E.
    - cbn [Nat.leb negb]. apply Qeq_eq_bool. unfold Qdiv. change (inject_Z (Z.of_nat 0)) with 0%Q. ring.
    - cbn [Nat.leb negb]. apply not_true_is_false. intros H. apply Qeq_bool_eq in H.
      assert (P : (0 < inject_Z (Z.of_nat (S k)) / inject_Z (Z.of_nat n))%Q). { apply Qlt_shift_div_l; [rewrite <- (Zlt_Qlt 0); lia|]. rewrite Qmult_0_l, <- (Zlt_Qlt 0). lia. } lra.
  Qed.
  Lemma share_antitone : forall X Y, incl X Y -> (share D Y <= share D X)%Q.
  Proof.
    intros X Y H. unfold share. assert (P : (0 < inject_Z (Z.of_nat n))%Q) by (rewrite <- (Zlt_Qlt 0); lia).
    apply Qmult_le_compat_r; [|apply Qlt_le_weak, Qinv_lt_0_compat; auto]. rewrite <- Zle_Qle. apply inj_le. apply (coverage_incl D tcol tval); auto.
  Qed.

  (** * The measures of a pattern *)
  Lemma statistic_is : forall X, SS <> [] -> incl X SS -> statistic_odds (appearance (en_app v)) (en_target v) (first_index (en_app v)) X = odds_of D tcol tval X.
  Proof.
    intros X HS HX. rewrite Hidx, Htarget by auto. unfold statistic_odds.
    destruct (C50_appearance (appearance (en_app v)) col_mask n X) as (r & E & L & R). { intros s Hs. split; [apply Happ; auto|]. unfold col_mask. rewrite map_length, seq_length. reflexivity. }
    rewrite E. cbn [bind]. assert (Er : r = rows_mask X).
    { apply (nth_ext _ _ false false); [unfold rows_mask; rewrite map_length, seq_length; auto|]. intros i Hi. rewrite L in Hi. rewrite (R i Hi). unfold rows_mask.
      rewrite (nth_indep _ false (matches_all D X 0)) by (rewrite map_length, seq_length; auto). rewrite map_nth, seq_nth by auto. cbn [plus]. unfold matches_all.
      apply forallb_ext_in. intros s Hs. unfold col_mask. rewrite (nth_indep _ false (row_matchesb D 0 s)) by (rewrite map_length, seq_length; auto). rewrite (map_nth (fun i => row_matchesb D i s)), seq_nth by auto. reflexivity. }
    subst r. unfold odds_ratio. cbn [tp_tp tp_fp tp_TP tp_FP tp_appearance tp_target]. cbn [andb]. unfold odds_of, quality.
    assert (Q : forall a b c d a' b' c' d', a = a' -> b = b' -> c = c' -> d = d' -> odds_ratio_table a b c d = odds_ratio_table a' b' c' d') by (intros; subst; auto).
    apply Q.
    - unfold rows_mask, col_mask. rewrite series_map, zcount_map. unfold tp_of, pos_rows. f_equal. f_equal. apply filter_ext. intros i. apply andb_comm.
    - unfold rows_mask, col_mask. rewrite map_map, series_map, zcount_map. unfold fp_of, neg_rows. f_equal. f_equal. apply filter_ext. intros i. apply andb_comm.
    - unfold col_mask. rewrite zcount_map. unfold TP_of, tp_of, pos_rows. f_equal. f_equal. apply filter_ext. intros i. cbn. rewrite andb_true_r. reflexivity.
    - unfold col_mask. rewrite map_map, zcount_map. unfold FP_of, fp_of, neg_rows. f_equal. f_equal. apply filter_ext. intros i. cbn. rewrite andb_true_r. reflexivity.
  Qed.
  Lemma contribution_ext : forall odds odds' p, (forall q, incl q p -> odds q = odds' q) -> selector_contribution odds None p = selector_contribution odds' None p.
  Proof.
    intros odds odds' p H. unfold selector_contribution. destruct (length p) as [|[|k]]; auto. rewrite (H p) by (intros x Hx; exact Hx). destruct (odds' p) as [o|]; [|reflexivity]. cbn [bind].
    assert (G : forall l mn mx, contribution_loop odds p o None l mn mx = contribution_loop odds' p o None l mn mx).
    { induction l as [|s l IH]; intros mn mx; cbn [contribution_loop]; [reflexivity|]. rewrite H; [destruct (odds' _); [cbn [bind]; apply IH|reflexivity]|].
      unfold pattern_copy, remove_selector. intros x Hx. destruct (nth_error p _); auto. destruct (sel_eq _ _); auto. unfold list_pop in Hx. apply in_app_or in Hx.
      destruct Hx as [Hx|Hx]; [rewrite <- (firstn_skipn (bisect_left sel_lt p s) p); apply in_or_app; left; auto|rewrite <- (firstn_skipn (S (bisect_left sel_lt p s)) p); apply in_or_app; right; auto]. }
    apply G.
  Qed.
  Lemma odds_total : forall X, exists o, odds_of D tcol tval X = Ok o /\ is_nan o = false.
  Proof.
    intros X. unfold odds_of, quality. destruct (C49_nonnegative (tp_of D tsel X) (fp_of D tsel X) (TP_of D tcol tval) (FP_of D tcol tval)) as (r & E & N).
    - unfold consistent_table, TP_of, FP_of, tp_of, fp_of, pos_rows, neg_rows. assert (G : forall f g : nat -> bool, (forall i, f i = true -> g i = true) -> length (filter f (seq 0 n)) <= length (filter g (seq 0 n))).
      { intros f g H. generalize (seq 0 n). intros l. induction l as [|i l IH]; cbn [filter]; [lia|]. specialize (H i). destruct (f i), (g i); cbn [length]; try lia; discriminate H; auto. }
      split; (split; [lia|apply inj_le, G; intros i Hi; apply andb_true_iff in Hi; cbn [matches_all forallb]; rewrite andb_true_r; tauto]).
    - exists r. split; auto. destruct r; auto; discriminate.
  Qed.
  Lemma contribution_total : forall odds p, (forall q, exists o, odds q = Ok o) -> exists r, selector_contribution odds None p = Ok r.
  Proof.
    intros odds p H. unfold selector_contribution. destruct (length p) as [|[|k]]; eauto. destruct (H p) as (o & ->). cbn [bind]. generalize XPosInf XNegInf.
    intros a b. revert a b. generalize p at 2. induction p0 as [|s l IH]; intros a b; cbn [contribution_loop]; eauto. destruct (H (remove_selector (pattern_copy p) s)) as (w & ->). cbn [bind]. apply IH.
  Qed.
  Lemma xle_q : forall a b, xle (XFin a) (XFin b) = Qle_bool a b.
  Proof. intros a b. apply bool_iff. rewrite xle_fin, Qle_bool_iff. reflexivity. Qed.
  Lemma entry_total : forall X, incl X SS -> exists e, idsd_entry c v X (rows_mask X) = Ok e /\ entry_of c D tcol tval X e /\ real_or e /\ ie_pattern e = X.
  Proof.
    intros X HX. destruct (odds_total X) as (o & Eo & No). destruct (contribution_total (odds_of D tcol tval) X) as (r & Er). { intros q. destruct (odds_total q) as (w & Ew & _). eauto. }
    unfold idsd_entry, idsd_cred. rewrite Htarget, tp_count, fp_count, counts_sum, coverage_val. cbn [bind]. rewrite HTP, HFP.
    change (odds_ratio_table (tp_of D tsel X) (fp_of D tsel X) (TP_of D tcol tval) (FP_of D tcol tval)) with (odds_of D tcol tval X). rewrite Eo.
    change (ic_pvalue c (tp_of D tsel X) (fp_of D tsel X) (TP_of D tcol tval) (FP_of D tcol tval)) with (pvalue_of c D tcol tval X).
    rewrite <- Htarget. assert (CE : selector_contribution (statistic_odds (appearance (en_app v)) (en_target v) (first_index (en_app v))) None X = Ok r).
    { destruct (list_eq_dec selector_eq_dec SS []) as [ES|ES]; [|rewrite <- Er; apply contribution_ext; intros q Hq; apply statistic_is; [auto|intros x Hx; auto]].
      assert (X0 : X = []) by (destruct X as [|s X]; auto; exfalso; assert (I : In s SS) by (apply HX; left; auto); rewrite ES in I; destruct I). subst X. exact Er. }
    rewrite CE. rewrite xle_q. cbn [bind].
    assert (T : exists e, Ok (IEntry X (compute_rank (criteria c D tcol tval X o r))
              (if negb (Qle_bool (ic_cov c) (share D X)) then Cred (XFin (share D X)) XNegInf XPosInf XNegInf XPosInf
               else if negb (xle (XFin (ic_or c)) o) then Cred (XFin (share D X)) o XPosInf XNegInf XPosInf
               else if negb (xle (pvalue_of c D tcol tval X) (XFin (ic_p c))) then Cred (XFin (share D X)) o (pvalue_of c D tcol tval X) XNegInf XPosInf
               else Cred (XFin (share D X)) o (pvalue_of c D tcol tval X) (fst r) (snd r))) = Ok e /\ entry_of c D tcol tval X e /\ real_or e /\ ie_pattern e = X).
    { eexists. split; [reflexivity|]. split; [|split; [|reflexivity]].
      - exists o, r. split; auto. split; auto. split; [reflexivity|]. split; [apply leading_rank|]. unfold criteria. cbn [ie_cred ie_rank].
        destruct (Qle_bool (ic_cov c) (share D X)); cbn [negb compute_rank]; [|repeat split; auto; lia].
        destruct (xle (XFin (ic_or c)) o); cbn [negb compute_rank]; [|repeat split; auto; lia].
        destruct (xle (pvalue_of c D tcol tval X) (XFin (ic_p c))); cbn [negb compute_rank]; [|repeat split; auto; lia].
        repeat split; auto. cbn [Nat.leb]. destruct r; reflexivity.
      - unfold real_or. cbn [ie_cred]. destruct (Qle_bool _ _); cbn [negb]; [|reflexivity]. destruct (xle (XFin _) o); cbn [negb]; [|exact No]. destruct (xle _ _); cbn [negb]; exact No. }
    destruct T as (e & T1 & T2). exists e. split; [|exact T2]. rewrite <- T1. clear T1 T2 e.
    unfold idsd_rank, criteria. destruct (Qle_bool (ic_cov c) (share D X)) eqn:B1; cbn [negb bind]; [|cbn [cr_cov cr_or cr_p cr_abs cr_ratio]; rewrite xle_q, B1; reflexivity].
    destruct (xle (XFin (ic_or c)) o) eqn:B2; cbn [negb bind]; [|cbn [cr_cov cr_or cr_p cr_abs cr_ratio]; rewrite xle_q, B1, B2; reflexivity].
    destruct (xle (pvalue_of c D tcol tval X) (XFin (ic_p c))) eqn:B3; cbn [negb bind]; [|cbn [cr_cov cr_or cr_p cr_abs cr_ratio]; rewrite xle_q, B1, B2, B3; reflexivity].
    cbn [cr_cov cr_or cr_p cr_abs cr_ratio]. rewrite xle_q, B1, B2, B3. reflexivity.
  Qed.
  Lemma low_coverage_rank0 : forall X e, idsd_entry c v X (rows_mask X) = Ok e -> incl X SS -> Qle_bool (ic_cov c) (share D X) = false -> ie_rank e = 0.
  Proof.
    intros X e E HX B. unfold idsd_entry, idsd_cred in E. rewrite Htarget, tp_count, fp_count, counts_sum, coverage_val in E. cbn [bind] in E. rewrite xle_q, B in E. cbn [negb bind] in E. injection E as <-.
    cbn [ie_rank]. unfold idsd_rank. cbn [cr_cov]. rewrite xle_q, B. reflexivity.
  Qed.
  Definition entry_fun (X : pattern) : ientry := match idsd_entry c v X (rows_mask X) with Ok e => e | Err _ => IEntry [] 0 (Cred XNegInf XNegInf XPosInf XNegInf XPosInf) end.

  (** * The search *)
  Definition offered (X : list selector) (k : nat) (sels : list selector) : list pattern :=
    filter (fun Y => 1 <=? coverage D Y) (map (fun Z => pattern_init (X ++ Z)) (combinations k sels)).
  Lemma combos_incl : forall k (l Z : list selector), In Z (combinations k l) -> incl Z l /\ length Z = k /\ (NoDup l -> NoDup Z).
  Proof.
    intros k l. revert k. induction l as [|x l IH]; intros [|k] Z H; cbn in H.
    - destruct H as [<-|[]]. split; [intros y []|]. split; [reflexivity|]. intros _. constructor.
    - destruct H.
    - destruct H as [<-|[]]. split; [intros y []|]. split; [reflexivity|]. intros _. constructor.
    - apply in_app_or in H. destruct H as [H|H].
      + apply in_map_iff in H. destruct H as (W & <- & HW). destruct (IH k W HW) as (A & B & C). repeat split; [intros y [<-|Hy]; [left; auto|right; auto]|cbn; lia|].
        intros N. inversion N; subst. constructor; auto.
      + destruct (IH (S k) Z H) as (A & B & C). repeat split; [intros y Hy; right; auto|auto|]. intros N. inversion N; auto.
  Qed.
  Lemma pattern_members : forall X, NoDup X -> incl X SS -> (forall s, In s (pattern_init X) <-> In s X) /\ incl (pattern_init X) SS /\ length (pattern_init X) = length X.
  Proof.
    intros X ND I. assert (F : Forall nominal X) by (apply Forall_forall; intros s Hs; rewrite Forall_forall in Hnom; auto). destruct (pattern_nominal X ND F) as [P _].
    split; [intros s; split; [apply (Permutation_in s (Permutation_sym P))|apply (Permutation_in s P)]|]. split; [intros s Hs; apply I, (Permutation_in s (Permutation_sym P)); auto|symmetry; apply Permutation_length; auto].
  Qed.
  Lemma app_nodup_incl : forall X s sels Z, NoDup (X ++ s :: sels) -> incl (X ++ s :: sels) SS -> incl Z sels -> NoDup Z -> NoDup ((X ++ [s]) ++ Z) /\ incl ((X ++ [s]) ++ Z) SS.
  Proof.
    intros X s sels Z ND I IZ NZ. split.
    - rewrite <- app_assoc. cbn [app]. clear I. induction X as [|x X IH]; cbn [app] in *.
      + inversion ND; subst. constructor; auto.
      + inversion ND as [|? ? N1 N2]; subst. constructor; auto. intros H. apply N1. apply in_app_or in H. apply in_or_app. destruct H as [H|[H|H]]; [left; auto|right; left; auto|right; right; auto].
    - intros y Hy. apply I. rewrite <- app_assoc in Hy. cbn in Hy. apply in_app_or in Hy. apply in_or_app. destruct Hy as [Hy|[Hy|Hy]]; [left; auto|right; left; auto|right; right; auto].
  Qed.
  Lemma offered_in : forall X k sels Y, NoDup (X ++ sels) -> incl (X ++ sels) SS -> In Y (offered X k sels) -> incl Y SS /\ incl X Y /\ 1 <= coverage D Y.
  Proof.
    intros X k sels Y ND I H. unfold offered in H. apply filter_In in H. destruct H as [H C]. apply in_map_iff in H. destruct H as (Z & <- & HZ). apply combos_incl in HZ. destruct HZ as (A & B & N).
    assert (NDs : NoDup sels). { clear - ND. induction X as [|x X IH]; cbn in ND; auto. inversion ND; auto. }
    assert (NZ : NoDup (X ++ Z)). { specialize (N NDs). clear - ND A N. induction X as [|x X IH]; cbn [app] in *; auto. inversion ND; subst. constructor; auto. intros H; apply H1. apply in_app_or in H. apply in_or_app. destruct H; auto. }
    assert (IZ : incl (X ++ Z) SS). { intros x Hx. apply I. apply in_app_or in Hx. apply in_or_app. destruct Hx; auto. }
    destruct (pattern_members (X ++ Z) NZ IZ) as (M & J & _). split; auto. split; [intros x Hx; apply M; apply in_or_app; auto|apply Nat.leb_le; auto].
  Qed.
  Lemma offered_cons : forall X k s sels, offered X (S k) (s :: sels) = offered (X ++ [s]) k sels ++ offered X (S k) sels.
  Proof.
    intros X k s sels. unfold offered. cbn [combinations]. rewrite map_app, filter_app, map_map. f_equal. f_equal. apply map_ext. intros Z. rewrite <- app_assoc. reflexivity.
  Qed.
  Lemma combos_0 : forall (l : list selector), combinations 0 l = [[]].
  Proof. intros [|x l]; reflexivity. Qed.
  Lemma fun_entry : forall X, incl X SS -> idsd_entry c v X (rows_mask X) = Ok (entry_fun X) /\ entry_of c D tcol tval X (entry_fun X) /\ real_or (entry_fun X) /\ ie_pattern (entry_fun X) = X.
  Proof. intros X I. destruct (entry_total X I) as (e & E & A & B & P). unfold entry_fun. rewrite E. auto. Qed.
  Definition slack (st : istate) : Z := (is_visited st - Z.of_nat (length (is_top st)))%Z.
  Definition step_ok (st : istate) (Ys : list pattern) (combos : nat) (st' : istate) : Prop :=
    is_top st' = fold_left (top_k_update c) (map entry_fun Ys) (is_top st) /\ is_app st' = is_app st /\ (slack st <= slack st')%Z /\
    (is_visited st <= is_visited st' <= is_visited st + Z.of_nat combos)%Z.
  Lemma step_trans : forall a A m b B k d, step_ok a A m b -> step_ok b B k d -> step_ok a (A ++ B) (m + k) d.
  Proof.
    intros a A m b B k d (H1 & H2 & H3 & H4) (K1 & K2 & K3 & K4). split; [rewrite map_app, fold_left_app, <- H1; auto|]. split; [congruence|]. split; lia.
  Qed.
  Lemma top_step : forall Ys top, (forall Y, In Y Ys -> incl Y SS) -> top_ok c top -> top_ok c (fold_left (top_k_update c) (map entry_fun Ys) top).
  Proof.
    intros Ys top H T. apply offers_spec; auto. apply Forall_forall. intros e He. apply in_map_iff in He. destruct He as (Y & <- & HY). apply fun_entry; auto.
  Qed.
  Lemma NoDup_app_mid : forall (X : list selector) s sels, NoDup (X ++ s :: sels) -> NoDup (X ++ [s]) /\ NoDup ((X ++ [s]) ++ sels) /\ NoDup (X ++ sels) /\ NoDup sels.
  Proof.
    intros X s sels ND. split; [|split; [|split]].
    - induction X as [|x X IH]; cbn [app] in *; [repeat constructor; auto|]. inversion ND as [|? ? N1 N2]; subst. constructor; auto. intros H. apply N1. apply in_app_or in H. apply in_or_app. destruct H as [H|[H|[]]]; [left; auto|right; left; auto].
    - rewrite <- app_assoc. auto.
    - apply NoDup_remove_1 in ND. auto.
    - apply NoDup_remove_1 in ND. clear - ND. induction X as [|x X IH]; cbn in ND; auto. inversion ND; auto.
  Qed.
  (** One node and the sub-tree under it. *)
  Lemma node_exact : forall X k rest, NoDup (X ++ rest) -> incl (X ++ rest) SS ->
    (forall k' st, k = S k' -> top_ok c (is_top st) -> exists st', grow_children c v (length X + S k') rest (pattern_init X) (rows_mask X) st = Ok st' /\ step_ok st (offered X (S k') rest) (length (combinations (S k') rest)) st') ->
    forall st, top_ok c (is_top st) -> exists st',
      (do r <- visit_node c v (length X + k) (pattern_init X) (rows_mask X) st; if snd r then grow_children c v (length X + k) rest (pattern_init X) (rows_mask X) (fst r) else Ok (fst r)) = Ok st' /\
      step_ok st (offered X k rest) (length (combinations k rest)) st'.
  Proof.
    intros X k rest ND I IH st T.
    assert (NX : NoDup X). { clear - ND. induction X as [|x X IHX]; [constructor|]. cbn in ND. inversion ND; subst. constructor; auto. intros H; apply H1; apply in_or_app; auto. }
    assert (IX : incl X SS) by (intros x Hx; apply I; apply in_or_app; auto).
    destruct (pattern_members X NX IX) as (M & J & Lp).
    assert (LC : 0 <= length (combinations k rest)) by lia.
    assert (L0 : k = 0 -> length (combinations k rest) = 1) by (intros ->; rewrite combos_0; reflexivity).
    unfold visit_node. rewrite Lp, mask_count, coverage_val. cbn [bind is_top is_visited is_nonunique is_pruned is_app]. rewrite share_zero.
    assert (VK : (length X =? length X + k) = (k =? 0)). { destruct k; [rewrite Nat.add_0_r, !Nat.eqb_refl; auto|]. cbn [Nat.eqb]. apply Nat.eqb_neq. lia. }
    rewrite VK. destruct (1 <=? coverage D X) eqn:CX; cbn [negb].
    - set (cond := match rev (is_top st) with [] => false | _ => _ end). destruct cond eqn:CO.
      + (* pruned by the threshold *)
        eexists. split; [reflexivity|]. cbn [snd fst]. subst cond. destruct (rev (is_top st)) as [|last q] eqn:R; [discriminate|]. apply andb_true_iff in CO. destruct CO as [CO C3]. apply andb_true_iff in CO. destruct CO as [C1 C2].
        apply Nat.eqb_eq in C1. apply Nat.ltb_lt in C2. apply negb_true_iff in C3. split; [|split; [reflexivity|]].
        * cbn [is_top]. symmetry. apply (fold_rank0 c _ _ last q); auto. intros e He. apply in_map_iff in He. destruct He as (Y & <- & HY). apply (offered_in X k rest Y ND I) in HY. destruct HY as (HY1 & HY2 & HY3).
          destruct (fun_entry Y HY1) as (E & _). apply (low_coverage_rank0 Y _ E HY1). apply not_true_is_false. intros Q. apply Qle_bool_iff in Q. apply not_true_iff_false in C3. apply C3. apply Qle_bool_iff.
          apply (Qle_trans _ (share D Y)); auto. apply share_antitone; auto.
        * unfold slack. cbn [is_visited is_top]. destruct k; cbn [Nat.eqb]; [rewrite L0 by auto|]; lia.
      + destruct k as [|k].
        * (* a leaf *)
          cbn [Nat.eqb]. assert (E : idsd_entry c v (pattern_init X) (rows_mask X) = Ok (entry_fun (pattern_init X))). { rewrite (mask_perm X (pattern_init X)) by (intros s; symmetry; apply M). apply fun_entry; auto. }
          rewrite E. cbn [bind snd fst]. eexists. split; [reflexivity|].
          assert (OF : offered X 0 rest = [pattern_init X]). { unfold offered. rewrite combos_0. cbn [map filter]. rewrite app_nil_r. rewrite (coverage_perm (pattern_init X) X) by auto. rewrite CX. reflexivity. }
          rewrite OF, L0 by auto. split; [reflexivity|]. split; [reflexivity|]. unfold slack. cbn [is_visited is_top].
          destruct (update_spec c (is_top st) (entry_fun (pattern_init X)) Hnum T) as (_ & _ & _ & U). { apply fun_entry; auto. } lia.
        * cbn [Nat.eqb bind snd fst]. destruct (IH k (IState (is_top st) (is_visited st) (is_nonunique st + 1) (is_pruned st) (is_app st)) eq_refl T) as (st' & E & SO). exists st'. split; [exact E|]. exact SO.
    - (* no row *)
      cbn [bind snd fst]. eexists. split; [reflexivity|].
      assert (OF : offered X k rest = []).
      { destruct (offered X k rest) as [|Y l] eqn:O; auto. exfalso. assert (HY : In Y (offered X k rest)) by (rewrite O; left; auto). apply (offered_in X k rest Y ND I) in HY. destruct HY as (_ & HY & C).
        assert (X1 := coverage_incl D tcol tval X Y HY). apply Nat.leb_gt in CX. lia. }
      rewrite OF. split; [reflexivity|]. split; [reflexivity|]. unfold slack. cbn [is_visited is_top]. destruct k; cbn [Nat.eqb]; [rewrite L0 by auto|]; lia.
  Qed.
  Lemma children_exact : forall sels X k, NoDup (X ++ sels) -> incl (X ++ sels) SS ->
    forall st, top_ok c (is_top st) -> exists st', grow_children c v (length X + S k) sels (pattern_init X) (rows_mask X) st = Ok st' /\ step_ok st (offered X (S k) sels) (length (combinations (S k) sels)) st'.
  Proof.
    induction sels as [|s rest IH]; intros X k ND I st T.
    - exists st. split; [reflexivity|]. split; [reflexivity|]. split; [reflexivity|]. unfold slack. cbn. lia.
    - cbn [grow_children]. destruct (NoDup_app_mid X s rest ND) as (N1 & N2 & N3 & N4).
      assert (I2 : incl ((X ++ [s]) ++ rest) SS) by (rewrite <- app_assoc; exact I).
      assert (I3 : incl (X ++ rest) SS). { intros x Hx. apply I. apply in_app_or in Hx. apply in_or_app. destruct Hx; [left; auto|right; right; auto]. }
      rewrite (Happ s) by (apply I, in_or_app; right; left; auto). cbn [bind]. unfold pattern_copy. rewrite add_nominal; auto; [|apply Forall_forall; intros x Hx; rewrite Forall_forall in Hnom; apply Hnom, I; apply in_app_or in Hx; apply in_or_app; destruct Hx as [Hx|[Hx|[]]]; [left; auto|right; left; auto]].
      rewrite mask_snoc. replace (length X + S k) with (length (X ++ [s]) + k) by (rewrite app_length; cbn; lia).
      destruct (node_exact (X ++ [s]) k rest N2 I2 ltac:(intros k' st0 Ek T0; subst k; apply IH; assumption) st T) as (st1 & E1 & S1).
      match goal with |- context [bind ?a ?b] => destruct a as [r|] eqn:Ea end; [|discriminate E1]. cbn [bind] in *. rewrite E1. cbn [bind].
      assert (T1 : top_ok c (is_top st1)). { destruct S1 as (-> & _). apply top_step; auto. intros Y HY. apply (offered_in (X ++ [s]) k rest Y N2 I2) in HY. tauto. }
      replace (length (X ++ [s]) + k) with (length X + S k) by (rewrite app_length; cbn; lia).
      destruct (IH X k N3 I3 st1 T1) as (st2 & E2 & S2). exists st2. split; [exact E2|]. rewrite offered_cons.
      replace (length (combinations (S k) (s :: rest))) with (length (combinations k rest) + length (combinations (S k) rest)) by (cbn [combinations]; rewrite app_length, map_length; auto).
      apply (step_trans st _ _ st1); auto.
  Qed.
  Lemma tree_exact : forall k, NoDup SS -> forall st, top_ok c (is_top st) ->
    exists st', grow_tree c v k SS (pattern_init []) (repeat true n) st = Ok st' /\ step_ok st (offered [] k SS) (length (combinations k SS)) st'.
  Proof.
    intros k ND st T. assert (E : repeat true n = rows_mask []). { assert (G : forall m a, repeat true m = map (fun i => matches_all D [] i) (seq a m)) by (induction m as [|m IHm]; intros a; cbn; [reflexivity|f_equal; apply IHm]). apply G. }
    rewrite E. unfold grow_tree. apply (node_exact [] k SS); auto. - intros x Hx; exact Hx. - intros k' st0 -> T0. apply (children_exact SS [] k'); auto. intros x Hx; exact Hx.
  Qed.
End Data.
