(** Theorems C45, C46, C60: QFinder. *)
From Verif Require Import SDMapProofs SDMapStarProofs CorePattern CoreOrder CoreText OrderFacts MiningProofs Properties_Core QFinderSpec IDSDTop IDSDProofs IDSDFit Properties_IDSD Properties_Reduce Properties_Lists QFinderTop QFinderFit.
From Verif Require Import Properties_Cred.
From Coq Require Import QArith Lia Permutation Sorted Lqa.
Open Scope string_scope.
Open Scope list_scope.
Open Scope nat_scope.

(** A successful fit: nominal dataset with the target column, num_subgroups >= 1, and texts of selectors that can be read back. *)
Definition qfinder_input (c : qconfig) (D : dataframe) (tcol : string) : Prop :=
  categorical D /\ has_column D tcol /\ readable D tcol /\ (1 <= q_num c)%Z.
(** The rows of the target, and the rows of a pattern. *)
Definition target_rows (D : dataframe) (tcol tval : string) : list bool := map (fun i => row_matchesb D i (Sel tcol EQUAL (VStr tval))) (seq 0 (df_n D)).
Definition pattern_rows (D : dataframe) (X : list selector) : list bool := map (fun i => forallb (row_matchesb D i) X) (seq 0 (df_n D)).
(** The candidates with their values, as [fit] leaves them. *)
Definition entries_of (st : qstate) (es : list qentry) : Prop :=
  map fst es = qs_candidates st /\ forall e, In e es -> assoc (qs_cred st) (pattern_str (fst e)) = Ok (snd e).

Lemma target_mask_is : forall D tcol tval, categorical D -> has_column D tcol -> target_mask D tcol (VStr tval) = Ok (col_mask D (Sel tcol EQUAL (VStr tval))).
Proof.
  intros D tcol tval HC Hcol. destruct (mask_spec D tcol tval) as (m & E & L & R); auto.
  rewrite E. f_equal. apply (nth_ext _ _ false false); [unfold col_mask; rewrite map_length, seq_length; auto|]. intros i Hi. rewrite L in Hi. rewrite (R i Hi). unfold col_mask.
  rewrite (nth_indep _ false (row_matchesb D 0 (Sel tcol EQUAL (VStr tval)))) by (rewrite map_length, seq_length; auto). rewrite (map_nth (fun i => row_matchesb D i (Sel tcol EQUAL (VStr tval)))), seq_nth by auto. reflexivity.
Qed.
Lemma covered_ok : forall c D tcol X, categorical D -> In X (covered D (q_candidates c D tcol)) -> description D tcol X /\ 1 <= coverage D X.
Proof. intros c D tcol X HC H. apply filter_In in H. destruct H as [H C]. apply Nat.leb_le in C. split; auto. apply (candidate_description c D tcol HC X H). Qed.
Lemma covered_closed : forall c D tcol X s, categorical D -> In X (covered D (q_candidates c D tcol)) -> 2 <= length X -> In s X -> In (filter (fun t => negb (sel_eq t s)) X) (covered D (q_candidates c D tcol)).
Proof.
  intros c D tcol X s HC H L Hs. pose proof (covered_ok c D tcol X HC H) as [Ds Cv]. apply filter_In in H. destruct H as [H C]. apply Nat.leb_le in C.
  destruct (proj1 (qcandidate_in c D tcol HC X) (conj H C)) as (_ & _ & Sz & K). destruct (remove_description D tcol X s Ds Hs) as [_ Ds']. specialize (Ds' L).
  assert (C' : 1 <= coverage D (filter (fun t => negb (sel_eq t s)) X)) by (eapply Nat.le_trans; [exact C|]; apply coverage_antitone; intros t Ht; apply filter_In in Ht; tauto).
  apply filter_In. split; [|apply Nat.leb_le; auto]. apply (qcandidate_in c D tcol HC). split; auto. split; auto. split; [|intros t Ht; apply filter_In in Ht; apply K; tauto].
  assert (LL : length (filter (fun t => negb (sel_eq t s)) X) <= length X). { clear. induction X as [|t X IH]; cbn; auto. destruct (negb _); cbn; lia. }
  destruct Sz as [Sz|[Sz|Sz]]; [left; auto|lia|right; right; lia].
Qed.
Lemma group_total : forall c l top, (1 <= q_num c)%Z -> exists top', q_group c top l = Ok top'.
Proof. intros c l top Hn. revert top. induction l as [|x l IH]; intros top; cbn [q_group]; eauto. destruct (offer_total c Hn top x) as (r & ->). cbn [bind]. destruct (snd r); eauto. Qed.
Lemma select_total : forall c l, (1 <= q_num c)%Z -> exists top, q_select c l = Ok top.
Proof.
  intros c l Hn. unfold q_select. generalize (q_lengths l) as ks, (@nil qentry) as top. induction ks as [|k ks IH]; intros top; cbn [fold_res]; eauto.
  destruct (group_total c (filter (fun e => length (fst e) =? k) l) top Hn) as (t & ->). cbn [bind]. auto.
Qed.
Lemma fit_exact : forall c D tcol tval, qfinder_input c D tcol ->
  let cs := covered D (q_candidates c D tcol) in let es := map (fun X => (X, measures_of c D tcol tval (length cs) X)) cs in
  exists top, q_select c (q_ranked c es) = Ok top /\
    qfinder_fit c D tcol tval = Ok (QState cs (map (fun X => (pattern_str X, measures_of c D tcol tval (length cs) X)) cs) (map fst top)).
Proof.
  intros c D tcol tval (HC & Hcol & HR & Hn) cs es. unfold qfinder_fit. rewrite categorical_nominal by auto. cbn [negb]. rewrite target_mask_is by auto. cbn [bind].
  assert (OKs : forall X, In X cs -> description D tcol X /\ 1 <= coverage D X) by (intros X HX; apply (covered_ok c); auto).
  assert (ND : NoDup cs) by (apply NoDup_filter, q_candidates_nodup; auto). assert (NS := str_nodup D tcol HC HR cs OKs ND).
  rewrite (generate_ok D tcol HC); [|intros X HX; apply (candidate_description c D tcol HC X HX)|exact NS]. cbn [bind]. fold cs.
  assert (E1 : non_empty_patterns (bits D cs) = Ok cs).
  { unfold non_empty_patterns, bits. assert (G : forall l, incl l cs -> map_res (fun ka : string * list bool => pattern_parse (fst ka)) (map (fun X => (pattern_str X, rows_mask D X)) l) = Ok l).
    { induction l as [|X l IH]; intros I; [reflexivity|]. cbn [map map_res fst]. destruct (OKs X) as [A B]; [apply I; left; auto|]. rewrite (parse_ok D tcol HC HR) by auto. cbn [bind]. rewrite IH by (intros Y HY; apply I; right; auto). reflexivity. }
    apply G. intros X HX; exact HX. }
  rewrite E1. cbn [bind]. rewrite (measures_ok c D tcol tval HC HR cs ND OKs); [|intros X s; apply covered_closed; auto]. cbn [bind].
  assert (E2 : with_cred (map (fun X => (pattern_str X, measures_of c D tcol tval (length cs) X)) cs) cs = Ok es).
  { unfold with_cred. apply map_res_ok. intros X HX. rewrite (assoc_in _ _ (measures_of c D tcol tval (length cs) X)); [reflexivity|rewrite map_map; exact NS|]. apply (in_map (fun X => (pattern_str X, measures_of c D tcol tval (length cs) X))); auto. }
  destruct (select_total c (q_ranked c es) Hn) as (top & E). exists top. split; auto.
  match goal with |- context [with_cred ?d ?p] => replace (with_cred d p) with (@Ok (list qentry) es) by (symmetry; exact E2) end. cbn [bind].
  match goal with |- context [q_select ?d ?p] => replace (q_select d p) with (@Ok (list qentry) top) by (symmetry; exact E) end. reflexivity.
Qed.

(** * C45: the candidates *)
(** Fit succeeds; its candidates are exactly the conjunctions of kept values with some row and of an allowed size, each one once. *)
Theorem C45_candidates : forall c D tcol tval, qfinder_input c D tcol ->
  exists st kept, qfinder_fit c D tcol tval = Ok st /\ NoDup (qs_candidates st) /\
    (forall a col, In (a, col) (df_cols D) -> a <> tcol -> most_frequent (q_cats c) col (kept a)) /\
    (forall X, In X (qs_candidates st) <-> is_qcandidate c D tcol kept X).
Proof.
  intros c D tcol tval HI. destruct (fit_exact c D tcol tval HI) as (top & _ & E). destruct HI as (HC & _). eexists; exists (kept_of_column c D tcol). split; [exact E|]. cbn [qs_candidates].
  split; [apply NoDup_filter, q_candidates_nodup; auto|]. split.
  - intros a col I N. pose proof (cols_nodup D tcol "" HC (fun _ _ => true)) as NC. assert (I' : In (a, col) (other_columns D tcol)) by (apply cols_in; auto). unfold kept_of_column. rewrite (proj2 (col_get_in _ a col NC) I').
    apply kept_spec. apply (col_texts D tcol HC a); auto.
  - intros X. rewrite <- (qcandidate_in c D tcol HC). unfold covered. rewrite filter_In, Nat.leb_le. reflexivity.
Qed.
(** No candidate uses a column twice. *)
Theorem C45_columns : forall c D tcol tval st, qfinder_input c D tcol -> qfinder_fit c D tcol tval = Ok st ->
  forall X, In X (qs_candidates st) -> NoDup (map s_attr X).
Proof.
  intros c D tcol tval st HI E X HX. destruct (C45_candidates c D tcol tval HI) as (st' & kept & E' & _ & _ & H). rewrite E in E'. injection E' as <-. apply H in HX. destruct HX as ((NE & S0 & Hs) & Cv & _).
  assert (F : Forall nominal X) by (apply Forall_forall; intros s Is; destruct (Hs s Is) as (A & B & _); split; auto). destruct HI as (HC & _). apply (distinct_attributes D HC); auto. apply sorted_nodup_nominal; auto.
Qed.
(** The adjusted p-value: the p-value times the number of candidates (not finite: unchanged). *)
Definition p_times (p : xnum) (n : nat) : xnum := match p with XFin q => XFin (q * inject_Z (Z.of_nat n)) | _ => p end.
(** The values of each candidate are those of its rows: the share of the rows, the odds ratio and the p-value of the model of the target
    on its rows, the contributions of its selectors (from the odds ratios of the pattern with and without each selector), and the
    p-value times the number of candidates. *)
Theorem C45_measures : forall c D tcol tval st, qfinder_input c D tcol -> qfinder_fit c D tcol tval = Ok st ->
  map fst (qs_cred st) = map pattern_str (qs_candidates st) /\
  forall X, In X (qs_candidates st) -> exists a r,
    selector_contribution (fun Y => Ok (q_glm_or c (target_rows D tcol tval) (pattern_rows D Y))) None X = Ok (a, r) /\
    assoc (qs_cred st) (pattern_str X) =
      Ok (QCred (XFin (inject_Z (Z.of_nat (coverage D X)) / inject_Z (Z.of_nat (df_n D))))
                (q_glm_or c (target_rows D tcol tval) (pattern_rows D X)) (q_glm_p c (target_rows D tcol tval) (pattern_rows D X)) a r
                (p_times (q_glm_p c (target_rows D tcol tval) (pattern_rows D X)) (length (qs_candidates st)))).
Proof.
  intros c D tcol tval st HI E. destruct (fit_exact c D tcol tval HI) as (top & _ & E'). rewrite E in E'. injection E' as ->. cbn [qs_cred qs_candidates]. split; [rewrite map_map; reflexivity|].
  intros X HX. exists (fst (contributions_of c D tcol tval X)), (snd (contributions_of c D tcol tval X)). split; [rewrite <- surjective_pairing; apply (contributions_ok c D tcol tval X)|].
  set (N := length _). apply (assoc_in _ _ (measures_of c D tcol tval N X)); [|apply (in_map (fun X => (pattern_str X, measures_of c D tcol tval N X))); auto]. rewrite map_map. cbn [fst].
  destruct HI as (HC & _ & HR & _). apply (str_nodup D tcol HC HR); [intros Y; apply (covered_ok c); auto|apply NoDup_filter, q_candidates_nodup; auto].
Qed.
Lemma entries_exist : forall c D tcol tval, qfinder_input c D tcol -> exists st es top, qfinder_fit c D tcol tval = Ok st /\ entries_of st es /\ q_select c (q_ranked c es) = Ok top /\ qs_top st = map fst top /\
  NoDup (map fst es) /\ forall e, In e es -> (Forall nominal (fst e) /\ sorted_strictly (fst e)) /\ qp e = q_glm_p c (target_rows D tcol tval) (pattern_rows D (fst e)).
Proof.
  intros c D tcol tval HI. destruct (fit_exact c D tcol tval HI) as (top & E1 & E2). destruct HI as (HC & _ & HR & _). set (cs := covered D (q_candidates c D tcol)) in *. set (es := map (fun X => (X, measures_of c D tcol tval (length cs) X)) cs) in *.
  assert (M : map fst es = cs) by (unfold es; rewrite map_map; apply map_id). assert (ND : NoDup cs) by (apply NoDup_filter, q_candidates_nodup; auto).
  assert (NM : NoDup (map fst es)) by (rewrite M; exact ND).
  eexists; exists es, top. split; [exact E2|]. split; [split; [exact M|]|split; [auto|split; [reflexivity|split; [exact NM|]]]].
  - intros e He. cbn [qs_cred]. unfold es in He. apply in_map_iff in He. destruct He as (X & <- & HX). cbn [fst snd]. apply assoc_in; [|apply (in_map (fun X => (pattern_str X, measures_of c D tcol tval (length cs) X))); auto]. rewrite map_map. cbn [fst].
    apply (str_nodup D tcol HC HR); auto. intros Y; apply (covered_ok c); auto.
  - intros e He. unfold es in He. apply in_map_iff in He. destruct He as (X & <- & HX). cbn [fst snd]. split; [|reflexivity]. destruct (covered_ok c D tcol X HC HX) as ((NE & S0 & Hs) & _). split; auto. apply Forall_forall; intros s Is; destruct (Hs s Is) as (A & B & _); split; auto.
Qed.
(** The selected entries are entries. *)
Lemma selected_incl : forall c es top, q_select c (q_ranked c es) = Ok top -> incl top es.
Proof.
  intros c es top Es. assert (P := ranked_perm c es). unfold q_select in Es. assert (G1 : forall l top top', q_group c top l = Ok top' -> incl top' (top ++ l)).
    { clear. induction l as [|x l IH]; intros top top' H; cbn [q_group] in H; [injection H as <-; rewrite app_nil_r; intros e He; exact He|]. destruct (q_offer c top x) as [r|] eqn:Eo; [|discriminate]. cbn [bind] in H.
      assert (Ir : incl (fst r) (top ++ [x])).
      { unfold q_offer in Eo. destruct (if (Z.of_nat (length top) =? q_num c)%Z then do m <- max_p top; Ok (xlt m (qp x)) else Ok false) as [[|]|]; cbn [bind] in Eo; try discriminate; [injection Eo as <-; intros e He; apply in_or_app; auto|]. destruct (existsb _ _); [injection Eo as <-; intros e He; apply in_or_app; auto|]. injection Eo as <-. cbn [fst].
        assert (I0 : incl (remove_iterating (q_replaces c x) top ++ [x]) (top ++ [x])) by (intros e He; apply in_app_or in He; apply in_or_app; destruct He as [He|He]; auto; left; eapply sub_in; [apply remove_sub|exact He]).
        destruct (_ <? _)%Z; auto. intros e He. apply I0. revert He. generalize (remove_iterating (q_replaces c x) top ++ [x]) as l'. intros l'. destruct l' as [|y l']; [intros []|]. unfold drop_max. generalize (fst (first_max y l')) as p, (y :: l') as m. clear. intros p m. induction m as [|z m IH]; cbn [remove_pattern]; auto. destruct (pattern_eq _ _); [right; auto|]. intros [<-|H]; [left; auto|right; auto]. }
      destruct (snd r); [|injection H as <-]; intros e He.
      - apply IH in H. apply H in He. apply in_app_or in He. destruct He as [He|He]; [apply Ir in He; apply in_app_or in He; destruct He as [He|[<-|[]]]; apply in_or_app; [left; auto|right; left; auto]|apply in_or_app; right; right; auto].
      - apply Ir in He. apply in_app_or in He. destruct He as [He|[<-|[]]]; apply in_or_app; [left; auto|right; left; auto]. }
    assert (G2 : forall ks top0 top1, fold_res (fun top k => q_group c top (filter (fun e : qentry => length (fst e) =? k) (q_ranked c es))) ks top0 = Ok top1 -> incl top0 es -> incl top1 es).
    { induction ks as [|k ks IH]; intros t0 t1 H I0; cbn [fold_res] in H; [injection H as <-; auto|]. destruct (q_group _ _ _) as [t|] eqn:Eg; [|discriminate]. cbn [bind] in H. apply (IH t t1 H). intros e He. apply (G1 _ _ _ Eg) in He. apply in_app_or in He. destruct He as [He|He]; auto. apply filter_In in He. apply (Permutation_in e (Permutation_sym P)). tauto. }
    apply (G2 _ _ _ Es). intros e He; destruct He.
Qed.
(** The file: one line per reported pattern, in order, with its values. *)
Theorem C45_file : forall c D tcol tval st, qfinder_input c D tcol -> qfinder_fit c D tcol tval = Ok st ->
  exists lines, q_lines tcol tval st (qs_cred st) = Ok lines /\ map fst lines = map (fun X => SG X (Sel tcol EQUAL (VStr tval))) (qs_top st) /\
    forall g r, In (g, r) lines -> assoc (qs_cred st) (pattern_str (g_desc g)) = Ok r.
Proof.
  intros c D tcol tval st HI E. destruct (entries_exist c D tcol tval HI) as (st' & es & top & E' & (M & A) & Es & T & N & W). rewrite E in E'. injection E' as <-.
  pose proof (selected_incl c es top Es) as I.
  exists (map (fun e => (SG (fst e) (Sel tcol EQUAL (VStr tval)), snd e)) top). unfold q_lines. rewrite T. split; [|split].
  - clear - I A. induction top as [|e top IH]; [reflexivity|]. cbn [map map_res]. rewrite A by (apply I; left; auto). cbn [bind]. rewrite IH by (intros x Hx; apply I; right; auto). reflexivity.
  - rewrite !map_map. reflexivity.
  - intros g r H. apply in_map_iff in H. destruct H as (e & H & He). injection H as <- <-. cbn [g_desc]. apply A, I, He.
Qed.

(** * C46: the selection *)
(** The rank: the greatest one that is reached. *)
Theorem C46_rank : forall c r, q_rank c r <= 6 /\ (1 <= q_rank c r -> reaches c r (q_rank c r)) /\ forall k, q_rank c r < k -> ~ reaches c r k.
Proof.
  intros c r. unfold q_rank, q_criteria, reaches, criterion.
  destruct (xle (XFin (q_cov c)) (qc_cov r)), (xle (XFin (q_or c)) (qc_or r)), (xle (qc_p r) (XFin (q_p c))), (xle (XFin (q_abs c)) (qc_abs r)), (xle (qc_ratio r) (XFin (q_ratio c))), (xle (qc_adj r) (XFin (q_p c))); cbn;
  (split; [lia|split; [intros H1; first [lia|split; [reflexivity|intros j Hj Nj; do 7 (destruct j as [|j]; [first [reflexivity|lia]|]); lia]]|]]).
  all: intros k Hk [K1 K2]; do 7 (destruct k as [|k]; [first [lia|discriminate|specialize (K2 1 ltac:(lia) ltac:(lia)); discriminate|specialize (K2 2 ltac:(lia) ltac:(lia)); discriminate|specialize (K2 3 ltac:(lia) ltac:(lia)); discriminate|specialize (K2 5 ltac:(lia) ltac:(lia)); discriminate]|]); contradiction.
Qed.
(** The selection, on any list of candidates (with distinct patterns and p-values that are numbers) and for num_subgroups >= 1.  It always
    ends with a list of at most num_subgroups candidates, *)
Definition selects (c : qconfig) (es top : list qentry) : Prop :=
  (1 <= q_num c)%Z /\ Forall wf_entry es /\ NoDup (map fst es) /\ q_select c (q_ranked c es) = Ok top.
Theorem C46_size : forall c es top, selects c es top -> (Z.of_nat (length top) <= q_num c)%Z /\ incl top es.
Proof. intros c es top (H1 & H2 & H3 & H4). destruct (selection c es H1 H2 H3) as (t & E & (A & B & C & _) & _). rewrite H4 in E. injection E as <-. auto. Qed.
Theorem C46_total : forall c es, (1 <= q_num c)%Z -> exists top, q_select c (q_ranked c es) = Ok top.
Proof. intros c es H. apply select_total; auto. Qed.
(** each one once; *)
Theorem C46_distinct : forall c es top, selects c es top -> NoDup (map fst top).
Proof. intros c es top (H1 & H2 & H3 & H4). destruct (selection c es H1 H2 H3) as (t & E & (A & B & C & _) & _). rewrite H4 in E. injection E as <-. auto. Qed.
(** of two nested patterns of the list, the special one comes after the general one and its odds ratio is greater by more than delta; *)
Theorem C46_nested : forall c es top a X b Y d, selects c es top -> top = a ++ X :: b ++ Y :: d -> nested (fst X) (fst Y) ->
  incl (fst X) (fst Y) /\ length (fst X) < length (fst Y) /\ xle (qo Y) (raised (qo X) (q_delta c)) = false.
Proof.
  intros c es top a X b Y d (H1 & H2 & H3 & H4) ET N. destruct (selection c es H1 H2 H3) as (t & E & (A & B & C & D) & _). rewrite H4 in E. injection E as <-. subst top.
  assert (K : before_ok c X Y). { clear - D. induction a as [|z a IH]; cbn [app] in D; inversion D as [|? ? D1 D2]; subst; auto. rewrite Forall_forall in D2. apply D2. apply in_or_app. right. left. auto. }
  destruct (K N) as [L O]. split; [|auto]. destruct N as [N|N]; auto. exfalso. rewrite Forall_forall in H2. destruct (H2 Y) as (F & S0 & _); [apply A; apply in_or_app; right; right; apply in_or_app; right; left; auto|].
  assert (ND := sorted_nodup_nominal (fst Y) F S0). apply (NoDup_incl_length ND) in N. unfold pattern in *. lia.
Qed.
(** and every candidate that is not in the list has a reason. *)
Theorem C46_reasons : forall c es top Y, selects c es top -> In Y es -> ~ In Y top -> stopped c es Y \/ replaced c es Y \/ outnumbered c es Y \/ abandoned c es Y.
Proof. intros c es top Y (H1 & H2 & H3 & H4) HY N. destruct (selection c es H1 H2 H3) as (t & E & _ & R). rewrite H4 in E. injection E as <-. destruct (R Y HY) as [K|K]; [contradiction|exact K]. Qed.
Lemma qentry_eq_dec : forall x y : qentry, {x = y} + {x <> y}.
Proof. assert (HQ : forall a b : Q, {a = b} + {a <> b}) by (decide equality; [apply Pos.eq_dec|apply Z.eq_dec]). assert (HX : forall a b : xnum, {a = b} + {a <> b}) by (decide equality). decide equality; [decide equality|apply (list_eq_dec selector_eq_dec)]. Qed.
(** In particular, when all the candidates fit in the list, a candidate is missing only because of a nested one; *)
Theorem C46_enough : forall c es top Y, selects c es top -> (Z.of_nat (length es) <= q_num c)%Z -> In Y es -> ~ In Y top -> stopped c es Y \/ replaced c es Y.
Proof.
  intros c es top Y H L HY N. destruct (C46_reasons c es top Y H HY N) as [K|[K|[K|K]]]; auto; exfalso; destruct H as (H1 & H2 & H3 & H4).
  - destruct K as (l & N1 & I & NY & Ll & _). assert (I' : incl (Y :: l) es) by (intros e [<-|He]; auto). apply (NoDup_incl_length (NoDup_cons Y NY N1)) in I'. cbn [length] in I'. lia.
  - destruct K as (x & l & Hx & _ & _ & N1 & I & Ll & P). assert (Nx : ~ In x l) by (intros K; apply P in K; rewrite xlt_irrefl in K; discriminate). assert (I' : incl (x :: l) es) by (intros e [<-|He]; auto). apply (NoDup_incl_length (NoDup_cons x Nx N1)) in I'. cbn [length] in I'. lia.
Qed.
(** a candidate with the smallest p-value, of the best rank of its length and with no nested candidate is reported. *)
Theorem C46_best : forall c es top Y, selects c es top -> In Y es ->
  (forall X, In X es -> nested (fst X) (fst Y) -> X = Y) -> (forall X, In X es -> X <> Y -> xlt (qp Y) (qp X) = true) -> (forall X, In X es -> length (fst X) = length (fst Y) -> q_rank c (snd X) <= q_rank c (snd Y)) -> In Y top.
Proof.
  intros c es top Y H HY Nn P R. destruct (in_dec qentry_eq_dec Y top) as [K|K]; auto. exfalso.
  destruct (C46_reasons c es top Y H HY K) as [(X & HX & N & L & _)|[(X & HX & N & L & _)|[(l & N1 & I & NY & Ll & Q)|(x & l & Hx & Lx & Rx & _)]]].
  - rewrite (Nn X HX N) in L. lia.
  - rewrite (Nn X HX) in L by (destruct N; [right|left]; auto). lia.
  - destruct H as (H1 & _). destruct l as [|e l]; [cbn in Ll; lia|]. assert (He := Q e (or_introl eq_refl)). assert (Ne : e <> Y) by (intros ->; apply NY; left; auto). assert (Hp := P e (I e (or_introl eq_refl)) Ne). assert (F := xle_xlt_trans _ _ _ He Hp). rewrite xlt_irrefl in F. discriminate.
  - specialize (R x Hx Lx). lia.
Qed.
(** The same for a fit: the reported patterns are the selection among its candidates. *)
Theorem C46_fit : forall c D tcol tval, qfinder_input c D tcol ->
  (forall X, description D tcol X -> 1 <= coverage D X -> is_nan (q_glm_p c (target_rows D tcol tval) (pattern_rows D X)) = false) ->
  exists st es top, qfinder_fit c D tcol tval = Ok st /\ entries_of st es /\ qs_top st = map fst top /\ selects c es top.
Proof.
  intros c D tcol tval HI HP. destruct (entries_exist c D tcol tval HI) as (st & es & top & E & En & Es & T & N & W). exists st, es, top. split; auto. split; auto. split; auto.
  destruct (C45_candidates c D tcol tval HI) as (st' & kept & E' & _ & _ & HC). rewrite E in E'. injection E' as <-.
  split; [apply HI|]. split; [|auto]. apply Forall_forall. intros e He. destruct (W e He) as [[A B] P]. split; auto. split; auto. rewrite P. destruct En as [M _].
  assert (K : In (fst e) (qs_candidates st)) by (rewrite <- M; apply in_map; auto). apply HC in K. destruct K as (K1 & K2 & _). auto.
Qed.
Lemma remove_pattern_length : forall p l, length (remove_pattern p l) <= length l.
Proof. intros p l. induction l as [|x l IH]; cbn [remove_pattern]; [lia|]. destruct (pattern_eq _ _); cbn [length]; lia. Qed.
Lemma sub_length : forall {A} (l m : list A), sub l m -> length l <= length m.
Proof. intros A l m H. induction H; cbn [length]; lia. Qed.
Lemma offer_length : forall c top x r, q_offer c top x = Ok r -> length (fst r) <= length top + 1.
Proof.
  intros c top x r E. unfold q_offer in E. destruct (if (Z.of_nat (length top) =? q_num c)%Z then do m <- max_p top; Ok (xlt m (qp x)) else Ok false) as [[|]|]; cbn [bind] in E; try discriminate; [injection E as <-; cbn; lia|].
  destruct (existsb _ _); [injection E as <-; cbn; lia|]. injection E as <-. cbn [fst].
  assert (L : length (remove_iterating (q_replaces c x) top ++ [x]) <= length top + 1) by (rewrite app_length; cbn [length]; apply Nat.add_le_mono_r, sub_length, remove_sub).
  destruct (_ <? _)%Z; auto. eapply Nat.le_trans; [|exact L]. destruct (remove_iterating (q_replaces c x) top ++ [x]) as [|y l]; [cbn; lia|]. apply remove_pattern_length.
Qed.
Lemma group_length : forall c l top top', q_group c top l = Ok top' -> length top' <= length top + length l.
Proof.
  intros c l. induction l as [|x l IH]; intros top top' H; cbn [q_group] in H; [injection H as <-; cbn [length]; lia|]. destruct (q_offer c top x) as [r|] eqn:Eo; [|discriminate]. cbn [bind] in H. apply offer_length in Eo.
  cbn [length]. destruct (snd r); [apply IH in H; lia|injection H as <-; lia].
Qed.
Lemma filters_length : forall (l : list qentry) ks, NoDup ks -> list_sum (map (fun k => length (filter (fun e : qentry => length (fst e) =? k) l)) ks) <= length l.
Proof.
  intros l ks ND. induction l as [|x l IH]; cbn [filter length].
  - clear. induction ks as [|k ks IH]; cbn; auto.
  - assert (G : list_sum (map (fun k => length (if length (fst x) =? k then x :: filter (fun e : qentry => length (fst e) =? k) l else filter (fun e : qentry => length (fst e) =? k) l)) ks)
      <= list_sum (map (fun k => length (filter (fun e : qentry => length (fst e) =? k) l)) ks) + (if existsb (Nat.eqb (length (fst x))) ks then 1 else 0)).
    { clear IH. induction ND as [|k ks Nk ND IH]; [cbn; lia|]. cbn [map existsb]. unfold list_sum in *. cbn [fold_right]. destruct (length (fst x) =? k) eqn:E; cbn [length orb].
      - apply Nat.eqb_eq in E. assert (F : existsb (Nat.eqb (length (fst x))) ks = false) by (apply not_true_iff_false; intros K; apply existsb_exists in K; destruct K as (j & Hj & K); apply Nat.eqb_eq in K; congruence). rewrite F in IH. lia.
      - lia. }
    destruct (existsb _ ks); lia.
Qed.
Lemma select_length : forall c l top, q_select c l = Ok top -> length top <= length l.
Proof.
  intros c l top H. unfold q_select in H. eapply Nat.le_trans; [|apply (filters_length l (q_lengths l))].
  - assert (G : forall ks t0 t1, fold_res (fun top k => q_group c top (filter (fun e : qentry => length (fst e) =? k) l)) ks t0 = Ok t1 -> length t1 <= length t0 + list_sum (map (fun k => length (filter (fun e : qentry => length (fst e) =? k) l)) ks)).
    { induction ks as [|k ks IH]; intros t0 t1 K; cbn [fold_res] in K; [injection K as <-; cbn; lia|]. destruct (q_group _ _ _) as [t|] eqn:Eg; [|discriminate]. cbn [bind] in K. apply group_length in Eg. apply IH in K. cbn [map]. unfold list_sum in *. cbn [fold_right]. lia. }
    apply G in H. exact H.
  - unfold q_lengths. eapply Permutation_NoDup; [apply sort_by_perm|apply NoDup_nodup].
Qed.
(** The counters after a fit: the reported patterns, the other candidates and all the candidates. *)
Theorem C46_counters : forall c D tcol tval st, qfinder_input c D tcol -> qfinder_fit c D tcol tval = Ok st ->
  q_selected st = Z.of_nat (length (qs_top st)) /\ q_visited st = Z.of_nat (length (qs_candidates st)) /\
  (q_selected st + q_unselected st = q_visited st)%Z /\ (0 <= q_unselected st)%Z.
Proof.
  intros c D tcol tval st HI E. destruct (entries_exist c D tcol tval HI) as (st' & es & top & E' & (M & _) & Es & T & N & W). rewrite E in E'. injection E' as <-.
  unfold q_selected, q_visited, q_unselected. split; [reflexivity|]. split; [reflexivity|]. split; [lia|].
  assert (L : length (qs_top st) <= length (qs_candidates st)); [|lia]. rewrite T, <- M, !map_length.
  eapply Nat.le_trans; [exact (select_length c _ _ Es)|]. apply Nat.eq_le_incl. symmetry. exact (Permutation_length (ranked_perm c es)).
Qed.
(** num_subgroups = 0 is accepted by the constructor, but then the selection raises ValueError as soon as there is a candidate. *)
Theorem C46_zero_refuted : forall c es, q_num c = 0%Z -> es <> [] -> q_select c (q_ranked c es) = Err ValueError.
Proof.
  intros c es Hn NE. unfold q_select. assert (P := ranked_perm c es). destruct (q_ranked c es) as [|x l] eqn:E; [apply Permutation_sym, Permutation_nil in P; contradiction|].
  destruct (q_lengths (x :: l)) as [|k ks] eqn:Ek.
  - assert (K : In (length (fst x)) (q_lengths (x :: l))) by (unfold q_lengths; apply sort_by_in, nodup_In; left; auto). rewrite Ek in K. destruct K.
  - cbn [fold_res]. assert (K : In k (map (fun e => length (fst e)) (x :: l))) by (apply (nodup_In Nat.eq_dec), (sort_by_in Nat.ltb); fold (q_lengths (x :: l)); rewrite Ek; left; auto).
    apply in_map_iff in K. destruct K as (e & K & He). assert (Hf : In e (filter (fun e : qentry => length (fst e) =? k) (x :: l))) by (apply filter_In; split; auto; apply Nat.eqb_eq; auto).
    match goal with |- context [q_group c [] ?g] => set (gg := g) end. change (In e gg) in Hf. destruct gg as [|y g]; [destruct Hf|]. cbn [q_group]. unfold q_offer. cbn [length Z.of_nat]. rewrite Hn. reflexivity.
Qed.

(** * C60: test_subgroups *)
(** On a dataset with the columns of the reported patterns, [test_subgroups] works if and only if every reported pattern with some row
    and at least two selectors is reported with all the patterns that result from removing one of its selectors; if not, KeyError. *)
Definition testable (D : dataframe) (tops : list pattern) : Prop :=
  forall X s, In X tops -> 1 <= coverage D X -> 2 <= length X -> In s X -> In (filter (fun t => negb (sel_eq t s)) X) tops.
Definition test_input (st : qstate) (D : dataframe) (tcol : string) : Prop :=
  categorical D /\ has_column D tcol /\ readable D tcol /\ NoDup (qs_top st) /\ forall X, In X (qs_top st) -> description D tcol X.
Lemma test_bits : forall st D tcol, test_input st D tcol -> generate_bitset D tcol (qs_top st) = Ok (bits D (covered D (qs_top st))).
Proof.
  intros st D tcol (HC & Hcol & HR & ND & HD). apply generate_ok; auto. apply (str_nodup D tcol HC HR); [|apply NoDup_filter; auto]. intros X HX. apply filter_In in HX. destruct HX as [HX Cv]. apply Nat.leb_le in Cv. auto.
Qed.
Theorem C60_ok : forall c st D tcol tval, test_input st D tcol -> testable D (qs_top st) ->
  exists d, q_test c st D tcol tval = Ok d /\ map fst d = map pattern_str (filter (fun X => 1 <=? coverage D X) (qs_top st)) /\
  forall X, In X (qs_top st) -> 1 <= coverage D X -> exists a r,
    selector_contribution (fun Y => Ok (q_glm_or c (target_rows D tcol tval) (pattern_rows D Y))) None X = Ok (a, r) /\
    assoc d (pattern_str X) =
      Ok (QCred (XFin (inject_Z (Z.of_nat (coverage D X)) / inject_Z (Z.of_nat (df_n D))))
                (q_glm_or c (target_rows D tcol tval) (pattern_rows D X)) (q_glm_p c (target_rows D tcol tval) (pattern_rows D X)) a r
                (p_times (q_glm_p c (target_rows D tcol tval) (pattern_rows D X)) (length (filter (fun X => 1 <=? coverage D X) (qs_top st))))).
Proof.
  intros c st D tcol tval HI HT. pose proof (test_bits st D tcol HI) as EB. destruct HI as (HC & Hcol & HR & ND & HD). set (cs := covered D (qs_top st)) in *.
  assert (OKs : forall X, In X cs -> description D tcol X /\ 1 <= coverage D X) by (intros X HX; apply filter_In in HX; destruct HX as [HX Cv]; apply Nat.leb_le in Cv; auto).
  assert (NDc : NoDup cs) by (apply NoDup_filter; auto). unfold q_test. rewrite target_mask_is by auto. cbn [bind]. rewrite EB. cbn [bind].
  exists (map (fun X => (pattern_str X, measures_of c D tcol tval (length cs) X)) cs). split; [|split].
  - apply (measures_ok c D tcol tval HC HR cs NDc OKs). intros X s HX L Hs. destruct (OKs X HX) as [Ds Cv]. apply filter_In in HX. destruct HX as [HX _]. apply filter_In. split; [apply HT; auto|]. apply Nat.leb_le. eapply Nat.le_trans; [exact Cv|]. apply coverage_antitone. intros t Ht. apply filter_In in Ht. tauto.
  - rewrite map_map. reflexivity.
  - intros X HX Cv. exists (fst (contributions_of c D tcol tval X)), (snd (contributions_of c D tcol tval X)). split; [rewrite <- surjective_pairing; apply (contributions_ok c D tcol tval X)|].
    apply (assoc_in _ _ (measures_of c D tcol tval (length cs) X)); [rewrite map_map; apply (str_nodup D tcol HC HR); auto|]. apply (in_map (fun X => (pattern_str X, measures_of c D tcol tval (length cs) X))). apply filter_In. split; auto. apply Nat.leb_le; auto.
Qed.
Lemma contribution_err : forall odds p e, (forall q e', odds q = Err e' -> e' = e) -> 2 <= length p -> (exists s e', In s p /\ odds (remove_selector (pattern_copy p) s) = Err e') -> selector_contribution odds None p = Err e.
Proof.
  intros odds p e He L (s & e' & Hs & Es). unfold selector_contribution. destruct (length p) as [|[|k]]; try lia. destruct (odds p) as [o|e0] eqn:Eo; cbn [bind]; [|rewrite (He p e0); auto].
  generalize XPosInf, XNegInf. revert Hs. generalize p at 1 3 as l. induction l as [|t l IH]; intros Hs mn mx; [destruct Hs|]. cbn [contribution_loop]. destruct (odds (remove_selector (pattern_copy p) t)) as [w|e1] eqn:Et; cbn [bind]; [|rewrite (He _ e1 Et); reflexivity].
  destruct Hs as [->|Hs]; [congruence|]. apply IH; auto.
Qed.
Theorem C60_refuted : forall c st D tcol tval, test_input st D tcol ->
  (exists X s, In X (qs_top st) /\ 1 <= coverage D X /\ 2 <= length X /\ In s X /\ ~ In (filter (fun t => negb (sel_eq t s)) X) (qs_top st)) -> q_test c st D tcol tval = Err KeyError.
Proof.
  intros c st D tcol tval HI (X & s & HX & Cv & L & Hs & NX). pose proof (test_bits st D tcol HI) as EB. destruct HI as (HC & Hcol & HR & ND & HD). set (cs := covered D (qs_top st)) in *.
  assert (OKs : forall X, In X cs -> description D tcol X /\ 1 <= coverage D X) by (intros Y HY; apply filter_In in HY; destruct HY as [HY C]; apply Nat.leb_le in C; auto).
  unfold q_test. rewrite target_mask_is by auto. cbn [bind]. rewrite EB. cbn [bind]. unfold q_measures.
  assert (P : 1 <= df_n D) by (unfold coverage in Cv; destruct (df_n D); [cbn in Cv; lia|lia]).
  assert (NZ : Qeq_bool (inject_Z (Z.of_nat (df_n D))) 0 = false) by (apply not_true_iff_false; rewrite Qeq_bool_iff; unfold Qeq, inject_Z; cbn; lia).
  rewrite (map_res_ok _ (fun ka : string * list bool => (inject_Z (zcount (snd ka)) / inject_Z (Z.of_nat (df_n D)))%Q)) by (intros ka _; unfold zdiv; rewrite NZ; reflexivity). cbn [bind].
  rewrite (map_res_err _ _ KeyError); [reflexivity| |].
  - intros [k m] e Hk. cbn [fst]. apply in_map_iff in Hk. destruct Hk as (Y & EY & HY). injection EY as <- <-. destruct (OKs Y HY) as [D1 C1]. rewrite (parse_ok D tcol HC HR) by auto. cbn [bind]. intros E.
    revert E. unfold selector_contribution. destruct (length Y) as [|[|j]]; try discriminate. destruct (assoc _ (pattern_str Y)) as [o|e0] eqn:Eo; cbn [bind]; [|intros E; injection E as <-; apply (assoc_err _ _ _ Eo)].
    generalize XPosInf, XNegInf. generalize Y at 2 as l. induction l as [|t l IH]; intros mn mx; cbn [contribution_loop]; [discriminate|]. destruct (assoc _ (pattern_str (remove_selector (pattern_copy Y) t))) as [w|e1] eqn:Et; cbn [bind]; [apply IH|intros E; injection E as <-; apply (assoc_err _ _ _ Et)].
  - assert (HXc : In X cs) by (apply filter_In; split; auto; apply Nat.leb_le; auto). destruct (OKs X HXc) as [Ds _]. exists (pattern_str X, rows_mask D X), KeyError. split; [apply (in_map (fun X => (pattern_str X, rows_mask D X))); auto|]. cbn [fst].
    rewrite (parse_ok D tcol HC HR) by auto. cbn [bind]. apply contribution_err; auto; [intros q e'; apply assoc_err|]. exists s, KeyError. split; auto.
    destruct (remove_description D tcol X s Ds Hs) as [-> D2]. specialize (D2 L). apply assoc_none. unfold bits. rewrite !map_map. cbn [fst]. intros K. apply in_map_iff in K. destruct K as (Y & EY & HY). destruct (OKs Y HY) as [D1 C1].
    assert (C2 : 1 <= coverage D (filter (fun t => negb (sel_eq t s)) X)) by (eapply Nat.le_trans; [exact Cv|]; apply coverage_antitone; intros t Ht; apply filter_In in Ht; tauto).
    pose proof (parse_ok D tcol HC HR Y D1 C1) as P1. pose proof (parse_ok D tcol HC HR _ D2 C2) as P2. rewrite EY, P2 in P1. injection P1 as P1. apply NX. rewrite P1. apply filter_In in HY. tauto.
Qed.
(** Before any fit there is no error: the result is empty. *)
Theorem C60_before_fit : forall c D tcol tval, categorical D -> has_column D tcol -> q_test c (QState [] [] []) D tcol tval = Ok [].
Proof. intros c D tcol tval HC Hcol. unfold q_test. rewrite target_mask_is by auto. reflexivity. Qed.
(** Writing the file of a test raises KeyError when a reported pattern has no row in the dataset. *)
Theorem C60_file : forall c st D tcol tval, test_input st D tcol -> testable D (qs_top st) ->
  exists d, q_test c st D tcol tval = Ok d /\
  ((forall X, In X (qs_top st) -> 1 <= coverage D X) -> exists lines, q_lines tcol tval st d = Ok lines /\ map fst lines = map (fun X => SG X (Sel tcol EQUAL (VStr tval))) (qs_top st)) /\
  (forall X, In X (qs_top st) -> coverage D X = 0 -> pattern_parse (pattern_str X) = Ok X -> q_lines tcol tval st d = Err KeyError).
Proof.
  intros c st D tcol tval HI HT. destruct (C60_ok c st D tcol tval HI HT) as (d & E & M & V). exists d. split; auto. split.
  - intros HA. unfold q_lines. assert (G : forall l, incl l (qs_top st) -> exists lines, map_res (fun p => do r <- assoc d (pattern_str p); Ok (SG p (Sel tcol EQUAL (VStr tval)), r)) l = Ok lines /\ map fst lines = map (fun X => SG X (Sel tcol EQUAL (VStr tval))) l).
    { induction l as [|X l IH]; intros I; [exists []; auto|]. cbn [map_res map]. destruct (V X) as (a & r & _ & EX); [apply I; left; auto|apply HA, I; left; auto|]. rewrite EX. cbn [bind]. destruct IH as (lines & -> & Ml); [intros Y HY; apply I; right; auto|]. cbn [bind]. eexists. split; [reflexivity|]. cbn [map fst]. rewrite Ml. reflexivity. }
    apply G. intros X HX; exact HX.
  - intros X HX C0 NS. unfold q_lines. apply map_res_err.
    + intros Y e HY. destruct (assoc d (pattern_str Y)) as [r|e0] eqn:EY; cbn [bind]; [discriminate|]. intros E0. injection E0 as <-. apply (assoc_err _ _ _ EY).
    + exists X, KeyError. split; auto. rewrite assoc_none; [reflexivity|]. rewrite M. intros K. apply in_map_iff in K. destruct K as (Y & EY & HY). apply filter_In in HY. destruct HY as [HY CY]. apply Nat.leb_le in CY. destruct HI as (HC & _ & HR & _ & HD).
      rewrite <- EY, (parse_ok D tcol HC HR Y) in NS by auto. injection NS as ->. lia.
Qed.

(** * Concrete cases and counterexamples *)
Definition ex_q (num cats mx : Z) (delta : Q) : qconfig :=
  QConfig num cats mx (1#10) (1#1) (1#2) 0 5 delta
    (fun t m => XFin (inject_Z (zcount (series_and t m)) + 1)) (fun t m => XFin (1 / inject_Z (1 + zcount m))) (fun _ => 0%Z).
Lemma ex_readable : readable ex_data "class".
Proof.
  intros a col x H N Hx. unfold ex_data, ex_rows in H. cbn in H. destruct H as [H|[H|[H|[]]]]; injection H as <- <-; try congruence; cbn in Hx; repeat (destruct Hx as [<-|Hx]); try contradiction; (split; [split; [reflexivity|repeat constructor]|split; reflexivity]).
Qed.
Lemma ex_qinput : forall num cats mx delta, (1 <= num)%Z -> qfinder_input (ex_q num cats mx delta) ex_data "class".
Proof. intros num cats mx delta H. split; [apply ex_rows_ok|]. split; [eexists; reflexivity|]. split; [apply ex_readable|exact H]. Qed.
(** All the values: 4 selectors, 8 patterns, one of them without rows. *)
Example C45_nonvacuous : exists st, qfinder_fit (ex_q 3 (-1) (-1) 0) ex_data "class" "p" = Ok st /\ length (qs_candidates st) = 8 /\ length (qs_top st) = 3.
Proof. eexists. split; [vm_compute; reflexivity|]. split; reflexivity. Qed.
Definition ex_attrs (ps : list pattern) : list (list (string * value)) := map (map (fun s => (s_attr s, s_val s))) ps.
(** At most one value per column (cats = 2): the most frequent one; the value "other" has no rows. *)
Example C45_nonvacuous_cats : exists st, qfinder_fit (ex_q 3 2 1 0) (ex_rows [("x", "u", "p"); ("x", "v", "p"); ("y", "w", "n"); ("z", "v", "n")]) "class" "p" = Ok st /\
  ex_attrs (qs_candidates st) = [[("a", VStr "x")]; [("b", VStr "v")]].
Proof. eexists. split; [vm_compute; reflexivity|reflexivity]. Qed.
(** A smaller mask gives a greater odds ratio and a smaller p-value. *)
Definition ex_small (num : Z) : qconfig :=
  QConfig num (-1) (-1) 0 0 1 0 5 0 (fun _ m => XFin (10 - inject_Z (zcount m))) (fun _ m => XFin (inject_Z (zcount m) / 10)) (fun _ => 0%Z).
Definition ex_square : dataframe := ex_rows [("x", "u", "p"); ("x", "v", "p"); ("y", "u", "n")].
Lemma ex_square_input : forall num, (1 <= num)%Z -> qfinder_input (ex_small num) ex_square "class".
Proof.
  intros num H. split; [apply ex_rows_ok|]. split; [eexists; reflexivity|]. split; [|exact H].
  intros a col x Hc N Hx. unfold ex_square, ex_rows in Hc. cbn in Hc. destruct Hc as [Hc|[Hc|[Hc|[]]]]; injection Hc as <- <-; try congruence; cbn in Hx; repeat (destruct Hx as [<-|Hx]); try contradiction; (split; [split; [reflexivity|repeat constructor]|split; reflexivity]).
Qed.
Example C46_nonvacuous : exists st es top, qfinder_fit (ex_small 4) ex_square "class" "p" = Ok st /\ entries_of st es /\ qs_top st = map fst top /\ selects (ex_small 4) es top /\ length es = 7 /\ length top = 4.
Proof.
  destruct (C46_fit (ex_small 4) ex_square "class" "p") as (st & es & top & E & En & T & S0); [apply ex_square_input; lia|intros; reflexivity|]. exists st, es, top. split; auto. split; auto. split; auto. split; auto.
  pose proof E as E2. vm_compute in E2. injection E2 as E2. destruct En as [M _]. apply (f_equal (@length _)) in M, T. rewrite map_length in M, T. rewrite <- E2 in M, T. auto.
Qed.
(** The list can contain two nested patterns although the special one is better in both measures: the removal of the patterns that the new
    one replaces skips the element after each removed one. *)
Theorem C46_no_redundancy_refuted : exists c D tcol tval st X Y rX rY, qfinder_input c D tcol /\ qfinder_fit c D tcol tval = Ok st /\ In X (qs_top st) /\ In Y (qs_top st) /\
  incl X Y /\ length X < length Y /\ assoc (qs_cred st) (pattern_str X) = Ok rX /\ assoc (qs_cred st) (pattern_str Y) = Ok rY /\
  xlt (raised (qc_or rX) (q_delta c)) (qc_or rY) = true /\ xlt (qc_p rY) (qc_p rX) = true.
Proof.
  exists (ex_small 10), ex_square, "class", "p". eexists. exists [Sel "b" EQUAL (VStr "u")], [Sel "a" EQUAL (VStr "x"); Sel "b" EQUAL (VStr "u")]. do 2 eexists.
  split; [apply ex_square_input; lia|]. split; [vm_compute; reflexivity|]. cbn [qs_top qs_cred]. split; [cbn; tauto|]. split; [cbn; tauto|]. split; [intros s [<-|[]]; right; left; reflexivity|]. split; [cbn; lia|]. split; [vm_compute; reflexivity|]. split; [vm_compute; reflexivity|]. split; reflexivity.
Qed.
(** A candidate with the smallest p-value and no nested candidate can be missing: the patterns of a length are abandoned at the first one
    (by rank) whose p-value is too large. *)
Definition ex_entry (a v : string) (cov p : Q) : qentry := ([Sel a EQUAL (VStr v)], QCred (XFin cov) (XFin 1) (XFin p) (XFin 1) (XFin 1) (XFin 1)).
Theorem C46_best_refuted : exists c es top Y, selects c es top /\ In Y es /\ ~ In Y top /\ (forall X, In X es -> X <> Y -> xlt (qp Y) (qp X) = true) /\ (forall X, In X es -> nested (fst X) (fst Y) -> X = Y).
Proof.
  set (c := QConfig 1 (-1) (-1) (1#2) 0 (2#10) 0 5 0 (fun _ _ => XFin 0) (fun _ _ => XFin 0) (fun _ => 0%Z)).
  exists c, [ex_entry "a" "x" 1 (1#10); ex_entry "b" "u" 1 (3#10); ex_entry "d" "w" 0 (1#100)], [ex_entry "a" "x" 1 (1#10)], (ex_entry "d" "w" 0 (1#100)).
  split; [split; [cbn; lia|split; [|split; [|vm_compute; reflexivity]]]|].
  - repeat constructor.
  - repeat constructor; cbn; intuition discriminate.
  - split; [right; right; left; reflexivity|]. split; [intros [H|[]]; discriminate|]. split.
    + intros X [<-|[<-|[<-|[]]]] N; try reflexivity. congruence.
    + intros X [<-|[<-|[<-|[]]]] [N|N]; auto; exfalso; specialize (N _ (or_introl eq_refl)); destruct N as [N|[]]; discriminate.
Qed.
(** A column whose name has a space: fit raises an exception. *)
Theorem C45_space_refuted : exists c D tcol tval e, categorical D /\ has_column D tcol /\ (1 <= q_num c)%Z /\ qfinder_fit c D tcol tval = Err e.
Proof.
  exists (ex_small 3), (DF 2 [("my col", [VStr "x"; VStr "y"]); ("class", [VStr "p"; VStr "n"])]), "class", "p". eexists. split; [|split; [eexists; reflexivity|split; [cbn; lia|vm_compute; reflexivity]]].
  split; [|split].
  - intros a c H. cbn in H. destruct H as [H|[H|[]]]; injection H as <- <-; reflexivity.
  - repeat constructor; cbn; intuition discriminate.
  - intros a c v H J. cbn in H. destruct H as [H|[H|[]]]; injection H as <- <-; cbn in J; repeat (destruct J as [<-|J]); try contradiction; reflexivity.
Qed.
(** A value with ", " in it: fit raises an exception too. *)
Theorem C45_comma_refuted : exists c D tcol tval e, categorical D /\ has_column D tcol /\ (1 <= q_num c)%Z /\ (forall a v, In (a, v) (df_cols D) -> no_space a) /\ qfinder_fit c D tcol tval = Err e.
Proof.
  exists (ex_small 3), (DF 2 [("a", [VStr "x, y"; VStr "y"]); ("class", [VStr "p"; VStr "n"])]), "class", "p". eexists. split; [|split; [eexists; reflexivity|split; [cbn; lia|split; [|vm_compute; reflexivity]]]].
  - split; [|split].
    + intros a c H. cbn in H. destruct H as [H|[H|[]]]; injection H as <- <-; reflexivity.
    + repeat constructor; cbn; intuition discriminate.
    + intros a c v H J. cbn in H. destruct H as [H|[H|[]]]; injection H as <- <-; cbn in J; repeat (destruct J as [<-|J]); try contradiction; reflexivity.
  - intros a v H. cbn in H. destruct H as [H|[H|[]]]; injection H as <- <-; reflexivity.
Qed.
Print Assumptions C45_comma_refuted.
(** A fit followed by a test on the same data: the reported pattern a = x, b = u is not reported together with a = x, so KeyError. *)
Theorem C60_own_data_refuted : exists c D tcol tval st, qfinder_input c D tcol /\ qfinder_fit c D tcol tval = Ok st /\ q_test c st D tcol tval = Err KeyError.
Proof. exists (ex_small 10), ex_square, "class", "p". eexists. split; [apply ex_square_input; lia|]. split; [vm_compute; reflexivity|vm_compute; reflexivity]. Qed.
Example C60_nonvacuous : exists st, qfinder_fit (ex_q 3 (-1) 1 0) ex_data "class" "p" = Ok st /\ test_input st ex_square "class" /\ testable ex_square (qs_top st) /\ length (qs_top st) = 3.
Proof.
  eexists. split; [vm_compute; reflexivity|]. cbn [qs_top]. split; [|split; [|reflexivity]].
  - split; [apply ex_rows_ok|]. split; [eexists; reflexivity|]. split; [apply (ex_square_input 3); lia|]. split; [repeat constructor; cbn; intuition discriminate|].
    cbn [qs_top]. intros X [<-|[<-|[<-|[]]]]; (split; [discriminate|]); (split; [repeat constructor|]); intros s [<-|[]]; cbn; (split; [reflexivity|split; [reflexivity|split; [discriminate|eexists; reflexivity]]]).
  - intros X s [<-|[<-|[<-|[]]]] _ L; cbn in L; lia.
Qed.
Example C46_zero_nonvacuous : qfinder_fit (ex_small 0) ex_square "class" "p" = Err ValueError /\ qconfig_ok (ex_small 0) = true.
Proof. split; vm_compute; reflexivity. Qed.
Print Assumptions C45_candidates.
Print Assumptions C45_columns.
Print Assumptions C45_measures.
Print Assumptions C45_file.
Print Assumptions C45_space_refuted.
Print Assumptions C46_rank.
Print Assumptions C46_size.
Print Assumptions C46_total.
Print Assumptions C46_distinct.
Print Assumptions C46_nested.
Print Assumptions C46_reasons.
Print Assumptions C46_enough.
Print Assumptions C46_best.
Print Assumptions C46_fit.
Print Assumptions C46_counters.
Print Assumptions C46_zero_refuted.
Print Assumptions C46_no_redundancy_refuted.
Print Assumptions C46_best_refuted.
Print Assumptions C60_ok.
Print Assumptions C60_refuted.
Print Assumptions C60_before_fit.
Print Assumptions C60_file.
Print Assumptions C60_own_data_refuted.
