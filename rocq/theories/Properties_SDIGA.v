(** C47, C48, C63, C64 and the part of C34 about SDIGA. *)
From Verif Require Import SDIGASpec SDIGAProofs SDIGASearch SDIGAMain OrderFacts MiningProofs CorePattern Properties_SDMap.
From Coq Require Import Lia Lqa.
Open Scope string_scope.
Open Scope list_scope.
Open Scope nat_scope.

(** * C47: the encoding *)
(** Every row is encoded with valid codes, keeps its target value, and its chromosome decodes to the description with its values. *)
Theorem C47_round_trip : forall df tcol tval, sdiga_input df tcol tval -> exists rows, encoded_rows df tcol = Ok rows /\ length rows = df_n df /\
  forall i, i < df_n df -> exists codes v, nth_error rows i = Some (codes, v) /\ cell df i tcol = Some v /\
    Forall2 (fun g (c : string * list value) => 1 <= g <= length (distinct_values (snd c))) codes (other_columns df tcol) /\
    decode (combine (map fst (other_columns df tcol)) codes) (encoded_dict df tcol) =
      Ok (pattern_init (map (fun c => Sel (fst c) EQUAL (nth i (snd c) (VStr ""))) (other_columns df tcol))).
Proof.
  intros df tcol tval Hin. destruct (Hin) as (_ & _ & _ & _ & tc & Htc & _). exists (map (erow df tcol tc) (seq 0 (df_n df))). split; [apply encoded_is; auto|].
  split; [rewrite map_length, seq_length; auto|]. intros i Li. exists (fst (erow df tcol tc i)), (nth i tc (VStr "")).
  destruct (row_chrom_ok df tcol tval Hin tc i Li) as (O & E & F). pose proof (in_cat df tcol tval Hin) as (W & ND & _). pose proof Htc as It. apply MiningProofs.col_get_in in It; auto.
  split; [|split; [|split]].
  - rewrite nth_error_map. rewrite (nth_error_nth' (seq 0 (df_n df)) 0) by (rewrite seq_length; auto). rewrite seq_nth by auto. reflexivity.
  - unfold cell. rewrite Htc. apply nth_error_nth'. rewrite (W _ _ It). auto.
  - exact F.
  - replace (map fst (other_columns df tcol)) with (map fst (encoded_dict df tcol)) by (unfold encoded_dict; rewrite map_map; reflexivity).
    rewrite decode_sels by (auto; eapply dict_nodup; eauto). rewrite E. reflexivity.
Qed.
(** A chromosome denotes the rule with exactly the selectors of its genes different from 0; a row is counted for the chromosome iff it
    satisfies this rule. *)
Theorem C47_decoding : forall df tcol tval c, sdiga_input df tcol tval -> chrom_ok (encoded_dict df tcol) c -> exists X, decode c (encoded_dict df tcol) = Ok X /\ rule df tcol X /\
  (forall s, In s X <-> exists i k g vs v, nth_error c i = Some (k, g) /\ g <> 0 /\ nth_error (encoded_dict df tcol) i = Some (k, vs) /\ nth_error vs (g - 1) = Some v /\ s = Sel k EQUAL v) /\
  exists rows, encoded_rows df tcol = Ok rows /\ forall i r, nth_error rows i = Some r -> row_in c r = matches_all df X i.
Proof.
  intros df tcol tval c Hin H. destruct (Hin) as (_ & _ & _ & _ & tc & Htc & _). exists (pattern_init (sels c (encoded_dict df tcol))). split; [apply decode_sels; auto; eapply dict_nodup; eauto|].
  destruct (pat_facts df tcol tval Hin c H) as (P & R & _). split; auto. split.
  - intros s. split; intros I.
    + apply (Permutation_in _ (Permutation_sym P)) in I. apply sels_in in I; auto. destruct I as (i & k & g & vs & v & A & B & C & D & E). exists i, k, g, vs, v. auto.
    + apply (Permutation_in _ P). apply sels_in; auto. destruct I as (i & k & g & vs & v & A & B & C & D & E). exists i, k, g, vs, v. auto.
  - exists (map (erow df tcol tc) (seq 0 (df_n df))). split; [apply encoded_is; auto|]. intros i r N. assert (Li : i < df_n df) by (rewrite <- (seq_length (df_n df) 0), <- (map_length (erow df tcol tc)); apply nth_error_Some; congruence).
    rewrite nth_error_map, (nth_error_nth' (seq 0 (df_n df)) 0), seq_nth in N by (try rewrite seq_length; auto). cbn [option_map] in N. injection N as <-. apply (row_in_pat df tcol tval Hin); auto.
Qed.
(** Different chromosomes denote different rules. *)
Theorem C47_injective : forall df tcol tval c d, sdiga_input df tcol tval -> chrom_ok (encoded_dict df tcol) c -> chrom_ok (encoded_dict df tcol) d ->
  decode c (encoded_dict df tcol) = decode d (encoded_dict df tcol) -> c = d.
Proof.
  intros df tcol tval c d Hin Hc Hd E. rewrite !decode_sels in E by (auto; eapply dict_nodup; eauto). apply (pat_inj df tcol tval Hin c d); auto. congruence.
Qed.
(** Refuted without the bound of 65535 values: in every column with more values, one of them is encoded as an absent attribute. *)
Theorem C47_wrap_refuted : forall col, (forall x, In x col -> is_str x = true) -> (65536 <= Z.of_nat (length (distinct_values col)))%Z ->
  exists v, In v col /\ gene_code (group_values col) v = 0.
Proof.
  intros col H L. assert (Lg : (65536 <= Z.of_nat (length (group_values col)))%Z) by (unfold group_values; rewrite sort_by_length; exact L).
  destruct (nth_error (group_values col) (Z.to_nat 65535)) as [v|] eqn:N; [|apply nth_error_None in N; lia]. exists v.
  assert (HS : forall x, In x (group_values col) -> is_str x = true) by (intros x I; apply H, gv_in; auto).
  split; [apply gv_in; auto; eapply nth_error_In; eauto|]. unfold gene_code. rewrite (position_nth _ _ _ (gv_nodup col) HS N). rewrite Nat2Z.inj_add, Z2Nat.id by lia. reflexivity.
Qed.

(** * C48: the local search *)
(** It stops; the result is a generalization with at least the confidence and the positive rows of the start.  With the minimum
    confidence it is irreducible; otherwise it is the start, whose confidence is too low. *)
Theorem C48_local_search : forall cfg df tcol tval c rows, sdiga_input df tcol tval -> chrom_ok (encoded_dict df tcol) c -> encoded_rows df tcol = Ok rows ->
  let t := Sel tcol EQUAL (VStr tval) in let R := seq 0 (df_n df) in let dict := encoded_dict df tcol in
  exists b conf X Y, local_search cfg tval rows (pos_in df t R []) (neg_in df t R []) c = Ok (b, conf, pos_in df t R Y, neg_in df t R Y) /\
    decode c dict = Ok X /\ decode b dict = Ok Y /\ chrom_ok dict b /\ incl Y X /\ (confidence df t X <= confidence df t Y)%Q /\
    (b = c \/ pos_in df t R X < pos_in df t R Y) /\
    ((gc_min_confidence cfg <= conf)%Q /\ (conf == confidence df t Y)%Q /\ irreducible df t Y \/
     (conf < gc_min_confidence cfg)%Q /\ b = c /\ (confidence df t X < gc_min_confidence cfg)%Q).
Proof.
  intros cfg df tcol tval c rows Hin Hc Er. cbv zeta. destruct (Hin) as (_ & _ & _ & _ & tc & Htc & _). rewrite (encoded_is df tcol tc Htc) in Er. assert (rows = map (erow df tcol tc) (seq 0 (df_n df))) by congruence. subst rows.
  destruct (local_search_ok cfg df tcol tval Hin tc Htc c Hc) as (b & conf & E & Hb & Q). exists b, conf, (pattern_init (sels c (encoded_dict df tcol))), (pattern_init (sels b (encoded_dict df tcol))).
  split; [exact E|]. split; [apply decode_sels; auto; eapply dict_nodup; eauto|]. split; [apply decode_sels; auto; eapply dict_nodup; eauto|]. split; auto.
Qed.
(** A step removes the selector with the greatest gain of positive rows among those that can be removed without loss of confidence. *)
Theorem C48_greedy : forall df tcol tval c c' m rows X s, sdiga_input df tcol tval -> chrom_ok (encoded_dict df tcol) c -> encoded_rows df tcol = Ok rows ->
  let t := Sel tcol EQUAL (VStr tval) in let R := seq 0 (df_n df) in
  let TP := pos_in df t R [] in let FP := neg_in df t R [] in
  best_removal tval rows TP FP c (measure tval rows TP FP c) (seq 0 (length c)) None 0 = Some (c', m) ->
  decode c (encoded_dict df tcol) = Ok X -> In s X -> (confidence df t X <= confidence df t (set_remove X s))%Q ->
  exists s', In s' X /\ decode c' (encoded_dict df tcol) = Ok (set_remove X s') /\ (confidence df t X <= confidence df t (set_remove X s'))%Q /\
    pos_in df t R X < pos_in df t R (set_remove X s') /\ pos_in df t R (set_remove X s) <= pos_in df t R (set_remove X s').
Proof.
  intros df tcol tval c c' m rows X s Hin Hc Er. cbv zeta. intros Eb Ed Is Cs. destruct (Hin) as (_ & _ & _ & _ & tc & Htc & _). rewrite (encoded_is df tcol tc Htc) in Er.
  assert (rows = map (erow df tcol tc) (seq 0 (df_n df))) by congruence. subst rows. rewrite decode_sels in Ed by (auto; eapply dict_nodup; eauto). assert (X = pattern_init (sels c (encoded_dict df tcol))) by congruence. subst X.
  pose proof (best_removal_some df tcol tval tc c _ _ _ _ (Qle_refl 0) Eb) as [K|(i & Ii & Zi & Ei & (K1 & K2 & K3 & K4))]; [discriminate|].
  injection Ei as -> ->. destruct (gene_at c i Zi) as (k & g & N & Zg & Li). pose proof (set_gene_fine df tcol c i Hc Li) as H1.
  destruct (remove_pat df tcol tval Hin c i k g Hc N Zg) as (s' & Is' & _ & Ep). destruct (meas_spec df tcol tval Hin tc Htc c Hc) as (_ & _ & S1 & C1). destruct (meas_spec df tcol tval Hin tc Htc _ H1) as (_ & _ & S2 & C2).
  rewrite S1, S2 in K4. rewrite C1, C2 in K2. pose proof (rows_positive df tcol tval Hin) as RP. exists s'. rewrite Ep in *. split; auto. split; [rewrite decode_sels by (auto; eapply dict_nodup; eauto); rewrite Ep; auto|]. split; auto.
  assert (LT : pos_in df (Sel tcol EQUAL (VStr tval)) (seq 0 (df_n df)) (pattern_init (sels c (encoded_dict df tcol))) < pos_in df (Sel tcol EQUAL (VStr tval)) (seq 0 (df_n df)) (set_remove (pattern_init (sels c (encoded_dict df tcol))) s')).
  { destruct (le_lt_dec (pos_in df (Sel tcol EQUAL (VStr tval)) (seq 0 (df_n df)) (set_remove (pattern_init (sels c (encoded_dict df tcol))) s')) (pos_in df (Sel tcol EQUAL (VStr tval)) (seq 0 (df_n df)) (pattern_init (sels c (encoded_dict df tcol))))) as [A|A]; auto. apply (share_le _ _ (df_n df) RP) in A. lra. }
  split; auto. destruct (pat_gene df tcol tval Hin c s Hc Is) as (j & h & Nj & Zh & Ej). assert (Lj : j < length c) by (apply nth_error_Some; congruence). pose proof (set_gene_fine df tcol c j Hc Lj) as Hj.
  destruct (meas_spec df tcol tval Hin tc Htc _ Hj) as (_ & _ & S3 & C3). rewrite Ej in S3, C3.
  destruct (le_lt_dec (pos_in df (Sel tcol EQUAL (VStr tval)) (seq 0 (df_n df)) (set_remove (pattern_init (sels c (encoded_dict df tcol))) s)) (pos_in df (Sel tcol EQUAL (VStr tval)) (seq 0 (df_n df)) (pattern_init (sels c (encoded_dict df tcol))))) as [A|A]; [lia|].
  apply (share_le _ _ (df_n df) RP). rewrite <- S2, <- S3.
  apply (fun B => proj2 (best_removal_max df tcol tval tc c (seq 0 (length c)) None 0 _ (Qle_refl 0) B Eb) j).
  - discriminate.
  - apply in_seq. lia.
  - rewrite (nth_error_nth _ _ _ Nj). exact Zh.
  - split; [|split; [|split]].
    + rewrite S1, S3. apply share_le; auto. lia.
    + rewrite C1, C3. exact Cs.
    + rewrite C3. apply confidence_positive. lia.
    + rewrite S1, S3. assert (B : ~ (share (pos_in df (Sel tcol EQUAL (VStr tval)) (seq 0 (df_n df)) (set_remove (pattern_init (sels c (encoded_dict df tcol))) s)) (df_n df) <= share (pos_in df (Sel tcol EQUAL (VStr tval)) (seq 0 (df_n df)) (pattern_init (sels c (encoded_dict df tcol)))) (df_n df))%Q) by (rewrite share_le by auto; lia). lra.
Qed.

(** * C63: fit *)
(** Whatever the random numbers, fit stops (with at most one rule per chromosome) and each line reports, given the earlier ones, an
    irreducible rule with the minimum confidence and its exact counts in the dataset and in the rows not covered before ([lines_ok]). *)
Theorem C63_fit : forall cfg env st df tcol tval, sdiga_input df tcol tval -> sdiga_parameters cfg -> sorts (en_sort env) ->
  let t := Sel tcol EQUAL (VStr tval) in let R := seq 0 (df_n df) in
  exists st' lines, sdiga_fit cfg env st df tcol tval = Ok st' /\ lines_ok cfg df tcol tval lines /\
    dg_file st' = (if gc_write cfg then Some lines else None) /\ length lines <= chromosomes (encoded_dict df tcol) /\
    dg_selected st' = dg_selected st + length lines /\
    dg_unselected st' = dg_unselected st + S (length lines) * (2 * gc_generations cfg + gc_population cfg - 1) /\
    dg_TP st' = pos_in df t R [] /\ dg_FP st' = neg_in df t R [] /\
    let L := rows_left df (map line_desc lines) in dg_uTP st' = pos_in df t L [] /\ dg_uFP st' = neg_in df t L [] /\
    dg_dict st' = Some (encoded_dict df tcol).
Proof.
  intros cfg env st df tcol tval Hin Hp Hs. cbv zeta. destruct (Hin) as (_ & _ & _ & _ & tc & Htc & _).
  destruct (fit_ok cfg env df tcol tval Hin Hp Hs tc Htc st) as (st' & lines & E & L1 & L2 & ->). destruct Hp as (_ & G & _).
  eexists. exists lines. split; [exact E|]. split; auto. cbn [dg_file dg_selected dg_unselected dg_TP dg_FP dg_uTP dg_uFP dg_dict]. repeat (split; auto). f_equal. f_equal. lia.
Qed.
Lemma in_firstn : forall {A} (l : list A) b a x, a < b -> nth_error l a = Some x -> In x (firstn b l).
Proof.
  intros A l. induction l as [|y l IH]; intros b a x L N; [destruct a; discriminate|]. destruct b as [|b]; [lia|]. cbn [firstn]. destruct a as [|a]; cbn in N; [left; congruence|right; apply (IH b a); auto; lia].
Qed.
(** The rules are distinct; a later one never includes an earlier one. *)
Theorem C63_distinct : forall cfg df tcol tval lines, lines_ok cfg df tcol tval lines -> NoDup (map line_desc lines).
Proof.
  intros cfg df tcol tval lines H. apply NoDup_nth_error. intros i j Li E. rewrite !nth_error_map in E. rewrite map_length in Li.
  destruct (nth_error lines i) as [x|] eqn:Ni; [|apply nth_error_None in Ni; lia]. destruct (nth_error lines j) as [y|] eqn:Nj; [|discriminate]. cbn in E. injection E as E.
  assert (W : forall a b p q, a < b -> nth_error lines a = Some p -> nth_error lines b = Some q -> line_desc p = line_desc q -> False).
  { intros a b p q L Na Nb D. destruct (H b q Nb) as (_ & _ & _ & _ & K). apply (K (line_desc p)); [|rewrite D; apply incl_refl]. apply in_map. apply (in_firstn _ _ a); auto. }
  destruct (Nat.lt_trichotomy i j) as [L|[L|L]]; auto; exfalso; [eapply W; eauto|eapply (W j i y x); eauto].
Qed.
(** Errors. *)
Theorem C63_errors : forall cfg env st df tcol tval,
  ((exists a col v, In (a, col) (df_cols df) /\ In v col /\ is_str v = false) -> sdiga_fit cfg env st df tcol tval = Err DatasetAttributeTypeError) /\
  (categorical df -> col_get (df_cols df) tcol = None -> sdiga_fit cfg env st df tcol tval = Err KeyError) /\
  (categorical df -> forall col, col_get (df_cols df) tcol = Some col -> ~ In (VStr tval) col -> sdiga_fit cfg env st df tcol tval = Err ValueError).
Proof.
  intros cfg env st df tcol tval. assert (AN : categorical df -> all_nominal df = true).
  { intros (_ & _ & H). unfold all_nominal. apply forallb_forall. intros [a col] I. apply forallb_forall. intros v Iv. eapply H; eauto. }
  split; [|split].
  - intros (a & col & v & I & Iv & Z). unfold sdiga_fit. replace (all_nominal df) with false; auto. symmetry. apply Bool.not_true_is_false. intros K. unfold all_nominal in K.
    rewrite forallb_forall in K. specialize (K _ I). cbn in K. rewrite forallb_forall in K. rewrite (K v Iv) in Z. discriminate.
  - intros Hc N. unfold sdiga_fit. rewrite (AN Hc). cbn [negb]. unfold target_mask, df_col. rewrite N. reflexivity.
  - intros Hc col N Z. unfold sdiga_fit. rewrite (AN Hc). cbn [negb]. unfold target_mask, df_col. rewrite N. cbn [bind].
    replace (any_true (map (fun v => py_eq v (VStr tval)) col)) with false; auto. symmetry. apply Bool.not_true_is_false. intros K. unfold any_true in K. apply existsb_exists in K. destruct K as (b & Ib & ->).
    apply in_map_iff in Ib. destruct Ib as (v & E & Iv). destruct Hc as (W & ND & Hs). apply MiningProofs.col_get_in in N; auto. apply MiningProofs.py_eq_str in E; [|eapply Hs; eauto|reflexivity]. subst v. contradiction.
Qed.
(** Refuted for a population of one individual: there is no second parent. *)
Theorem C63_population_of_one_refuted : forall cfg env st df tcol tval, sdiga_input df tcol tval -> sorts (en_sort env) -> 1 <= gc_generations cfg -> gc_population cfg = 1 ->
  sdiga_fit cfg env st df tcol tval = Err IndexError.
Proof.
  intros cfg env st df tcol tval Hin Hs G P. destruct (Hin) as (Hc & _ & _ & _ & tc & Htc & It). unfold sdiga_fit.
  assert (AN : all_nominal df = true).
  { destruct Hc as (_ & _ & H). unfold all_nominal. apply forallb_forall. intros [a col] I. apply forallb_forall. intros v Iv. eapply H; eauto. }
  rewrite AN. cbn [negb]. unfold target_mask, df_col. rewrite Htc. cbn [bind].
  assert (AT : any_true (map (fun v => py_eq v (VStr tval)) tc) = true).
  { apply existsb_exists. exists true. split; auto. apply in_map_iff. exists (VStr tval). split; auto. apply py_eq_refl_v. }
  rewrite AT. cbn [negb]. rewrite (encoded_is df tcol tc Htc). cbn [bind main_loop sl_time]. unfold evolve. rewrite P. cbn [generate_population].
  match goal with |- context[random_chromosome env 0 ?d] => destruct (random_chromosome env 0 d) as [c t1] end. cbn [map]. destruct (gc_generations cfg) as [|g]; [lia|]. cbn [generations].
  match goal with |- context[en_sort env ?l] => destruct (Hs l) as [Pm _]; assert (L1 : length (en_sort env l) = 1) by (rewrite <- (Permutation_length Pm); reflexivity); destruct (en_sort env l) as [|x [|y r]]; try discriminate L1 end.
  reflexivity.
Qed.

(** * C64: the evolution *)
(** In a round, with any rows [L] left: the evolution keeps a best individual, and the local search does not lower its fitness; hence
    the candidate of the round is at least as good as every random individual the round started with. *)
Theorem C64_round : forall cfg env df tcol tval rows Xs time, sdiga_input df tcol tval -> sdiga_parameters cfg -> sorts (en_sort env) -> encoded_rows df tcol = Ok rows ->
  let t := Sel tcol EQUAL (VStr tval) in let R := seq 0 (df_n df) in let L := rows_left df Xs in let dict := encoded_dict df tcol in
  let fit := fitness cfg tval rows (map (fun i => nth i rows ([], VStr "")) L) (pos_in df t L []) (neg_in df t L []) in
  exists top r time' b conf tp fp X, evolve cfg env dict fit time = Ok (top :: r, time') /\
    local_search cfg tval rows (pos_in df t R []) (neg_in df t R []) (fst top) = Ok (b, conf, tp, fp) /\ decode b dict = Ok X /\
    forall c, In c (fst (generate_population env dict time (gc_population cfg))) -> exists Y, decode c dict = Ok Y /\ rule df tcol Y /\
      (fitness_in cfg df t L Y <= fitness_in cfg df t L X)%Q.
Proof.
  intros cfg env df tcol tval rows Xs time Hin Hp Hs Er. cbv zeta. destruct (Hin) as (_ & _ & _ & _ & tc & Htc & _). rewrite (encoded_is df tcol tc Htc) in Er. assert (rows = map (erow df tcol tc) (seq 0 (df_n df))) by congruence. subst rows.
  assert (EL : map (fun i => nth i (map (erow df tcol tc) (seq 0 (df_n df))) ([], VStr "")) (rows_left df Xs) = map (erow df tcol tc) (rows_left df Xs)).
  { apply map_ext_in. intros i I. apply rows_left_real in I. rewrite (nth_indep _ ([], VStr "") (erow df tcol tc 0)) by (rewrite map_length, seq_length; auto). rewrite map_nth, seq_nth; auto. }
  rewrite EL. destruct (round_ok cfg env df tcol tval Hin Hp Hs tc Htc Xs time) as (top & r & t' & b & conf & tp & fp & E1 & E2 & H1 & H2 & B).
  exists top, r, t', b, conf, tp, fp, (pattern_init (sels b (encoded_dict df tcol))). split; [exact E1|]. split; [exact E2|]. split; [apply decode_sels; auto; eapply dict_nodup; eauto|].
  intros c Ic. destruct (B c Ic) as (Hc & B1 & B2). exists (pattern_init (sels c (encoded_dict df tcol))). split; [apply decode_sels; auto; eapply dict_nodup; eauto|]. split; [apply (pat_facts df tcol tval Hin c Hc)|]. eapply Qle_trans; eauto.
Qed.
(** Refuted: that both children compete.  The new population consists of the old one without its last individual and the second child;
    the first child is always lost. *)
Theorem C64_first_child_refuted : forall env dict fit time pop pop' time', sorts (en_sort env) -> generation env dict fit time pop = Ok (pop', time') ->
  exists p1 p2 r c1 c2 t1 m1 m2 t2 t3, pop = p1 :: p2 :: r /\ crossover env time (fst p1) (fst p2) = Ok (c1, c2, t1) /\ mutation env dict t1 c1 = Ok (m1, t2) /\ mutation env dict t2 c2 = Ok (m2, t3) /\
    Permutation (removelast pop ++ [(m2, fit m2)]) pop'.
Proof.
  intros env dict fit time pop pop' time' Hs E. destruct pop as [|p1 [|p2 r]]; try discriminate. unfold generation in E. destruct (crossover env time (fst p1) (fst p2)) as [[[c1 c2] t1]|] eqn:Ec; [|discriminate]. cbn [bind] in E.
  destruct (mutation env dict t1 c1) as [[m1 t2]|] eqn:E1; [|discriminate]. cbn [bind fst snd] in E. destruct (mutation env dict t2 c2) as [[m2 t3]|] eqn:E2; [|discriminate]. cbn [bind fst snd] in E.
  assert (pop' = en_sort env (set_last (m2, fit m2) (set_last (m1, fit m1) (p1 :: p2 :: r)))) by congruence. subst pop'.
  exists p1, p2, r, c1, c2, t1, m1, m2, t2, t3. repeat (split; auto). unfold set_last at 2. unfold set_last. rewrite removelast_last. apply Hs.
Qed.

(** * Concrete cases *)
(** A sort, with random numbers from a simple generator. *)
Definition by_fitness (l : list individual) : list individual := sort_by (fun x y => negb (Qle_bool (snd x) (snd y))) l.
Notation desc := (fun x y : individual => (snd y <= snd x)%Q).
Lemma insert_desc : forall (x : individual) l, StronglySorted desc l -> StronglySorted desc (insert_by (fun x y => negb (Qle_bool (snd x) (snd y))) x l).
Proof.
  intros x l IH. induction IH as [|y l HS IH F]; cbn [insert_by]; [repeat constructor|]. destruct (negb (Qle_bool (snd y) (snd x))) eqn:E.
  - constructor; auto. apply Forall_forall. intros z Iz. assert (Iz' : In z (x :: l)). { clear -Iz. induction l as [|w l IHl]; cbn in *; auto. destruct (negb _); cbn in *; tauto. }
    rewrite Forall_forall in F. destruct Iz' as [<-|Iz']; auto. apply Bool.negb_true_iff in E. apply Qlt_le_weak, Qnot_le_lt. intros K. apply Qle_bool_iff in K. congruence.
  - apply Bool.negb_false_iff, Qle_bool_iff in E. constructor; [constructor; auto|]. constructor; auto. eapply Forall_impl; [|exact F]. intros z Hz. cbn in Hz. eapply Qle_trans; eauto.
Qed.
Lemma by_fitness_sorts : sorts by_fitness.
Proof.
  intros l. split; [apply sort_by_perm|]. assert (HS : StronglySorted desc (by_fitness l)) by (induction l as [|x l IH]; [constructor|apply insert_desc; exact IH]).
  intros i j x y L Ni Nj. revert i j L Ni Nj. induction HS as [|z l' HS IH F]; intros i j L Ni Nj; [destruct i; discriminate|]. destruct i as [|i].
  - cbn in Ni. injection Ni as ->. destruct j as [|j]; [lia|]. cbn in Nj. rewrite Forall_forall in F. apply F. eapply nth_error_In; eauto.
  - destruct j as [|j]; [lia|]. apply (IH i j); auto. lia.
Qed.
Definition lehmer (seed : nat) : environment := Env (fun t => Z.to_nat ((Z.of_nat (S t + seed) * 75 * (Z.of_nat (S t) * Z.of_nat (S t) + 74)) mod 65537 / 7)) by_fitness (fun _ => 0%Z).
Definition mild : sdiga_config := SGC 3 4 (1#2) (1#2) (1#2) true.
Lemma mild_ok : sdiga_parameters mild.
Proof. repeat split; cbn; try lia; try (unfold Qle; cbn; lia). Qed.
Lemma toy_input : sdiga_input toy "class" "p".
Proof.
  destruct toy_ok as (Hc & _ & _). split; auto. split; [cbn; lia|]. split; [intros col I; cbn in I; repeat destruct I as [I|I]; try discriminate; destruct I|]. split.
  - intros a col I. cbn in I. destruct I as [I|[I|[I|[]]]]; injection I as <- <-; cbn; lia.
  - eexists. split; [reflexivity|]. left; auto.
Qed.
Definition run (cfg : sdiga_config) (seed : nat) (df : dataframe) (tcol tval : string) : option (list sg_line) :=
  match sdiga_fit cfg (lehmer seed) sdiga_new df tcol tval with Ok st => dg_file st | Err _ => None end.
Example C47_nonvacuous : sdiga_input toy "class" "p" /\ encoded_rows toy "class" = Ok [([1; 1], VStr "p"); ([1; 1], VStr "p"); ([2; 1], VStr "n"); ([1; 2], VStr "n")] /\
  chrom_ok (encoded_dict toy "class") [("a", 2); ("b", 0)] /\ decode [("a", 2); ("b", 0)] (encoded_dict toy "class") = Ok [Sel "a" EQUAL (VStr "y")].
Proof. split; [apply toy_input|]. split; [reflexivity|]. split; [repeat constructor; cbn; lia|reflexivity]. Qed.
(** Both outcomes of the local search, and a step. *)
Example C48_nonvacuous : let rows := [([1; 1], VStr "p"); ([1; 1], VStr "p"); ([2; 1], VStr "n"); ([1; 2], VStr "n")] in
  local_search mild "p" rows 2 2 [("a", 1); ("b", 2)] = Ok ([("a", 1); ("b", 0)], (2 # 3)%Q, 2, 1) /\
  local_search (SGC 3 4 (1#2) (1#2) (3#4) true) "p" rows 2 2 [("a", 1); ("b", 2)] = Ok ([("a", 1); ("b", 2)], (2 # 3)%Q, 0, 1) /\
  pos_in toy (Sel "class" EQUAL (VStr "p")) (seq 0 4) [] = 2 /\ neg_in toy (Sel "class" EQUAL (VStr "p")) (seq 0 4) [] = 2 /\
  best_removal "p" rows 2 2 [("a", 1); ("b", 2)] (measure "p" rows 2 2 [("a", 1); ("b", 2)]) (seq 0 2) None 0 = Some ([("a", 1); ("b", 0)], measure "p" rows 2 2 [("a", 1); ("b", 0)]).
Proof. vm_compute. repeat split. Qed.

Example C63_nonvacuous : sdiga_input toy "class" "p" /\ sdiga_parameters mild /\ sorts (en_sort (lehmer 6)) /\
  exists st' lines, sdiga_fit mild (lehmer 6) sdiga_new toy "class" "p" = Ok st' /\ dg_file st' = Some lines /\ length lines = 4 /\ dg_unselected st' = 45 /\
    map line_desc lines = [[Sel "a" EQUAL (VStr "x"); Sel "b" EQUAL (VStr "u")]; [Sel "b" EQUAL (VStr "u")]; [Sel "a" EQUAL (VStr "x")]; []].
Proof. split; [apply toy_input|]. split; [apply mild_ok|]. split; [apply by_fitness_sorts|]. vm_compute. eexists. eexists. split; [reflexivity|]. repeat split. Qed.
(** Refuted: each reported rule covers a row that no earlier one covers. *)
Theorem C63_new_rows_refuted : exists cfg env st df tcol tval st' lines l, sdiga_input df tcol tval /\ sdiga_parameters cfg /\ sorts (en_sort env) /\
  sdiga_fit cfg env st df tcol tval = Ok st' /\ dg_file st' = Some lines /\ In l lines /\ gl_utp l = 0 /\ gl_ufp l = 0.
Proof.
  exists mild, (lehmer 6), sdiga_new, toy, "class", "p". destruct (sdiga_fit mild (lehmer 6) sdiga_new toy "class" "p") as [st'|] eqn:E; vm_compute in E; [|discriminate].
  injection E as <-. eexists. eexists. eexists. split; [apply toy_input|]. split; [apply mild_ok|]. split; [apply by_fitness_sorts|]. split; [reflexivity|]. split; [reflexivity|].
  split; [right; right; right; left; reflexivity|]. split; reflexivity.
Qed.
(** Refuted when an attribute is called 'fitness': the column is overwritten and the counts belong to other columns. *)
Definition odd_names : dataframe := DF 4
  [("fitness", [VStr "x"; VStr "x"; VStr "y"; VStr "x"]); ("b", [VStr "u"; VStr "u"; VStr "u"; VStr "v"]); ("c", [VStr "u"; VStr "v"; VStr "u"; VStr "v"]);
   ("class", [VStr "p"; VStr "p"; VStr "n"; VStr "n"])].
Theorem C63_fitness_attribute_refuted : exists st' lines l, sorts (en_sort (lehmer 5)) /\ categorical odd_names /\ sdiga_fit mild (lehmer 5) sdiga_new odd_names "class" "p" = Ok st' /\ dg_file st' = Some lines /\ In l lines /\
  gl_tp l = 2 /\ gl_fp l = 0 /\ pos_in odd_names (Sel "class" EQUAL (VStr "p")) (seq 0 4) (line_desc l) = 1 /\ neg_in odd_names (Sel "class" EQUAL (VStr "p")) (seq 0 4) (line_desc l) = 1.
Proof.
  destruct (sdiga_fit mild (lehmer 5) sdiga_new odd_names "class" "p") as [st'|] eqn:E; vm_compute in E; [|discriminate]. injection E as <-. eexists. eexists. eexists.
  split; [apply by_fitness_sorts|]. split.
  { split; [|split].
    - intros a c H. cbn in H. destruct H as [H|[H|[H|[H|[]]]]]; injection H as <- <-; reflexivity.
    - repeat constructor; cbn; intuition discriminate.
    - intros a c v H I. cbn in H. destruct H as [H|[H|[H|[H|[]]]]]; injection H as <- <-; cbn in I; repeat (destruct I as [<-|I]; [reflexivity|]); destruct I. }
  split; [reflexivity|]. split; [reflexivity|]. split; [left; reflexivity|]. repeat split.
Qed.
(** Refuted for a single attribute besides the target: a crossover raises. *)
Definition narrow : dataframe := DF 4
  [("a", [VStr "x"; VStr "x"; VStr "y"; VStr "x"]); ("class", [VStr "p"; VStr "p"; VStr "n"; VStr "n"])].
Theorem C63_single_attribute_refuted : exists env, sorts (en_sort env) /\ categorical narrow /\ sdiga_parameters mild /\ sdiga_fit mild env sdiga_new narrow "class" "p" = Err ValueError.
Proof.
  exists (lehmer 0). split; [apply by_fitness_sorts|]. split.
  { split; [|split].
    - intros a c H. cbn in H. destruct H as [H|[H|[]]]; injection H as <- <-; reflexivity.
    - repeat constructor; cbn; intuition discriminate.
    - intros a c v H I. cbn in H. destruct H as [H|[H|[]]]; injection H as <- <-; cbn in I; repeat (destruct I as [<-|I]; [reflexivity|]); destruct I. }
  split; [apply mild_ok|]. vm_compute. reflexivity.
Qed.
(** Refuted: fitting again gives the same counters. *)
Theorem C34_sdiga_refuted : forall cfg env st st' df tcol tval, sdiga_input df tcol tval -> sdiga_parameters cfg -> sorts (en_sort env) ->
  sdiga_fit cfg env st df tcol tval = Ok st' -> dg_unselected st < dg_unselected st'.
Proof.
  intros cfg env st st' df tcol tval Hin Hp Hs E. destruct (C63_fit cfg env st df tcol tval Hin Hp Hs) as (s & lines & E' & _ & _ & _ & _ & U & _). rewrite E in E'. injection E' as <-. destruct Hp as (G & P & _). rewrite U. nia.
Qed.
Example C64_nonvacuous : let dict := encoded_dict toy "class" in
  fst (generate_population (lehmer 6) dict 0 4) <> [] /\ exists pop t, generation (lehmer 6) dict (fun c => nQ (active c)) 8 (map (fun c => (c, nQ (active c))) (fst (generate_population (lehmer 6) dict 0 4))) = Ok (pop, t) /\ length pop = 4.
Proof. split; [vm_compute; discriminate|]. vm_compute. eexists. eexists. split; reflexivity. Qed.
Print Assumptions C47_round_trip. Print Assumptions C47_decoding. Print Assumptions C47_injective. Print Assumptions C47_wrap_refuted. Print Assumptions C48_local_search. Print Assumptions C48_greedy.
Print Assumptions C63_fit. Print Assumptions C63_distinct. Print Assumptions C63_errors. Print Assumptions C63_population_of_one_refuted. Print Assumptions C63_new_rows_refuted. Print Assumptions C63_fitness_attribute_refuted.
Print Assumptions C63_single_attribute_refuted. Print Assumptions C64_round. Print Assumptions C64_first_child_refuted. Print Assumptions C34_sdiga_refuted.
