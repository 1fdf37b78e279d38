(** C35-C38, C55 and the part of C34 about BSD, CBSD and CPBSD. *)
From Verif Require Export BSDModel BSDProofs.
From Verif Require Import QualityModel QualitySpec Properties_Quality OrderFacts MiningProofs Properties_SDMap Properties_SDMapStar Properties_VLSD.
From Coq Require Import Lra Lqa.
Open Scope string_scope.
Open Scope list_scope.
Open Scope Z_scope.

(** * Specification *)
(** What fit is called with: a dataset of texts with the target column, a total preorder on
    the qualities, num_subgroups >= 1, and qualities that are not below the constant -99999
    of the initial element. *)
Definition bsd_input {V} (c : bsd_config V) (df : dataframe) (tcol tval : string) : Prop :=
  categorical df /\ distinct_texts df tcol /\ has_column df tcol /\ strict_weak_order (bc_lt c) /\ 1 <= bc_num c /\
  (forall X q, candidate df tcol X -> quality (bc_measure c) df tcol tval X = Ok q -> bc_lt c q (bc_dummy c) = false).
(** The stored element of a description: which rows it matches (first the rows with the target,
    then the others), how many, and the values of the two measures. *)
Definition true_entry {V} (c : bsd_config V) (df : dataframe) (tcol tval : string) (e : bsd_entry V) : Prop :=
  let t := Sel tcol EQUAL (VStr tval) in let X := e_pattern e in
  candidate df tcol X /\
  e_bits e = map (matches_all df X) (pos_rows df t [] ++ neg_rows df t []) /\
  e_tp e = Z.of_nat (length (pos_rows df t X)) /\ e_fp e = Z.of_nat (length (neg_rows df t X)) /\
  quality (bc_measure c) df tcol tval X = Ok (e_quality e) /\ quality (bc_oe c) df tcol tval X = Ok (e_oe e).
(** The list of best subgroups at some point: after the description [X] was handled, or at the end. *)
Definition best_list {V} (st : bsd_state V) (k : list (bsd_entry V)) : Prop := k = bs_k st \/ exists X, In (X, k) (bs_log st).
Definition sorted_by_quality {V} (c : bsd_config V) (k : list (bsd_entry V)) : Prop :=
  forall i j x y, (i < j)%nat -> nth_error k i = Some x -> nth_error k j = Some y -> bc_lt c (e_quality y) (e_quality x) = false.
(** The subgroup [X] is irrelevant because of [Y]: [Y] has all its positive rows and no other negative row. *)
Definition irrelevant_by (df : dataframe) (t : selector) (X Y : list selector) : Prop :=
  incl (pos_rows df t X) (pos_rows df t Y) /\ incl (neg_rows df t Y) (neg_rows df t X).
Definition same_rows (l m : list nat) : Prop := incl l m /\ incl m l.
Definition rows_of (df : dataframe) (X : list selector) : list nat := filter (matches_all df X) (seq 0 (df_n df)).

Lemma SS_nth : forall {A} (R : A -> A -> Prop) l, StronglySorted R l -> forall i j x y, (i < j)%nat -> nth_error l i = Some x -> nth_error l j = Some y -> R x y.
Proof.
  intros A R l F. induction F as [|a l F IH Fa]; intros [|i] [|j] x y Hij Hi Hj; cbn [nth_error] in *; try discriminate; try lia.
  - injection Hi as ->. rewrite Forall_forall in Fa. apply Fa. eapply nth_error_In; eauto.
  - apply (IH i j); auto. lia.
Qed.
Section Thms.
  Context {V : Type}.
  Variable c : bsd_config V.
  Variable df : dataframe.
  Variables tcol tval : string.
  Hypothesis HB : bsd_input c df tcol tval.
  Let t := Sel tcol EQUAL (VStr tval).
  Lemma fit_ok : exists mask, target_mask df tcol (VStr tval) = Ok mask /\ fit_result c df tcol tval mask (bsd_fit c (bsd_new c) df tcol tval).
  Proof.
    destruct HB as (H1 & H2 & H3 & H4 & H5 & H6). destruct (mask_spec df tcol tval H1 H3) as (mask & Hm & _). exists mask. split; auto.
    apply fit_spec; auto.
  Qed.
  Lemma pos_within : forall X Y, within df (prow df tcol tval) X Y = true <-> incl (pos_rows df t X) (pos_rows df t Y).
  Proof.
    intros X Y. rewrite within_spec. unfold prow, incl, pos_rows. fold t. split.
    - intros H i Ii. apply filter_In in Ii. destruct Ii as [Ii E]. apply andb_true_iff in E. apply filter_In. split; auto. apply andb_true_iff. split; [tauto|].
      apply H; [|tauto]. apply filter_In. split; auto. apply andb_true_iff. split; [tauto|reflexivity].
    - intros H i Ii M. apply filter_In in Ii. destruct Ii as [Ii E]. apply andb_true_iff in E. assert (I : In i (filter (fun i => row_matchesb df i t && matches_all df Y i) (seq 0 (df_n df)))).
      { apply H, filter_In. split; auto. apply andb_true_iff. tauto. } apply filter_In in I. destruct I as [_ I]. apply andb_true_iff in I. tauto.
  Qed.
  Lemma neg_within : forall X Y, within df (nrow df tcol tval) X Y = true <-> incl (neg_rows df t X) (neg_rows df t Y).
  Proof.
    intros X Y. rewrite within_spec. unfold nrow, incl, neg_rows. fold t. split.
    - intros H i Ii. apply filter_In in Ii. destruct Ii as [Ii E]. apply andb_true_iff in E. apply filter_In. split; auto. apply andb_true_iff. split; [tauto|].
      apply H; [|tauto]. apply filter_In. split; auto. apply andb_true_iff. split; [tauto|reflexivity].
    - intros H i Ii M. apply filter_In in Ii. destruct Ii as [Ii E]. apply andb_true_iff in E. assert (I : In i (filter (fun i => negb (row_matchesb df i t) && matches_all df Y i) (seq 0 (df_n df)))).
      { apply H, filter_In. split; auto. apply andb_true_iff. tauto. } apply filter_In in I. destruct I as [_ I]. apply andb_true_iff in I. tauto.
  Qed.
  Lemma all_within : forall X Y, within df (prow df tcol tval ++ nrow df tcol tval) X Y = true <-> incl (rows_of df X) (rows_of df Y).
  Proof.
    intros X Y. assert (R : forall i, In i (prow df tcol tval ++ nrow df tcol tval) <-> In i (seq 0 (df_n df))).
    { intros i. unfold prow, nrow, pos_rows, neg_rows. rewrite in_app_iff, !filter_In. cbn [matches_all forallb]. rewrite !andb_true_r. destruct (row_matchesb df i _); cbn [negb]; intuition congruence. }
    rewrite within_spec. unfold incl, rows_of. split.
    - intros H i Ii. apply filter_In in Ii. destruct Ii as [Ii E]. apply filter_In. split; auto. apply H; auto. apply R; auto.
    - intros H i Ii M. assert (I : In i (filter (matches_all df Y) (seq 0 (df_n df)))) by (apply H, filter_In; split; auto; apply R; auto). apply filter_In in I. tauto.
  Qed.
  Lemma lists_good : forall st k, bsd_fit c (bsd_new c) df tcol tval = Ok st -> best_list st k -> exists mask, target_mask df tcol (VStr tval) = Ok mask /\ kgood c df tcol tval mask k.
  Proof.
    intros st k E B. destruct fit_ok as (mask & Hm & F). rewrite E in F. exists mask. split; auto. destruct F as ((I1 & I2 & I3 & I4 & I5 & I6) & _).
    destruct B as [->|[X IX]]; auto. apply (I6 X); auto.
  Qed.
  Lemma ok_true : forall mask e, entry_ok c df tcol tval mask e -> true_entry c df tcol tval e.
  Proof.
    intros mask e (A1 & A2 & A3 & A4 & A5 & A6 & A7). split; auto. split; [|split; auto]. rewrite A3. unfold bits_of. rewrite map_app. reflexivity.
  Qed.
  Lemma best_lists : forall st k, bsd_fit c (bsd_new c) df tcol tval = Ok st -> best_list st k ->
    k = [dummy_entry c] \/
    (1 <= Z.of_nat (length k) <= bc_num c /\ sorted_by_quality c k /\ NoDup (map e_pattern k) /\ Forall (true_entry c df tcol tval) k).
  Proof.
    intros st k E B. destruct (lists_good st k E B) as (mask & Hm & [->|(K1 & K2 & K3 & K4 & K5 & K6)]); auto. right. split; [|split; [|split; auto]].
    - split; auto. destruct k; [congruence|cbn [length]; lia].
    - unfold sorted_by_quality. intros i j x y Hij Hi Hj. apply (SS_nth _ k K3 i j x y Hij Hi Hj).
    - eapply Forall_impl; [|exact K5]. intros e. apply ok_true.
  Qed.
  Lemma no_dummy : forall st k i j x y, bsd_fit c (bsd_new c) df tcol tval = Ok st -> best_list st k -> nth_error k i = Some x -> nth_error k j = Some y -> i <> j ->
    exists mask, kinv c df tcol tval mask k /\ rel c df tcol tval x y.
  Proof.
    intros st k i j x y E B Hi Hj N. destruct (lists_good st k E B) as (mask & Hm & [->|K]).
    - destruct i as [|[|i]], j as [|[|j]]; cbn in *; congruence.
    - exists mask. split; auto. destruct K as (_ & _ & _ & _ & _ & K6). apply (proj1 (FOP_in _ k (rel_sym c df tcol tval)) K6 i j); auto.
  Qed.
End Thms.

(** * C35 *)
(** At every point of the search the list of best subgroups is the initial element alone, or
    holds between 1 and num_subgroups distinct descriptions of the dataset in order of quality,
    each with its own rows, counts and values. *)
Theorem C35_best_list : forall {V} (c : bsd_config V) df tcol tval st k, bsd_input c df tcol tval ->
  bsd_fit c (bsd_new c) df tcol tval = Ok st -> best_list st k ->
  k = [dummy_entry c] \/
  (1 <= Z.of_nat (length k) <= bc_num c /\ sorted_by_quality c k /\ NoDup (map e_pattern k) /\ Forall (true_entry c df tcol tval) k).
Proof. intros V c df tcol tval st k HB. apply best_lists; auto. Qed.
Print Assumptions C35_best_list.
(** The output file and the counter of selected subgroups: the final list. *)
Theorem C35_output : forall {V} (c : bsd_config V) df tcol tval st, bsd_input c df tcol tval -> bc_write c = true ->
  (forall X q, candidate df tcol X -> quality (bc_measure c) df tcol tval X = Ok q -> bc_lt c (bc_dummy c) q = true) ->
  bsd_fit c (bsd_new c) df tcol tval = Ok st ->
  exists lines, bs_file st = Some lines /\ bs_selected st = length lines /\
    ((bs_k st = [dummy_entry c] /\ lines = []) \/
     lines = map (fun e => line_of df tcol tval (e_pattern e) (e_quality e)) (bs_k st)).
Proof.
  intros V c df tcol tval st HB Hw Hd E. destruct (fit_ok c df tcol tval HB) as (mask & Hm & F). rewrite E in F. destruct F as (HI & _ & (e0 & k & Ek & Es) & Hf).
  exists (bsd_lines c tcol tval st). split; auto.
  destruct HI as (I1 & I2 & I3 & _). destruct HB as (_ & _ & _ & (W1 & W2 & W3) & _ & _). unfold bsd_lines.
  destruct I1 as [Ed|(K1 & K2 & K3 & K4 & K5 & K6)].
  - assert (Ev : value_eq c (bc_dummy c) (bc_dummy c) = true) by (unfold value_eq; rewrite W1; reflexivity).
    rewrite Es. rewrite Ed in *. injection Ek as <- <-. cbn [filter dummy_entry e_quality]. rewrite Ev. cbn [negb map length]. split; auto.
  - assert (Hv : forall e, In e (bs_k st) -> value_eq c (e_quality e) (bc_dummy c) = false).
    { intros e Ie. rewrite Forall_forall in K5. destruct (K5 e Ie) as (A1 & _ & _ & _ & _ & A6 & _). unfold value_eq. rewrite (Hd _ _ A1 A6). apply andb_false_r. }
    assert (Ef : filter (fun e => negb (value_eq c (e_quality e) (bc_dummy c))) (bs_k st) = bs_k st).
    { clear -Hv. induction (bs_k st) as [|x l IH]; cbn [filter]; auto. rewrite (Hv x) by (left; auto). cbn [negb]. f_equal. apply IH. intros e Ie. apply Hv. right; auto. }
    rewrite Ef. split.
    + rewrite map_length, Es, Ek. cbn [length]. rewrite (Hv e0); auto. rewrite Ek. left; auto.
    + right. apply map_ext_in. intros e Ie. rewrite Forall_forall in K5. destruct (K5 e Ie) as (A1 & _ & _ & A4 & A5 & _). rewrite I2, I3, A4, A5. reflexivity.
Qed.
Print Assumptions C35_output.

(** * C36 *)
(** Every description that is evaluated has at most max(0, max_depth) + 1 selectors. *)
Theorem C36_depth : forall {V} (c : bsd_config V) df tcol tval st, bsd_input c df tcol tval ->
  bsd_fit c (bsd_new c) df tcol tval = Ok st ->
  (forall X k, In (X, k) (bs_log st) -> 1 <= Z.of_nat (length X) <= Z.max 0 (bc_max_depth c) + 1) /\
  (forall e, In e (bs_k st) -> Z.of_nat (length (e_pattern e)) <= Z.max 0 (bc_max_depth c) + 1).
Proof.
  intros V c df tcol tval st HB E. destruct (fit_ok c df tcol tval HB) as (mask & Hm & F). rewrite E in F. destruct F as (HI & FV & _).
  assert (A : forall X, In X (visited st) -> 1 <= Z.of_nat (length X) <= Z.max 0 (bc_max_depth c) + 1).
  { intros X I. rewrite Forall_forall in FV. destruct (FV X I) as ((D & _) & _ & DP). unfold deep in DP. destruct D as (D & _). destruct X; [congruence|]. cbn [length] in *. lia. }
  split.
  - intros X k I. apply A. unfold visited. apply (in_map fst) in I. exact I.
  - intros e I. destruct HI as (_ & _ & _ & _ & I5 & _). destruct (I5 e I) as [->|I']; [cbn; lia|]. apply A; auto.
Qed.
Print Assumptions C36_depth.

(** * C37 *)
(** BSD never stores a subgroup next to one that makes it irrelevant. *)
Theorem C37_bsd : forall {V} (c : bsd_config V) df tcol tval st k i j x y, bsd_input c df tcol tval -> bc_class c = BSD ->
  bsd_fit c (bsd_new c) df tcol tval = Ok st -> best_list st k -> nth_error k i = Some x -> nth_error k j = Some y -> i <> j ->
  ~ irrelevant_by df (Sel tcol EQUAL (VStr tval)) (e_pattern x) (e_pattern y).
Proof.
  intros V c df tcol tval st k i j x y HB Hc E B Hi Hj N [H1 H2]. destruct (no_dummy c df tcol tval HB st k i j x y E B Hi Hj N) as (mask & _ & R).
  unfold rel in R. rewrite Hc in R. destruct R as [R _]. unfold dominated in R. rewrite (proj2 (pos_within df tcol tval _ _) H1), (proj2 (neg_within df tcol tval _ _) H2) in R. discriminate.
Qed.
Print Assumptions C37_bsd.
(** CBSD never stores two subgroups of the same quality with the same rows. *)
Theorem C37_cbsd : forall {V} (c : bsd_config V) df tcol tval st k i j x y, bsd_input c df tcol tval -> bc_class c = CBSD ->
  bsd_fit c (bsd_new c) df tcol tval = Ok st -> best_list st k -> nth_error k i = Some x -> nth_error k j = Some y -> i <> j ->
  value_eq c (e_quality x) (e_quality y) = true -> ~ same_rows (rows_of df (e_pattern x)) (rows_of df (e_pattern y)).
Proof.
  intros V c df tcol tval st k i j x y HB Hc E B Hi Hj N Ev [H1 H2]. destruct (no_dummy c df tcol tval HB st k i j x y E B Hi Hj N) as (mask & _ & R).
  unfold rel, crow in R. rewrite Hc in R. specialize (R Ev). rewrite (proj2 (all_within df tcol tval _ _) H1), (proj2 (all_within df tcol tval _ _) H2) in R. discriminate.
Qed.
Print Assumptions C37_cbsd.
(** CPBSD never stores two subgroups of the same quality with the same positive rows. *)
Theorem C37_cpbsd : forall {V} (c : bsd_config V) df tcol tval st k i j x y, bsd_input c df tcol tval -> bc_class c = CPBSD ->
  bsd_fit c (bsd_new c) df tcol tval = Ok st -> best_list st k -> nth_error k i = Some x -> nth_error k j = Some y -> i <> j ->
  value_eq c (e_quality x) (e_quality y) = true ->
  ~ same_rows (pos_rows df (Sel tcol EQUAL (VStr tval)) (e_pattern x)) (pos_rows df (Sel tcol EQUAL (VStr tval)) (e_pattern y)).
Proof.
  intros V c df tcol tval st k i j x y HB Hc E B Hi Hj N Ev [H1 H2]. destruct (no_dummy c df tcol tval HB st k i j x y E B Hi Hj N) as (mask & _ & R).
  unfold rel, crow in R. rewrite Hc in R. specialize (R Ev). rewrite (proj2 (pos_within df tcol tval _ _) H1), (proj2 (pos_within df tcol tval _ _) H2) in R. discriminate.
Qed.
Print Assumptions C37_cpbsd.

(** * C38 *)
(** The only reasons why fit raises: a measure raises or returns something that is not a
    float, or the class is BSD and the dataset has positive rows only. *)
Theorem C38_errors : forall {V} (c : bsd_config V) df tcol tval e, bsd_input c df tcol tval ->
  bsd_fit c (bsd_new c) df tcol tval = Err e ->
  (exists X, candidate df tcol X /\ (quality (bc_measure c) df tcol tval X = Err e \/ quality (bc_oe c) df tcol tval X = Err e)) \/
  (e = TypeError /\ exists X q, candidate df tcol X /\ quality (bc_measure c) df tcol tval X = Ok q /\ bc_is_float c q = false) \/
  (e = TypeError /\ bc_class c = BSD /\ FP_of df tcol tval = 0 /\ TP_of df tcol tval <> 0).
Proof.
  intros V c df tcol tval e HB E. destruct (fit_ok c df tcol tval HB) as (mask & Hm & F). rewrite E in F.
  destruct F as [H|[H|(H1 & H2 & H3 & H4)]]; auto. right. right. split; auto. split; auto. rewrite FP_length, TP_length, H3. split; auto.
  destruct (prow df tcol tval); [congruence|cbn [length]; lia].
Qed.
Print Assumptions C38_errors.
Theorem C38_accepts : forall {V} (c : bsd_config V) df tcol tval, bsd_input c df tcol tval ->
  (forall X, candidate df tcol X -> exists q o, quality (bc_measure c) df tcol tval X = Ok q /\ bc_is_float c q = true /\ quality (bc_oe c) df tcol tval X = Ok o) ->
  (bc_class c = BSD -> FP_of df tcol tval <> 0 \/ TP_of df tcol tval = 0) ->
  exists st, bsd_fit c (bsd_new c) df tcol tval = Ok st.
Proof.
  intros V c df tcol tval HB Hm Hc. destruct (bsd_fit c (bsd_new c) df tcol tval) as [st|e] eqn:E; [exists st; auto|]. exfalso.
  destruct (C38_errors c df tcol tval e HB E) as [(X & K & H)|[(_ & X & q & K & H & H')|(_ & H1 & H2 & H3)]].
  - destruct (Hm X K) as (q & o & A & _ & B). destruct H; congruence.
  - destruct (Hm X K) as (q' & o & A & B & _). congruence.
  - destruct (Hc H1); congruence.
Qed.
Print Assumptions C38_accepts.

(** * WRAcc: the hypotheses hold for every dataset *)
Definition wracc_config (cl : bsd_class) (ms num depth : Z) : bsd_config Q :=
  BC cl (on_counts WRAcc) (on_counts WRAccOptimisticEstimate1) qlt (-99999 # 1) (fun _ => true) ms num depth true.
Lemma qdiv_ok : forall a b, (0 < b)%Q -> qdiv a b = Ok (a / b)%Q.
Proof. intros a b H. unfold qdiv. destruct (Qeq_bool b 0) eqn:E; auto. apply Qeq_bool_iff in E. lra. Qed.
Lemma wracc_ok : forall tp fp TP FP, 1 <= tp + fp -> 0 <= tp <= TP -> 0 <= fp <= FP ->
  exists q o, on_counts WRAcc tp fp TP FP = Ok q /\ on_counts WRAccOptimisticEstimate1 tp fp TP FP = Ok o.
Proof.
  intros tp fp TP FP H1 H2 H3. assert (A : (0 < inject_Z tp + inject_Z fp)%Q) by (rewrite <- inject_Z_plus; change 0%Q with (inject_Z 0); rewrite <- Zlt_Qlt; lia).
  assert (B : (0 < inject_Z TP + inject_Z FP)%Q) by (rewrite <- inject_Z_plus; change 0%Q with (inject_Z 0); rewrite <- Zlt_Qlt; lia).
  unfold on_counts. cbn [compute wracc_m wracc_oe1_m table QualityModel.pget QualityModel.lookup String.eqb Ascii.eqb Bool.eqb bind].
  rewrite !(qdiv_ok _ _ B), !(qdiv_ok _ _ A). cbn [bind]. rewrite ?(qdiv_ok _ _ B), ?(qdiv_ok _ _ A). cbn [bind]. eauto.
Qed.
Lemma wracc_input : forall cl ms num depth df tcol tval, categorical df -> distinct_texts df tcol -> has_column df tcol -> 1 <= num ->
  bsd_input (wracc_config cl ms num depth) df tcol tval.
Proof.
  intros cl ms num depth df tcol tval H1 H2 H3 H4. split; auto. split; auto. split; auto. split; [apply qlt_weak|]. split; auto.
  intros X q K E. cbn [wracc_config bc_lt bc_dummy]. apply qlt_false. cbn [wracc_config bc_measure] in E.
  destruct (candidate_counts df tcol tval X K) as (A1 & A2 & A3). set (t := Sel tcol EQUAL (VStr tval)) in *.
  assert (D : describes (table (inject_Z (tp_of df t X)) (inject_Z (fp_of df t X)) (inject_Z (TP_of df tcol tval)) (inject_Z (FP_of df tcol tval)))
    (inject_Z (tp_of df t X)) (inject_Z (fp_of df t X)) (inject_Z (TP_of df tcol tval)) (inject_Z (FP_of df tcol tval))) by (repeat split; reflexivity).
  assert (Cs : consistent (inject_Z (tp_of df t X)) (inject_Z (fp_of df t X)) (inject_Z (TP_of df tcol tval)) (inject_Z (FP_of df tcol tval))).
  { unfold consistent. change 0%Q with (inject_Z 0). rewrite <- ?inject_Z_plus, <- ?Zle_Qle, <- ?Zlt_Qlt. lia. }
  destruct (C14_ranges WRAcc _ _ _ _ _ q D Cs (fun H => ltac:(discriminate)) E) as [Lo _]. cbn [lower] in Lo. lra.
Qed.
(** CBSD and CPBSD with WRAcc accept every dataset of texts, BSD those with a negative row or without positive rows. *)
Theorem C38_wracc : forall cl ms num depth df tcol tval, categorical df -> distinct_texts df tcol -> has_column df tcol -> 1 <= num ->
  (cl = BSD -> FP_of df tcol tval <> 0 \/ TP_of df tcol tval = 0) ->
  exists st, bsd_fit (wracc_config cl ms num depth) (bsd_new (wracc_config cl ms num depth)) df tcol tval = Ok st.
Proof.
  intros cl ms num depth df tcol tval H1 H2 H3 H4 H5. apply C38_accepts; auto using wracc_input.
  intros X K. destruct (candidate_counts df tcol tval X K) as (A1 & A2 & A3). destruct (wracc_ok _ _ _ _ A1 A2 A3) as (q & o & B1 & B2).
  exists q, o. cbn [wracc_config bc_measure bc_oe bc_is_float]. auto.
Qed.
Print Assumptions C38_wracc.

(** * Concrete cases *)
Definition wfit (cl : bsd_class) (ms num depth : Z) (df : dataframe) : res (bsd_state Q) :=
  bsd_fit (wracc_config cl ms num depth) (bsd_new (wracc_config cl ms num depth)) df "class" "p".
Definition brief {V} (r : res (bsd_state V)) : res (list (pattern * Z * Z)) :=
  do st <- r; Ok (map (fun e => (e_pattern e, e_tp e, e_fp e)) (bs_k st)).
Definition is (a v : string) : selector := Sel a EQUAL (VStr v).
Lemma toy_input : forall cl ms num depth, 1 <= num -> bsd_input (wracc_config cl ms num depth) toy "class" "p".
Proof. intros. destruct toy_ok as (H1 & H2 & H3). apply wracc_input; auto. apply no_quotes_texts; [exact H1|exact toy_no_quotes]. Qed.
Example C35_nonvacuous : bsd_input (wracc_config CBSD 0 3 1) toy "class" "p" /\
  brief (wfit CBSD 0 3 1 toy) = Ok [([is "a" "x"], 2, 1); ([is "b" "u"], 2, 1); ([is "a" "x"; is "b" "u"], 2, 0)].
Proof. split; [apply toy_input; lia|vm_compute; reflexivity]. Qed.
Example C37_nonvacuous : bsd_input (wracc_config BSD 0 3 1) toy "class" "p" /\ brief (wfit BSD 0 3 1 toy) = Ok [([is "a" "x"; is "b" "u"], 2, 0)].
Proof. split; [apply toy_input; lia|vm_compute; reflexivity]. Qed.
(** The initial element is not put back: a second fit, for another target, keeps the subgroups of the first. *)
Theorem C35_second_fit_counterexample : exists st1 st2 e, let c := wracc_config BSD 0 3 1 in
  bsd_fit c (bsd_new c) toy "class" "p" = Ok st1 /\ bsd_fit c st1 toy "class" "n" = Ok st2 /\
  bs_k st2 = [e] /\ e_pattern e = [is "a" "x"; is "b" "u"] /\ e_tp e = 2 /\ tp_of toy (is "class" "n") (e_pattern e) = 0.
Proof.
  eexists _, _, _. cbn zeta. split; [vm_compute; reflexivity|]. split; [vm_compute; reflexivity|]. split; [vm_compute; reflexivity|]. repeat split; vm_compute; reflexivity.
Qed.
(** num_subgroups = 0 is accepted by the constructor, and fit raises IndexError. *)
Theorem C35_zero_subgroups_counterexample : wfit BSD 0 0 1 toy = Err IndexError /\ wfit CBSD 0 0 1 toy = Err IndexError.
Proof. split; vm_compute; reflexivity. Qed.
Print Assumptions C35_second_fit_counterexample. Print Assumptions C35_zero_subgroups_counterexample.
(** With max_depth = 1 a description with two selectors is reported, with max_depth = 0 one with one selector. *)
Theorem C36_counterexample : brief (wfit BSD 0 3 1 toy) = Ok [([is "a" "x"; is "b" "u"], 2, 0)] /\
  brief (wfit CBSD 0 1 0 toy) = Ok [([is "b" "u"], 2, 1)].
Proof. split; vm_compute; reflexivity. Qed.
Print Assumptions C36_counterexample.
Definition measure_config (m : measure) (cl : bsd_class) (num depth : Z) : bsd_config Q :=
  BC cl (on_counts m) (on_counts m) qlt (-99999 # 1) (fun _ => true) 0 num depth true.
(** The rows of c = 1 are the rows of b = 1 but one, the qualities are equal, and both are stored. *)
Definition nested : dataframe := rows3 [("1","1","1","p"); ("1","1","1","p"); ("1","1","1","p"); ("1","0","0","n"); ("0","1","0","n")].
Theorem C37_cbsd_counterexample : exists st e x y, let c := measure_config Support CBSD 10 0 in
  bsd_fit c (bsd_new c) nested "class" "p" = Ok st /\ bs_k st = [e; x; y] /\ e_pattern x = [is "b" "1"] /\ e_pattern y = [is "c" "1"] /\
  (e_quality x == e_quality y)%Q /\ rows_of nested (e_pattern x) = [0; 1; 2; 4]%nat /\ rows_of nested (e_pattern y) = [0; 1; 2]%nat.
Proof. eexists _, _, _, _. cbn zeta. split; [vm_compute; reflexivity|]. split; [vm_compute; reflexivity|]. repeat split; vm_compute; reflexivity. Qed.
Definition nested_positives : dataframe := rows3 [("1","1","1","p"); ("1","1","1","p"); ("1","0","0","p"); ("0","1","0","p"); ("0","0","1","n"); ("0","0","0","n"); ("0","0","0","n")].
Theorem C37_cpbsd_counterexample : exists st x y l, let c := measure_config Coverage CPBSD 10 0 in
  bsd_fit c (bsd_new c) nested_positives "class" "p" = Ok st /\ bs_k st = x :: y :: l /\ e_pattern x = [is "b" "1"] /\ e_pattern y = [is "c" "1"] /\
  (e_quality x == e_quality y)%Q /\ pos_rows nested_positives (is "class" "p") (e_pattern x) = [0; 1; 3]%nat /\
  pos_rows nested_positives (is "class" "p") (e_pattern y) = [0; 1]%nat.
Proof. eexists _, _, _, _. cbn zeta. split; [vm_compute; reflexivity|]. split; [vm_compute; reflexivity|]. repeat split; vm_compute; reflexivity. Qed.
Print Assumptions C37_cbsd_counterexample. Print Assumptions C37_cpbsd_counterexample.
(** BSD on a dataset with positive rows only. *)
Definition all_positive : dataframe := rows3 [("x","u","c","p"); ("x","v","c","p"); ("y","v","d","p")].
Theorem C38_counterexample : bsd_input (wracc_config BSD 0 3 1) all_positive "class" "p" /\ wfit BSD 0 3 1 all_positive = Err TypeError.
Proof. split; [|vm_compute; reflexivity]. destruct (rows3_ok [("x","u","c","p"); ("x","v","c","p"); ("y","v","d","p")]) as (H1 & H2 & H3). apply wracc_input; auto; [|lia]. apply no_quotes_texts; [exact H1|apply rows3_no_quotes]. Qed.
Print Assumptions C38_counterexample.
Example C38_nonvacuous : exists st, wfit CBSD 0 3 1 all_positive = Ok st /\ length (bs_k st) = 2%nat.
Proof. eexists. split; vm_compute; reflexivity. Qed.

(** Two (column, value) pairs written alike share one entry of the dictionary of bitsets: a reported description that matches no row has the counters of others. *)
Definition alike : dataframe := DF 3 [("a", [VStr "x' = 'y"; VStr "x' = 'y"; VStr "w"]); ("a = 'x'", [VStr "z"; VStr "z"; VStr "y"]); ("class", [VStr "p"; VStr "p"; VStr "n"])].
Theorem C35_alike_refuted : exists st e, categorical alike /\ has_column alike "class" /\ ~ distinct_texts alike "class" /\
  wfit CBSD 0 20 1 alike = Ok st /\ In e (bs_k st) /\ e_pattern e = [is "a" "w"; is "a" "x' = 'y"] /\ coverage alike (e_pattern e) = 0%nat /\ e_fp e = 1.
Proof.
  eexists _, _. split; [split; [|split]|split; [|split]].
  - intros a c H. cbn in H. destruct H as [H|[H|[H|[]]]]; injection H as <- <-; reflexivity.
  - repeat constructor; cbn; intuition discriminate.
  - intros a c v H I. cbn in H. destruct H as [H|[H|[H|[]]]]; injection H as <- <-; cbn in I; repeat (destruct I as [<-|I]; [reflexivity|]); destruct I.
  - eexists. reflexivity.
  - intros D. destruct (D "a" _ (VStr "x' = 'y") "a = 'x'" _ (VStr "y") (or_introl eq_refl) (or_intror (or_introl eq_refl))) as [X _]; try discriminate; [left; reflexivity|right; right; left; reflexivity|reflexivity].
  - split; [vm_compute; reflexivity|]. cbn [bs_k]. split; [left; reflexivity|]. split; [reflexivity|]. split; vm_compute; reflexivity.
Qed.
Print Assumptions C35_alike_refuted.

(** * C34 for BSD *)
(** The counters and the list of irrelevant subgroups go on from the first fit. *)
Theorem C34_bsd_counterexample : exists st1 st2, let c := wracc_config BSD 0 3 1 in
  bsd_fit c (bsd_new c) toy "class" "p" = Ok st1 /\ bsd_fit c st1 toy "class" "p" = Ok st2 /\
  bs_visited st1 = 7%nat /\ bs_visited st2 = 14%nat /\ bs_unselected st1 = 10%nat /\ bs_unselected st2 = 21%nat /\ length (bs_irrelevants st1) = 6%nat /\ length (bs_irrelevants st2) = 13%nat.
Proof. eexists _, _. cbn zeta. split; [vm_compute; reflexivity|]. split; [vm_compute; reflexivity|]. repeat split; vm_compute; reflexivity. Qed.
Print Assumptions C34_bsd_counterexample.

(** * C55 *)
(** min_support holds for each selector of a stored description. *)
Theorem C55_selectors : forall {V} (c : bsd_config V) df tcol tval st k e s, bsd_input c df tcol tval ->
  bsd_fit c (bsd_new c) df tcol tval = Ok st -> best_list st k -> In e k -> In s (e_pattern e) ->
  bc_min_support c <= tp_of df (Sel tcol EQUAL (VStr tval)) [s].
Proof.
  intros V c df tcol tval st k e s HB E B Ie Is. destruct (lists_good c df tcol tval HB st k E B) as (mask & Hm & [->|(_ & _ & _ & _ & K5 & _)]).
  - destruct Ie as [<-|[]]. destruct Is.
  - rewrite Forall_forall in K5. destruct (K5 e Ie) as (_ & A2 & _). destruct HB as (H1 & H2 & H3 & _).
    apply A2 in Is. apply (L_in df tcol tval H1 H3 mask Hm) in Is. tauto.
Qed.
Print Assumptions C55_selectors.
Definition low_support : dataframe := rows3 [("x","u","c","p"); ("x","v","c","p"); ("y","w","c","p"); ("y","w","d","p"); ("x","w","d","n"); ("z","z","z","n")].
(** With min_support = 1 a stored description covers no positive row. *)
Theorem C55_counterexample : exists st e l, wfit CBSD 1 20 1 low_support = Ok st /\ bs_k st = e :: l /\ e_pattern e = [is "a" "x"; is "c" "d"] /\ e_tp e = 0 /\ e_fp e = 1.
Proof. eexists _, _, _. split; [vm_compute; reflexivity|]. split; [vm_compute; reflexivity|]. repeat split; vm_compute; reflexivity. Qed.
Print Assumptions C55_counterexample.
