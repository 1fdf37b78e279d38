(** Theorems C85: the order of the rows and of the columns of the dataset. *)
From Coq Require Import String.
From Verif Require Export ReorderProofs.
From Verif Require Import CoreFrame SDMapProofs SDMapStarModel VerticalSpec VerticalModel VLSDModel BSDModel QualityModel MiningProofs Properties_Quality Properties_SDMap Properties_SDMapStar Properties_VLSD Properties_BSD Properties_BSDBest.
From Coq Require Import Permutation Lia.
Open Scope string_scope.
Open Scope list_scope.
Open Scope nat_scope.

(** * Counting and matching *)
Lemma map_res_reorder : forall A B (f : A -> res B) l ms d l' sg, map_res f l = Ok ms -> (forall j, In j sg -> j < length l) ->
  length l' = length sg -> (forall i j, nth_error sg i = Some j -> nth_error l' i = nth_error l j) -> map_res f l' = Ok (map (fun j => nth j ms d) sg).
Proof.
  intros A B f l ms d l' sg E L. revert l'. induction sg as [|j sg IH]; intros l' Hl H; destruct l' as [|x l']; try discriminate Hl; [reflexivity|].
  cbn [map_res map]. assert (Ex : nth_error l j = Some x) by (rewrite <- (H 0 j eq_refl); reflexivity).
  assert (Ef : f x = Ok (nth j ms d)).
  { clear -E Ex. revert l ms E Ex. induction j as [|j IHj]; intros [|y l] ms E Ex; try discriminate; cbn [map_res] in E;
      destruct (f y) as [b|] eqn:Ey; cbn [bind] in E; try discriminate; destruct (map_res f l) as [bs|] eqn:El; cbn [bind] in E; try discriminate; injection E as <-; cbn [nth].
    - cbn in Ex. injection Ex as <-. exact Ey.
    - cbn [nth_error] in Ex. eapply IHj; eauto. }
  rewrite Ef. cbn [bind]. rewrite (IH (fun k I => L k (or_intror I)) l'); [reflexivity|injection Hl; auto|]. intros i k Hk. apply (H (S i) k). exact Hk.
Qed.
Lemma any_true_reorder : forall n sg acc, Permutation (seq 0 n) sg -> length acc = n -> any_true (map (fun j => nth j acc false) sg) = any_true acc.
Proof.
  intros n sg acc P L. unfold any_true. apply eq_iff_eq_true. rewrite !existsb_exists. split.
  - intros (b & I & Hb). apply in_map_iff in I. destruct I as (j & Ej & Ij). exists b. split; auto. rewrite <- Ej. apply nth_In.
    apply (Permutation_in _ (Permutation_sym P)), in_seq in Ij. lia.
  - intros (b & I & Hb). apply (In_nth _ _ false) in I. destruct I as (j & Hj & Ej). exists b. split; auto. apply in_map_iff. exists j. split; auto.
    apply (Permutation_in _ P), in_seq. lia.
Qed.
Lemma series_and_reorder : forall acc m sg, length acc = length m -> series_and (map (fun j => nth j acc false) sg) (map (fun j => nth j m false) sg) = map (fun j => nth j (series_and acc m) false) sg.
Proof.
  intros acc m sg L. unfold series_and. induction sg as [|j sg IH]; [reflexivity|]. cbn [map combine]. rewrite IH. f_equal. cbn [fst snd].
  clear -L. revert acc m L. induction j as [|j IHj]; intros [|x acc] [|y m] L; try discriminate L; try reflexivity. cbn [nth combine map]. apply IHj. injection L; auto.
Qed.
Lemma loop_reorder : forall df df' sg, wf_df df -> reordered_by sg df df' -> forall p acc m, length acc = df_n df -> contained_loop df acc p = Ok m ->
  contained_loop df' (map (fun j => nth j acc false) sg) p = Ok (map (fun j => nth j m false) sg).
Proof.
  intros df df' sg W HR. induction p as [|s p IH]; intros acc m L E; cbn [contained_loop] in *; rewrite (any_true_reorder (df_n df)) by (auto; apply HR).
  - destruct (any_true acc); injection E as <-; reflexivity.
  - destruct (any_true acc); [|injection E as <-; reflexivity]. unfold df_col in *. destruct (col_get (df_cols df) (s_attr s)) as [col|] eqn:Ec; [|discriminate]. cbn [bind] in E.
    destruct (proj2 (column_same df df' sg HR (s_attr s)) (ex_intro _ col Ec)) as [col' Ec']. rewrite Ec'. cbn [bind].
    destruct (op_evaluate_series (s_op s) col (s_val s)) as [ms|] eqn:Eo; [|discriminate]. cbn [bind] in E. unfold op_evaluate_series in *.
    assert (CI : forall (cols : list (string * list value)) a c, col_get cols a = Some c -> In (a, c) cols).
    { clear. induction cols as [|[b d] cols IH]; intros a c H; cbn [col_get] in H; [discriminate|]. destruct (String.eqb a b) eqn:Eb; [apply String.eqb_eq in Eb; injection H as ->; left; congruence|right; auto]. }
    pose proof (W _ _ (CI _ _ _ Ec)) as Lc. destruct HR as (En & W' & PN & P & H). pose proof (W' _ _ (CI _ _ _ Ec')) as Lc'.
    assert (Lm : length ms = length col).
    { clear -Eo. revert ms Eo. induction col as [|x col IHc]; intros ms Eo; cbn [map_res] in Eo; [injection Eo as <-; reflexivity|].
      destruct (op_evaluate (s_op s) x (s_val s)); cbn [bind] in Eo; [|discriminate]. destruct (map_res _ col); cbn [bind] in Eo; [|discriminate]. injection Eo as <-. cbn [length]. f_equal. apply IHc; reflexivity. }
    rewrite (map_res_reorder _ _ _ col ms false col' sg Eo).
    + cbn [bind]. rewrite series_and_reorder by lia. apply IH; auto. unfold series_and. rewrite map_length, combine_length. lia.
    + intros j I. apply (Permutation_in _ (Permutation_sym P)), in_seq in I. lia.
    + rewrite Lc', En, <- (Permutation_length P), seq_length. reflexivity.
    + intros i j Hi. specialize (H i j (s_attr s) Hi). unfold cell in H. rewrite Ec, Ec' in H. exact H.
Qed.
(** Pattern.is_contained on the reordered dataset: the same answer for each row. *)
Theorem C85_is_contained : forall sg df df' p m, wf_df df -> reordered_by sg df df' -> is_contained p df = Ok m ->
  is_contained p df' = Ok (map (fun j => nth j m false) sg).
Proof.
  intros sg df df' p m W HR E. unfold is_contained in *. pose proof (loop_reorder df df' sg W HR p _ m (repeat_length _ _) E) as L.
  assert (Er : map (fun j => nth j (repeat true (df_n df)) false) sg = repeat true (df_n df')).
  { destruct HR as (En & _ & _ & P & _). rewrite En. assert (Ls : length sg = df_n df) by (rewrite <- (Permutation_length P), seq_length; reflexivity). transitivity (repeat true (length sg)); [|rewrite Ls; reflexivity].
    assert (Hs : forall j, In j sg -> j < df_n df) by (intros j I; apply (Permutation_in _ (Permutation_sym P)), in_seq in I; lia). clear -Hs.
    induction sg as [|j sg IH]; [reflexivity|]. cbn [map length repeat]. f_equal; [|apply IH; intros k I; apply Hs; right; auto]. apply nth_repeat_true. apply Hs. left; auto. }
  rewrite Er in L. exact L.
Qed.
(** The numbers of rows of a description, and with them every quality measure. *)
Theorem C85_counts : forall df df' t X, reordered df df' ->
  tp_of df' t X = tp_of df t X /\ fp_of df' t X = fp_of df t X /\ coverage df' X = coverage df X.
Proof. intros df df' t X [sg HR]. eapply counts_same; eauto. Qed.
Print Assumptions C85_is_contained. Print Assumptions C85_counts.

(** * SDMap, and SDMapStar without limit *)
Definition same_report {V} (a b : sd_state V) : Prop :=
  st_selected a = st_selected b /\ st_unselected a = st_unselected b /\
  match st_file a, st_file b with Some la, Some lb => Permutation la lb | None, None => True | _, _ => False end.
Lemma lines_ext : forall V (c : sd_config V) t TP FP tp fp tp' fp' P, (forall X, tp' X = tp X) -> (forall X, fp' X = fp X) ->
  lines c t TP FP tp' fp' P = lines c t TP FP tp fp P /\ misses c TP FP tp' fp' P = misses c TP FP tp fp P.
Proof.
  intros V c t TP FP tp fp tp' fp' P H1 H2. unfold lines, misses, q_of. split.
  - induction P as [|X P IH]; [reflexivity|]. cbn [flat_map]. rewrite IH, !H1, !H2. reflexivity.
  - induction P as [|X P IH]; [reflexivity|]. cbn [filter]. rewrite !H1, !H2. destruct (match c_measure c (tp X) (fp X) TP FP with Ok q => _ | Err _ => _ end); cbn [length]; rewrite IH; reflexivity.
Qed.
Lemma sdmap_reorder : forall V (c : sd_config V) st0 df df' tcol tval st, categorical df -> distinct_keys df tcol -> has_column df tcol ->
  sdmap_new c = Ok st0 -> reordered df df' ->
  match sdmap_fit c st df tcol tval, sdmap_fit c st df' tcol tval with
  | Ok a, Ok b => same_report a b
  | Err e, Err e' => forall x, x = e \/ x = e' -> exists X, frequent df tcol tval (c_min_tp c) (c_min_fp c) (c_min_n c) X /\ quality (c_measure c) df tcol tval X = Err x
  | _, _ => False
  end.
Proof.
  intros V c st0 df df' tcol tval st Hcat Hquo Hcol Hn [sg HR]. unfold sdmap_new in Hn.
  destruct (thresholds _ _ _) as [ok|] eqn:Hok; [|discriminate]. clear Hn.
  pose proof (categorical_same df df' sg HR Hcat) as Hcat'. pose proof (keys_same df df' sg HR Hcat tcol Hquo) as Hquo'.
  pose proof (proj2 (column_same df df' sg HR tcol) Hcol) as Hcol'.
  destruct (sdmap_fit_spec V c ok df tcol tval st Hcat Hquo Hcol Hok) as (P & NP & HP & EP).
  destruct (sdmap_fit_spec V c ok df' tcol tval st Hcat' Hquo' Hcol' Hok) as (Q & NQ & HQ & EQ).
  rewrite EP, EQ. assert (E : forall X, In X P <-> In X Q) by (intros X; rewrite HP, HQ, (frequent_same df df' sg HR); tauto).
  destruct (totals_same df df' sg HR tcol tval) as [-> ->].
  assert (Htp : forall X, tp_of df' (Sel tcol EQUAL (VStr tval)) X = tp_of df (Sel tcol EQUAL (VStr tval)) X) by (intros X; apply (counts_same df df' sg HR)).
  assert (Hfp : forall X, fp_of df' (Sel tcol EQUAL (VStr tval)) X = fp_of df (Sel tcol EQUAL (VStr tval)) X) by (intros X; apply (counts_same df df' sg HR)).
  set (tp := tp_of df (Sel tcol EQUAL (VStr tval))) in *. set (fp := fp_of df (Sel tcol EQUAL (VStr tval))) in *.
  set (tp' := tp_of df' (Sel tcol EQUAL (VStr tval))) in *. set (fp' := fp_of df' (Sel tcol EQUAL (VStr tval))) in *.
  assert (EF : forall S, fold_res (fun s X => handle_individual_result c (Sel tcol EQUAL (VStr tval)) (TP_of df tcol tval) (FP_of df tcol tval) s (X, (tp' X, fp' X))) Q S =
    fold_res (fun s X => handle_individual_result c (Sel tcol EQUAL (VStr tval)) (TP_of df tcol tval) (FP_of df tcol tval) s (X, (tp X, fp X))) Q S).
  { clear -Htp Hfp. induction Q as [|X Q IH]; intros S; [reflexivity|]. cbn [fold_res]. rewrite Htp, Hfp. destruct (handle_individual_result _ _ _ _ _ _); cbn [bind]; auto. }
  destruct P as [|X P]; destruct Q as [|Y Q].
  - split; auto. split; auto. destruct (st_file st); auto.
  - exfalso. apply (proj2 (E Y)). left; auto.
  - exfalso. apply (proj1 (E X)). left; auto.
  - rewrite EF. remember (X :: P) as P1. remember (Y :: Q) as Q1. clear HeqP1 HeqQ1 X P Y Q EP EQ EF.
    set (b0 := if c_write c then _ else st).
    destruct (fold_res _ P1 b0) as [a|e] eqn:EA.
    + pose proof (handle_err c _ _ _ tp fp P1 _ (ex_intro _ a EA)) as Hq. rewrite (handle_ok c _ _ _ tp fp) in EA by auto. injection EA as <-.
      rewrite (handle_ok c _ _ _ tp fp) by (intros X I; apply Hq, E; auto).
      destruct (lines_perm V c (Sel tcol EQUAL (VStr tval)) (TP_of df tcol tval) (FP_of df tcol tval) tp fp P1 Q1 NP NQ E) as [L M].
      unfold same_report. cbn [st_selected st_unselected st_file]. rewrite M, (Permutation_length L). split; [reflexivity|]. split; [reflexivity|].
      destruct (c_write c); [destruct (st_file b0); auto; apply Permutation_app_head; auto|destruct (st_file b0); auto].
    + destruct (fold_res _ Q1 b0) as [a|e'] eqn:EB.
      * apply handle_err_e in EA. destruct EA as (X & IX & EX). destruct (handle_err c _ _ _ tp fp Q1 _ (ex_intro _ a EB) X) as [q Eq]; [apply E; auto|]. congruence.
      * apply handle_err_e in EA, EB. destruct EA as (X & IX & EX), EB as (Y & IY & EY). intros x [->| ->]; [exists X|exists Y]; split; auto; [apply HP|apply HP, E]; auto.
Qed.
(** SDMap: the same counters and the same lines, in another order; or both calls raise an exception of the quality measure. *)
Theorem C85_sdmap : forall V (c : sd_config V) st0 df df' tcol tval st, categorical df -> distinct_keys df tcol -> has_column df tcol ->
  sdmap_new c = Ok st0 -> reordered df df' ->
  match sdmap_fit c st df tcol tval, sdmap_fit c st df' tcol tval with
  | Ok a, Ok b => same_report a b
  | Err e, Err e' => forall x, x = e \/ x = e' -> exists X, frequent df tcol tval (c_min_tp c) (c_min_fp c) (c_min_n c) X /\ quality (c_measure c) df tcol tval X = Err x
  | _, _ => False
  end.
Proof. exact sdmap_reorder. Qed.
(** The same for SDMapStar without limit. *)
Theorem C85_sdmapstar : forall V (c : star_config V) st0 df df' tcol tval st, categorical df -> distinct_keys df tcol -> has_column df tcol ->
  star_new c = Ok st0 -> sc_num c = 0%Z -> reordered df df' ->
  match star_fit c st df tcol tval, star_fit c st df' tcol tval with
  | Ok a, Ok b => same_report (ss_base a) (ss_base b)
  | Err _, Err _ => True
  | _, _ => False
  end.
Proof.
  intros V c st0 df df' tcol tval st Hcat Hquo Hcol Hn H0 HR. pose proof HR as [sg HR0].
  pose proof (C32_same_results V c st0 df tcol tval st Hcat Hquo Hcol Hn H0) as A.
  pose proof (C32_same_results V c st0 df' tcol tval st (categorical_same df df' sg HR0 Hcat) (keys_same df df' sg HR0 Hcat tcol Hquo) (proj2 (column_same df df' sg HR0 tcol) Hcol) Hn H0) as B.
  assert (Hb : exists b0, sdmap_new (sc_base c) = Ok b0) by (unfold star_new in Hn; destruct (sdmap_new (sc_base c)) as [b0|]; [eauto|discriminate]). destruct Hb as [b0 Hb].
  pose proof (sdmap_reorder V (sc_base c) b0 df df' tcol tval (ss_base st) Hcat Hquo Hcol Hb HR) as C. clear Hn Hb HR HR0 Hcat Hquo Hcol.
  destruct (sdmap_fit (sc_base c) (ss_base st) df tcol tval) as [p|], (sdmap_fit (sc_base c) (ss_base st) df' tcol tval) as [q|], (star_fit c st df tcol tval) as [x|], (star_fit c st df' tcol tval) as [y|]; try contradiction; try exact I.
  destruct A as (A1 & A2 & A3 & _), B as (B1 & B2 & B3 & _), C as (C1 & C2 & C3). unfold same_report. split; [congruence|]. split; [congruence|].
  destruct (st_file p), (st_file q), (st_file (ss_base x)), (st_file (ss_base y)); try contradiction; try exact I. apply (perm_trans (Permutation_sym A3)). exact (perm_trans C3 B3).
Qed.
Print Assumptions C85_sdmap. Print Assumptions C85_sdmapstar.

(** * VLSD *)
(** If no part of a description that reaches both thresholds is cut by the estimate, the lines and the number of selected subgroups are the same. *)
Theorem C85_vlsd : forall Seq impl rows, representation Seq impl rows ->
  forall V (c : vl_config V) df df' tcol tval a b, categorical df -> has_column df tcol -> reordered df df' ->
  vc_write c = true -> inherited_estimate c df tcol tval ->
  vlsd_fit impl c vlsd_new df tcol tval = Ok a -> vlsd_fit impl c vlsd_new df' tcol tval = Ok b ->
  exists la lb, vs_file a = Some la /\ vs_file b = Some lb /\ Permutation (map vr_line la) (map vr_line lb) /\ vs_selected a = vs_selected b.
Proof.
  intros Seq impl rows R V c df df' tcol tval a b Hcat Hcol [sg HR] W Hi Ea Eb.
  pose proof (categorical_same df df' sg HR Hcat) as Hcat'. pose proof (proj2 (column_same df df' sg HR tcol) Hcol) as Hcol'.
  destruct (fit_run _ _ _ R V c df tcol tval _ _ Hcat Hcol Ea) as (P & NP & HP & CP & N1 & _ & F).
  destruct (fit_run _ _ _ R V c df' tcol tval _ _ Hcat' Hcol' Eb) as (P' & NP' & HP' & CP' & N1' & _ & F').
  rewrite W in F, F'. destruct F as (la & Fa & FFa), F' as (lb & Fb & FFb). exists la, lb. split; auto. split; auto.
  assert (QE : forall (m : Z -> Z -> Z -> Z -> res V) X, quality m df' tcol tval X = quality m df tcol tval X) by (intros m X; apply (ReorderProofs.quality_same df df' sg HR)).
  assert (KE : forall X, candidate df' tcol X <-> candidate df tcol X) by (apply (candidate_same df df' sg HR)).
  assert (GE : forall X, good_value c df' tcol tval X = good_value c df tcol tval X) by (intros X; unfold good_value; rewrite QE; reflexivity).
  assert (EE : forall X, estimate_reaches c df' tcol tval X <-> estimate_reaches c df tcol tval X) by (intros X; unfold estimate_reaches; rewrite QE; tauto).
  assert (GV : forall X, good_value c df tcol tval X = true -> value_reaches c df tcol tval X).
  { intros X. unfold good_value, value_reaches. destruct (quality (vc_measure c) df tcol tval X) as [q|]; [eauto|discriminate]. }
  rewrite (filter_ext _ _ GE) in FFb. rewrite (filter_ext _ _ GE) in N1'.
  assert (PP : Permutation (filter (good_value c df tcol tval) P) (filter (good_value c df tcol tval) P')).
  { apply NoDup_Permutation; [apply NoDup_filter; auto|apply NoDup_filter; auto|]. intros X. rewrite !filter_In. split; intros [I G]; split; auto.
    - destruct (HP X I) as (K & Er & _). apply CP'; [apply KE; auto|]. intros Y o KY IY Eo. rewrite QE in Eo. apply (Hi X Y o); auto. apply KE; auto.
    - destruct (HP' X I) as (K & Er & _). apply KE in K. apply EE in Er. apply CP; auto. intros Y o KY IY Eo. apply (Hi X Y o); auto. }
  split; [|rewrite N1, N1', (Permutation_length PP); reflexivity].
  assert (LA : forall d Q ls, (forall X, quality (vc_measure c) d tcol tval X = quality (vc_measure c) df tcol tval X) -> (forall X q, line_of (V:=V) d tcol tval X q = line_of df tcol tval X q) ->
    Forall2 (fun X r => exists q, quality (vc_measure c) d tcol tval X = Ok q /\ reports rows c d tcol tval X q r) Q ls ->
    map (@Ok (record V)) (map vr_line ls) = map (fun X => do q <- quality (vc_measure c) df tcol tval X; Ok (line_of df tcol tval X q)) Q).
  { intros d Q ls HQ HL FF. induction FF as [|X r Q ls (q & Eq & (Rp & _)) FF IH]; cbn [map]; auto. rewrite IH, Rp, <- HQ, Eq, HL. reflexivity. }
  assert (PO : Permutation (map (@Ok (record V)) (map vr_line la)) (map (@Ok (record V)) (map vr_line lb))).
  { rewrite (LA df _ _ (fun X => eq_refl) (fun X q => eq_refl) FFa), (LA df' _ _ (QE _) (fun X q => line_same df df' sg HR V tcol tval X q) FFb). apply Permutation_map; auto. }
  apply (Permutation_map (fun r : res (record V) => match r with Ok x => [x] | Err _ => [] end)) in PO.
  rewrite !(map_map (@Ok (record V))) in PO.
  assert (CC : forall l : list (record V), concat (map (fun x => [x]) l) = l) by (intros l; induction l; cbn; congruence).
  rewrite <- (CC (map vr_line la)), <- (CC (map vr_line lb)). clear -PO. induction PO; cbn [concat]; auto.
  - apply Permutation_app_head; auto.
  - rewrite !app_assoc. apply Permutation_app_tail, Permutation_app_comm.
  - etransitivity; eauto.
Qed.
(** If the threshold of the estimate is inherited by all the parts of every description, the number of visited nodes is the same too. *)
Theorem C85_vlsd_visited : forall Seq impl rows, representation Seq impl rows ->
  forall V (c : vl_config V) df df' tcol tval a b, categorical df -> has_column df tcol -> reordered df df' ->
  (forall X Y o, candidate df tcol X -> candidate df tcol Y -> incl Y X -> estimate_reaches c df tcol tval X ->
     quality (vc_oe c) df tcol tval Y = Ok o -> vc_oe_reaches c o = true) ->
  vlsd_fit impl c vlsd_new df tcol tval = Ok a -> vlsd_fit impl c vlsd_new df' tcol tval = Ok b -> vl_visited a = vl_visited b.
Proof.
  intros Seq impl rows R V c df df' tcol tval a b Hcat Hcol [sg HR] Hi Ea Eb.
  pose proof (categorical_same df df' sg HR Hcat) as Hcat'. pose proof (proj2 (column_same df df' sg HR tcol) Hcol) as Hcol'.
  destruct (fit_run _ _ _ R V c df tcol tval _ _ Hcat Hcol Ea) as (P & NP & HP & CP & N1 & N2 & _).
  destruct (fit_run _ _ _ R V c df' tcol tval _ _ Hcat' Hcol' Eb) as (P' & NP' & HP' & CP' & N1' & N2' & _).
  assert (QE : forall (m : Z -> Z -> Z -> Z -> res V) X, quality m df' tcol tval X = quality m df tcol tval X) by (intros m X; apply (ReorderProofs.quality_same df df' sg HR)).
  assert (KE : forall X, candidate df' tcol X <-> candidate df tcol X) by (apply (candidate_same df df' sg HR)).
  assert (EE : forall X, estimate_reaches c df' tcol tval X <-> estimate_reaches c df tcol tval X) by (intros X; unfold estimate_reaches; rewrite QE; tauto).
  assert (PP : Permutation P P').
  { apply NoDup_Permutation; auto. intros X. split; intros I.
    - destruct (HP X I) as (K & Er & _). apply CP'; [apply KE; auto|]. intros Y o KY IY Eo. rewrite QE in Eo. apply (Hi X Y o); auto. apply KE; auto.
    - destruct (HP' X I) as (K & Er & _). apply KE in K. apply EE in Er. apply CP; auto. intros Y o KY IY Eo. apply (Hi X Y o); auto. }
  assert (S1 : forall (g : list selector -> bool) l, (length (filter g l) + length (filter (fun x => negb (g x)) l) = length l)%nat).
  { intros g l. induction l as [|x l IH]; cbn [filter length]; auto. destruct (g x); cbn [negb length]; lia. }
  unfold vl_visited. cbn [vlsd_new vs_selected vs_unselected Nat.add] in N1, N2, N1', N2'. rewrite N1, N2, N1', N2', !S1. apply Permutation_length; auto.
Qed.
Print Assumptions C85_vlsd. Print Assumptions C85_vlsd_visited.

(** * BSD, CBSD and CPBSD: the quality of the best subgroup *)
Theorem C85_bsd_best : forall cl ms num depth df df' tcol tval st st' e, categorical df -> distinct_texts df tcol -> has_column df tcol -> (1 <= num)%Z -> reordered df df' ->
  let c := wracc_config cl ms num depth in
  bsd_fit c (bsd_new c) df tcol tval = Ok st -> bsd_fit c (bsd_new c) df' tcol tval = Ok st' ->
  In e (bs_k st) -> e <> dummy_entry c -> exists e', In e' (bs_k st') /\ true_entry c df' tcol tval e' /\ (e_quality e <= e_quality e')%Q.
Proof.
  intros cl ms num depth df df' tcol tval st st' e Hcat Ht Hcol Hn [sg HR] c Ea Eb Ie Nd.
  pose proof (categorical_same df df' sg HR Hcat) as Hcat'. pose proof (texts_same df df' sg HR Hcat tcol Ht) as Ht'. pose proof (proj2 (column_same df df' sg HR tcol) Hcol) as Hcol'.
  pose proof (wracc_input cl ms num depth df tcol tval Hcat Ht Hcol Hn) as HB. fold c in HB.
  assert (T : true_entry c df tcol tval e).
  { destruct (C35_best_list c df tcol tval st (bs_k st) HB Ea (or_introl eq_refl)) as [E|(_ & _ & _ & F)].
    - rewrite E in Ie. destruct Ie as [Ie|[]]. congruence.
    - rewrite Forall_forall in F. auto. }
  destruct T as (K & _ & _ & _ & Q & _).
  apply (C56_best_wracc cl ms num depth df' tcol tval st' (e_pattern e) (e_quality e) Hcat' Ht' Hcol' Hn Eb); [|rewrite (ReorderProofs.quality_same df df' sg HR); exact Q].
  split; [apply (candidate_same df df' sg HR); exact K|]. split.
  - intros s Is. rewrite (proj1 (counts_same df df' sg HR _ [s])). exact (C55_selectors c df tcol tval st (bs_k st) e s HB Ea (or_introl eq_refl) Ie Is).
  - exact (proj2 (C36_depth c df tcol tval st HB Ea) e Ie).
Qed.
Print Assumptions C85_bsd_best.

(** * Every permutation of the rows and every permutation of the columns is covered *)
(** The dataset with the columns [cols] and the rows in the order [sg]. *)
Definition arranged (cols : list (string * list value)) (sg : list nat) : dataframe :=
  DF (length sg) (map (fun c => (fst c, map (fun j => nth j (snd c) (VStr "")) sg)) cols).
Lemma arranged_get : forall cols sg a, col_get (map (fun c : string * list value => (fst c, map (fun j => nth j (snd c) (VStr "")) sg)) cols) a =
  match col_get cols a with Some c => Some (map (fun j => nth j c (VStr "")) sg) | None => None end.
Proof. intros cols sg a. induction cols as [|[b c] cols IH]; [reflexivity|]. cbn [map col_get fst snd]. destruct (String.eqb a b); auto. Qed.
Lemma get_perm : forall (l m : list (string * list value)) a, NoDup (map fst l) -> Permutation l m -> col_get l a = col_get m a.
Proof.
  intros l m a ND P. revert ND. induction P; intros ND; auto.
  - destruct x as [b c]. cbn [col_get]. destruct (String.eqb a b); auto. apply IHP. cbn [map fst] in ND. inversion ND; auto.
  - destruct x as [b c], y as [b' c']. cbn [col_get]. destruct (String.eqb a b) eqn:E1, (String.eqb a b') eqn:E2; auto.
    apply String.eqb_eq in E1, E2. subst. cbn [map fst] in ND. inversion ND. exfalso. apply H1. left. reflexivity.
  - rewrite IHP1 by auto. apply IHP2. eapply Permutation_NoDup; [apply Permutation_map; exact P1|auto].
Qed.
Theorem C85_arranged : forall df cols sg, wf_df df -> NoDup (map fst (df_cols df)) -> Permutation (df_cols df) cols -> Permutation (seq 0 (df_n df)) sg ->
  reordered_by sg df (arranged cols sg).
Proof.
  intros df cols sg W ND PC PS. unfold arranged, reordered_by. cbn [df_n df_cols]. split; [rewrite <- (Permutation_length PS), seq_length; reflexivity|]. split; [|split; [|split; [exact PS|]]].
  - intros a c I. cbn [df_cols] in I. apply in_map_iff in I. destruct I as (x & E & _). injection E as _ <-. cbn [df_n]. apply map_length.
  - rewrite map_map. cbn [fst]. apply Permutation_map. exact PC.
  - intros i j a Hi. unfold cell. cbn [df_cols]. rewrite arranged_get, (get_perm _ _ a ND PC). destruct (col_get cols a) as [c|] eqn:E; [|reflexivity].
    rewrite nth_error_map, Hi. cbn [option_map]. symmetry. apply nth_error_nth'. assert (L : length c = df_n df).
    { apply (W a). apply (Permutation_in _ (Permutation_sym PC)). clear -E. revert E. induction cols as [|[b d] cols IH]; cbn [col_get]; [discriminate|]. destruct (String.eqb a b) eqn:Eb; [|right; auto].
      apply String.eqb_eq in Eb. intros X. injection X as ->. left. congruence. }
    rewrite L. apply nth_error_In, (Permutation_in _ (Permutation_sym PS)), in_seq in Hi. lia.
Qed.
Print Assumptions C85_arranged.
(** The columns in reverse order. *)
Definition columns_reversed (df : dataframe) : dataframe := arranged (rev (df_cols df)) (seq 0 (df_n df)).
Lemma columns_reversed_ok : forall df, categorical df -> reordered df (columns_reversed df).
Proof. intros df (W & ND & _). exists (seq 0 (df_n df)). apply C85_arranged; auto. apply Permutation_rev. Qed.
(** The rows in reverse order. *)
Definition rows_reversed (df : dataframe) : dataframe := arranged (df_cols df) (rev (seq 0 (df_n df))).
Lemma rows_reversed_ok : forall df, categorical df -> reordered df (rows_reversed df).
Proof. intros df (W & ND & _). exists (rev (seq 0 (df_n df))). apply C85_arranged; auto. apply Permutation_rev. Qed.

(** * What does depend on the order *)
(** The order of the lines of SDMap. *)
Theorem C85_line_order_refuted : exists df, categorical df /\ let c := SDC (on_counts PiatetskyShapiro) (Qle_bool (-(100))) None None (Some 1%Z) true in
  exists a b la lb, sdmap_fit c (SDS 0 0 None) df "class" "p" = Ok a /\ sdmap_fit c (SDS 0 0 None) (columns_reversed df) "class" "p" = Ok b /\
  st_file a = Some la /\ st_file b = Some lb /\ la <> lb.
Proof.
  exists (rows3 rows_c). split; [apply rows3_ok|]. cbn zeta. eexists _, _, _, _. split; [vm_compute; reflexivity|]. split; [vm_compute; reflexivity|]. split; [reflexivity|]. split; [reflexivity|].
  intros E. apply (f_equal (map (fun r => g_desc (r_subgroup r)))) in E. vm_compute in E. discriminate E.
Qed.
(** With a limit, SDMapStar writes three subgroups or two. *)
Theorem C85_sdmapstar_limit_refuted : exists df st0 a b, let c := ps_config (-(100)) 1 in categorical df /\ distinct_keys df "class" /\ has_column df "class" /\ star_new c = Ok st0 /\
  star_fit c st0 df "class" "p" = Ok a /\ star_fit c st0 (columns_reversed df) "class" "p" = Ok b /\ st_selected (ss_base a) = 3 /\ st_selected (ss_base b) = 2.
Proof.
  exists (rows3 rows_c). eexists _, _, _. cbn zeta. destruct (rows3_ok rows_c) as (A & B & C). split; [exact A|]. split; [exact B|]. split; [exact C|].
  split; [vm_compute; reflexivity|]. split; [vm_compute; reflexivity|]. split; [vm_compute; reflexivity|]. split; reflexivity.
Qed.
(** With an estimate that is not inherited, VLSD finds 42 subgroups or 41. *)
Theorem C85_vlsd_refuted : exists df a b, let c := VC (fun tp fp _ _ => Ok (tp - fp)%Z) (Z.leb 1) (fun tp fp _ _ => Ok (tp - fp)%Z) (Z.leb 1) Z.ltb NO_ORDER NO_ORDER true in
  reordered df (columns_reversed df) /\ vlsd_fit with_sets c vlsd_new df "class" "p" = Ok a /\ vlsd_fit with_sets c vlsd_new (columns_reversed df) "class" "p" = Ok b /\
  vs_selected a = 42 /\ vs_selected b = 41.
Proof.
  exists rows4. eexists _, _. cbn zeta. split.
  - exists (seq 0 6). apply C85_arranged; [| |apply Permutation_rev|apply Permutation_refl].
    + intros a c H. cbn in H. repeat (destruct H as [H|H]; [injection H as _ <-; reflexivity|]). destruct H.
    + repeat constructor; cbn; intuition discriminate.
  - split; [vm_compute; reflexivity|]. split; [vm_compute; reflexivity|]. split; reflexivity.
Qed.
(** CBSD keeps another of two subgroups of equal quality. *)
Theorem C85_bsd_list_refuted : exists df, let c := wracc_config CBSD 0 2 5 in bsd_input c df "class" "p" /\
  brief (bsd_fit c (bsd_new c) df "class" "p") = Ok [([is "c" "y"], 2%Z, 1%Z); ([is "a" "x"; is "c" "y"], 2%Z, 0%Z)] /\
  brief (bsd_fit c (bsd_new c) (columns_reversed df) "class" "p") = Ok [([is "a" "x"], 2%Z, 1%Z); ([is "a" "x"; is "c" "y"], 2%Z, 0%Z)].
Proof.
  exists (rows3 rows_b). cbn zeta. split.
  - destruct (rows3_ok rows_b) as (H1 & H2 & H3). apply wracc_input; auto; [|lia]. apply no_quotes_texts; [exact H1|apply rows3_no_quotes].
  - split; vm_compute; reflexivity.
Qed.
Print Assumptions C85_line_order_refuted. Print Assumptions C85_sdmapstar_limit_refuted. Print Assumptions C85_vlsd_refuted. Print Assumptions C85_bsd_list_refuted.

(** * Concrete cases *)
Lemma sdmap_both : forall V (c : sd_config V) st0 df df' tcol tval st a b, categorical df -> distinct_keys df tcol -> has_column df tcol ->
  sdmap_new c = Ok st0 -> reordered df df' -> sdmap_fit c st df tcol tval = Ok a -> sdmap_fit c st df' tcol tval = Ok b -> same_report a b.
Proof. intros V c st0 df df' tcol tval st a b H1 H2 H3 H4 H5 A B. pose proof (C85_sdmap V c st0 df df' tcol tval st H1 H2 H3 H4 H5) as S. rewrite A, B in S. exact S. Qed.
Example C85_nonvacuous : reordered toy (rows_reversed toy) /\ reordered toy (columns_reversed toy) /\ rows_reversed toy <> toy /\
  (exists a b, sdmap_fit toy_config (SDS 0 0 None) toy "class" "p" = Ok a /\ sdmap_fit toy_config (SDS 0 0 None) (rows_reversed toy) "class" "p" = Ok b /\ same_report a b /\ st_selected a = 3) /\
  is_contained [is "a" "x"; is "b" "u"] toy = Ok [true; true; false; false] /\
  is_contained [is "a" "x"; is "b" "u"] (rows_reversed toy) = Ok [false; false; true; true].
Proof.
  destruct toy_ok as (H1 & H2 & H3). split; [apply rows_reversed_ok; auto|]. split; [apply columns_reversed_ok; auto|]. split; [discriminate|]. split; [|split; vm_compute; reflexivity].
  assert (Ea : exists a, sdmap_fit toy_config (SDS 0 0 None) toy "class" "p" = Ok a /\ st_selected a = 3) by (eexists; split; vm_compute; reflexivity).
  assert (Eb : exists b, sdmap_fit toy_config (SDS 0 0 None) (rows_reversed toy) "class" "p" = Ok b) by (eexists; vm_compute; reflexivity).
  destruct Ea as (a & Ea & Na), Eb as (b & Eb). exists a, b. split; [exact Ea|]. split; [exact Eb|]. split; [|exact Na].
  apply (sdmap_both Z toy_config (SDS 0 0 None) toy (rows_reversed toy) "class" "p" (SDS 0 0 None) _ _ H1 H2 H3 eq_refl (rows_reversed_ok toy H1) Ea Eb).
Qed.
Example C85_best_nonvacuous : exists st st' e, let c := wracc_config BSD 0 1 5 in bsd_fit c (bsd_new c) (rows3 rows_b) "class" "p" = Ok st /\
  bsd_fit c (bsd_new c) (columns_reversed (rows3 rows_b)) "class" "p" = Ok st' /\ In e (bs_k st) /\ e <> dummy_entry c.
Proof. eexists _, _, _. cbn zeta. split; [vm_compute; reflexivity|]. split; [vm_compute; reflexivity|]. split; [left; reflexivity|discriminate]. Qed.
