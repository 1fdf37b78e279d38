(** Theorems C32-C34: SDMapStar, and fitting twice. *)
From Verif Require Import SDMapStarFit OrderFacts VerticalProofs Properties_SDMap QualityModel QualitySpec Properties_Quality.
From Coq Require Import Lqa.
Open Scope string_scope.
Open Scope list_scope.
Open Scope Z_scope.

(** * C32: without a limit SDMapStar is SDMap *)
Lemma lines_perm : forall V (c : sd_config V) t TP FP tp fp P Q, NoDup P -> NoDup Q -> (forall X, In X P <-> In X Q) ->
  Permutation (lines c t TP FP tp fp P) (lines c t TP FP tp fp Q) /\ misses c TP FP tp fp P = misses c TP FP tp fp Q.
Proof.
  intros V c t TP FP tp fp P Q NP NQ E. assert (PP : Permutation P Q) by (apply NoDup_Permutation; auto). split.
  - unfold lines. apply Permutation_flat_map; auto.
  - unfold misses. clear -PP. induction PP; cbn [filter]; auto; try lia.
    + destruct (match q_of c TP FP tp fp x with Ok q => _ | Err _ => _ end); cbn [length]; lia.
    + destruct (match q_of c TP FP tp fp x with Ok q => _ | Err _ => _ end), (match q_of c TP FP tp fp y with Ok q => _ | Err _ => _ end); reflexivity.
Qed.
(** The two algorithms, started with the same counters and file, end with the same counters
    and the same lines (in a possibly different order), or both raise an exception of the
    quality measure on some frequent description; SDMapStar's own attributes do not change. *)
Theorem C32_same_results : forall V (c : star_config V) st0 df tcol tval st,
  categorical df -> distinct_keys df tcol -> has_column df tcol -> star_new c = Ok st0 -> sc_num c = 0 ->
  match sdmap_fit (sc_base c) (ss_base st) df tcol tval, star_fit c st df tcol tval with
  | Ok a, Ok b =>
      st_selected (ss_base b) = st_selected a /\ st_unselected (ss_base b) = st_unselected a /\
      match st_file a, st_file (ss_base b) with
      | Some la, Some lb => Permutation la lb
      | None, None => True
      | _, _ => False
      end /\ ss_k b = ss_k st /\ ss_pruned b = ss_pruned st /\ ss_cpruned b = ss_cpruned st
  | Err e, Err e' => forall x, x = e \/ x = e' ->
      exists X, frequent df tcol tval (c_min_tp (sc_base c)) (c_min_fp (sc_base c)) (c_min_n (sc_base c)) X /\
        quality (c_measure (sc_base c)) df tcol tval X = Err x
  | _, _ => False
  end.
Proof.
  intros V c st0 df tcol tval st Hcat Hquo Hcol Hn H0. unfold star_new, sdmap_new in Hn.
  destruct (thresholds _ _ _) as [ok|] eqn:Hok; [|discriminate]. clear Hn. set (b := sc_base c) in *.
  destruct (sdmap_fit_spec V b ok df tcol tval (ss_base st) Hcat Hquo Hcol Hok) as (P & NP & HP & EP).
  destruct (star_fit_spec V c ok df tcol tval st ltac:(lia) Hcat Hquo Hcol Hok) as (Q & NQ & HQ & EQ). fold b in HQ, EQ.
  rewrite EP, EQ. assert (E : forall X, In X P <-> In X Q) by (intros X; rewrite HP, HQ; tauto).
  set (tp := tp_of df (Sel tcol EQUAL (VStr tval))) in *. set (fp := fp_of df (Sel tcol EQUAL (VStr tval))) in *.
  destruct P as [|X P]; destruct Q as [|Y Q].
  - split; auto. split; auto. destruct (st_file (ss_base st)); auto.
  - exfalso. apply (proj2 (E Y)). left; auto.
  - exfalso. apply (proj1 (E X)). left; auto.
  - remember (X :: P) as P1. remember (Y :: Q) as Q1. clear HeqP1 HeqQ1 X P Y Q EP EQ.
    set (b0 := if c_write b then _ else ss_base st).
    destruct (fold_res _ P1 b0) as [a|e] eqn:EA.
    + pose proof (handle_err b _ _ _ tp fp P1 _ (ex_intro _ a EA)) as Hq. rewrite (handle_ok b _ _ _ tp fp) in EA by auto. injection EA as <-.
      rewrite (handle_ok b _ _ _ tp fp) by (intros X I; apply Hq, E; auto). cbn [bind ss_base ss_k ss_pruned ss_cpruned st_selected st_unselected st_file].
      destruct (lines_perm V b (Sel tcol EQUAL (VStr tval)) (TP_of df tcol tval) (FP_of df tcol tval) tp fp P1 Q1 NP NQ E) as [L M].
      rewrite M, (Permutation_length L). split; auto. split; auto. split; auto.
      destruct (c_write b); [destruct (st_file b0); auto; apply Permutation_app_head; auto|destruct (st_file b0); auto].
    + destruct (fold_res _ Q1 b0) as [a|e'] eqn:EB; cbn [bind].
      * apply handle_err_e in EA. destruct EA as (X & IX & EX). destruct (handle_err b _ _ _ tp fp Q1 _ (ex_intro _ a EB) X) as [q Eq]; [apply E; auto|]. congruence.
      * apply handle_err_e in EA, EB. destruct EA as (X & IX & EX), EB as (Y & IY & EY). intros x [->| ->]; [exists X|exists Y]; split; auto; [apply HP|apply HQ]; auto.
Qed.
Print Assumptions C32_same_results.

(** * C33: with a limit *)
Definition strict_weak_order {A} (lt : A -> A -> bool) : Prop :=
  (forall x, lt x x = false) /\ (forall x y, lt x y = true -> lt y x = false) /\
  (forall x y z, lt x y = false -> lt y z = false -> lt x z = false).
(** The patterns of the dataset that the algorithm looks for. *)
Notation frequent_for c df tcol tval := (frequent df tcol tval (c_min_tp (sc_base c)) (c_min_fp (sc_base c)) (c_min_n (sc_base c))).

Lemma fit_cases : forall V (c : star_config V) df tcol tval st st', 0 < sc_num c -> categorical df -> distinct_keys df tcol -> has_column df tcol ->
  c_write (sc_base c) = true -> star_fit c st df tcol tval = Ok st' -> (exists X, frequent_for c df tcol tval X) ->
  exists W, limited c df tcol tval st st' W /\
    st_file (ss_base st') = Some (wlines (sc_base c) (Sel tcol EQUAL (VStr tval)) (TP_of df tcol tval) (FP_of df tcol tval) W) /\
    (forall v, In v W -> exists q, c_measure (sc_base c) (fst (snd v)) (snd (snd v)) (TP_of df tcol tval) (FP_of df tcol tval) = Ok q).
Proof.
  intros V c df tcol tval st st' Hn Hcat Hquo Hcol Hw H [X0 HX0].
  destruct (star_fit_limit _ _ _ _ _ _ _ Hn Hcat Hquo Hcol H) as [[_ N]|[W L]]; [elim (N X0 HX0)|].
  exists W. split; auto. pose proof (l_handled _ _ _ _ _ _ _ L) as HF. rewrite Hw in HF.
  destruct (handle_fold _ _ _ _ _ _ _ HF) as (Q & _ & _ & F). rewrite Hw in F. cbn [st_file app] in F. auto.
Qed.

(** Every written line: a frequent description, written once, with the true TP and FP, the
    quality of the reported counts (which reaches the minimum) and counts that reach the
    minimum supports and are at most the true ones.
    Missing from the full property: the counts need not be the true ones and the best
    descriptions can be missing (C33_counts_counterexample, C33_best_counterexample). *)
Theorem C33_sound : forall V (c : star_config V) df tcol tval st st', 0 < sc_num c -> categorical df -> distinct_keys df tcol -> has_column df tcol ->
  c_write (sc_base c) = true -> star_fit c st df tcol tval = Ok st' -> (exists X, frequent_for c df tcol tval X) ->
  exists ls, st_file (ss_base st') = Some ls /\ NoDup (map r_subgroup ls) /\
    forall r, In r ls -> exists X q tp fp, frequent_for c df tcol tval X /\
      r = Rec (SG X (Sel tcol EQUAL (VStr tval))) q tp fp (TP_of df tcol tval) (FP_of df tcol tval) /\
      tp <= tp_of df (Sel tcol EQUAL (VStr tval)) X /\ fp <= fp_of df (Sel tcol EQUAL (VStr tval)) X /\
      supported (c_min_tp (sc_base c)) (c_min_fp (sc_base c)) (c_min_n (sc_base c)) tp fp /\
      c_measure (sc_base c) tp fp (TP_of df tcol tval) (FP_of df tcol tval) = Ok q /\ c_reaches (sc_base c) q = true.
Proof.
  intros V c df tcol tval st st' Hn Hcat Hquo Hcol Hw H HX.
  destruct (fit_cases _ _ _ _ _ _ _ Hn Hcat Hquo Hcol Hw H HX) as (W & L & F & Q).
  eexists. split; [exact F|]. split; [apply wlines_nodup, L|]. intros r I. apply wlines_in in I. destruct I as ([X [tp fp]] & q & I & Eq & Rq & ->).
  cbn [fst snd] in *. destruct (l_sound _ _ _ _ _ _ _ L X tp fp I) as (A & B & C & D). exists X, q, tp, fp. repeat (split; auto).
Qed.
(** When no node of a conditional tree was pruned, the reported counts and qualities are the
    true ones. *)
Theorem C33_exact_counts : forall V (c : star_config V) df tcol tval st st', 0 < sc_num c -> categorical df -> distinct_keys df tcol -> has_column df tcol ->
  c_write (sc_base c) = true -> star_fit c st df tcol tval = Ok st' -> (exists X, frequent_for c df tcol tval X) ->
  ss_cpruned st' = ss_cpruned st ->
  exists ls, st_file (ss_base st') = Some ls /\ NoDup (map r_subgroup ls) /\
    forall r, In r ls -> exists X q, frequent_for c df tcol tval X /\ quality (c_measure (sc_base c)) df tcol tval X = Ok q /\
      c_reaches (sc_base c) q = true /\ r = line_of df tcol tval X q.
Proof.
  intros V c df tcol tval st st' Hn Hcat Hquo Hcol Hw H HX Hc.
  destruct (fit_cases _ _ _ _ _ _ _ Hn Hcat Hquo Hcol Hw H HX) as (W & L & F & Q).
  eexists. split; [exact F|]. split; [apply wlines_nodup, L|]. intros r I. apply wlines_in in I. destruct I as ([X [tp fp]] & q & I & Eq & Rq & ->).
  cbn [fst snd] in *. destruct (l_sound _ _ _ _ _ _ _ L X tp fp I) as (A & _). destruct (l_exact _ _ _ _ _ _ _ L Hc X tp fp I) as [-> ->].
  exists X, q. auto.
Qed.
(** When nothing at all was pruned, the lines are exactly SDMap's. *)
Theorem C33_nothing_pruned : forall V (c : star_config V) df tcol tval st st', 0 < sc_num c -> categorical df -> distinct_keys df tcol -> has_column df tcol ->
  c_write (sc_base c) = true -> star_fit c st df tcol tval = Ok st' -> (exists X, frequent_for c df tcol tval X) ->
  ss_cpruned st' = ss_cpruned st -> ss_pruned st' = ss_pruned st ->
  exists ls, st_file (ss_base st') = Some ls /\ NoDup (map r_subgroup ls) /\
    forall r, In r ls <-> exists X q, frequent_for c df tcol tval X /\ quality (c_measure (sc_base c)) df tcol tval X = Ok q /\
      c_reaches (sc_base c) q = true /\ r = line_of df tcol tval X q.
Proof.
  intros V c df tcol tval st st' Hn Hcat Hquo Hcol Hw H HX Hc Hp.
  destruct (fit_cases _ _ _ _ _ _ _ Hn Hcat Hquo Hcol Hw H HX) as (W & L & F & Q).
  eexists. split; [exact F|]. split; [apply wlines_nodup, L|]. intros r. rewrite wlines_in. split.
  - intros ([X [tp fp]] & q & I & Eq & Rq & ->).
    cbn [fst snd] in *. destruct (l_sound _ _ _ _ _ _ _ L X tp fp I) as (A & _). destruct (l_exact _ _ _ _ _ _ _ L Hc X tp fp I) as [-> ->].
    exists X, q. auto.
  - intros (X & q & A & Eq & Rq & ->). destruct (l_complete _ _ _ _ _ _ _ L Hc X A) as [I|[I _]]; [|lia].
    apply in_map_iff in I. destruct I as ([Y [tp fp]] & E & I). cbn [fst] in E. subst Y. destruct (l_exact _ _ _ _ _ _ _ L Hc X tp fp I) as [-> ->].
    eexists (X, _), q. split; [exact I|]. auto.
Qed.
(** A new object, no pruned node in a conditional tree, qualities in a strict weak order, the
    same quality measure for the list of the best ones, an estimate that is at least the
    quality of each frequent refinement: every frequent description that reaches the minimum
    is written with its true counts, or at least [num_subgroups] written descriptions have a
    greater quality.  So the [num_subgroups] best descriptions are written. *)
Theorem C33_top_k : forall V (c : star_config V) df tcol tval st0 st', 0 < sc_num c -> categorical df -> distinct_keys df tcol -> has_column df tcol ->
  c_write (sc_base c) = true -> star_new c = Ok st0 -> star_fit c st0 df tcol tval = Ok st' -> ss_cpruned st' = 0%nat ->
  strict_weak_order (sc_lt c) ->
  (forall tp fp, sc_kquality c tp fp (TP_of df tcol tval) (FP_of df tcol tval) = c_measure (sc_base c) tp fp (TP_of df tcol tval) (FP_of df tcol tval)) ->
  (forall tp fp q o, 0 <= tp <= TP_of df tcol tval -> 0 <= fp <= FP_of df tcol tval -> c_measure (sc_base c) tp fp (TP_of df tcol tval) (FP_of df tcol tval) = Ok q ->
     sc_oe c tp fp (TP_of df tcol tval) (FP_of df tcol tval) = Ok o -> sc_lt c o q = false) ->
  (forall X Y o q, incl Y X -> frequent_for c df tcol tval Y -> frequent_for c df tcol tval X ->
     quality (sc_oe c) df tcol tval Y = Ok o -> quality (c_measure (sc_base c)) df tcol tval X = Ok q -> sc_lt c o q = false) ->
  (forall q q', sc_lt c q q' = true -> c_reaches (sc_base c) q = true -> c_reaches (sc_base c) q' = true) ->
  forall X q, frequent_for c df tcol tval X -> quality (c_measure (sc_base c)) df tcol tval X = Ok q -> c_reaches (sc_base c) q = true ->
  exists ls, st_file (ss_base st') = Some ls /\
    (In (line_of df tcol tval X q) ls \/
     exists better, NoDup better /\ incl better ls /\ Z.of_nat (length better) = sc_num c /\
       forall r, In r better -> sc_lt c q (r_quality r) = true).
Proof.
  intros V c df tcol tval st0 st' Hn Hcat Hquo Hcol Hw Hnew H Hc (W1 & W2 & W3) Hk Ho Hr Hm X q HX Eq Rq.
  destruct (fit_cases _ _ _ _ _ _ _ Hn Hcat Hquo Hcol Hw H (ex_intro _ X HX)) as (W & L & F & Qd).
  unfold star_new, sdmap_new in Hnew. destruct (thresholds _ _ _); [|discriminate]. cbn [bind] in Hnew. injection Hnew as <-.
  eexists. split; [exact F|]. cbn [ss_cpruned] in Hc.
  destruct (l_complete _ _ _ _ _ _ _ L Hc X HX) as [I|(_ & Y & IY & HY & o & w & Eo & Lw & Dm)].
  - left. apply in_map_iff in I. destruct I as ([Y [tp fp]] & E & I). cbn [fst] in E. subst Y. destruct (l_exact _ _ _ _ _ _ _ L Hc X tp fp I) as [-> ->].
    apply wlines_in. eexists (X, _), q. split; [exact I|]. auto.
  - right. assert (Sn : sane c (TP_of df tcol tval) (FP_of df tcol tval)).
    { split; auto. split; auto. split; auto. intros tp fp q' o' A B C. rewrite Hk in C. eauto. }
    assert (Ki : kinv c (StarS (SDS 0 0 None) [] 0 0)) by (split; [constructor|cbn; lia]).
    destruct (Dm Sn Ki) as [Fu Bo]. destruct (l_top _ _ _ _ _ _ _ L Sn Ki) as (Qs & R & FQ & PQ & _). cbn [ss_k app] in PQ.
    pose proof (Hr X Y o q IY HY HX Eo Eq) as Lo.
    assert (Gt : forall y, In y (ss_k st') -> sc_lt c q y = true).
    { intros y Iy. destruct (sc_lt c q y) eqn:E; auto. pose proof (W3 o q y Lo E) as E1. rewrite (W3 o y w E1 (Bo y Iy)) in Lw. discriminate. }
    assert (exists W', Permutation W W' /\ Forall2 (fun v x => c_measure (sc_base c) (fst (snd v)) (snd (snd v)) (TP_of df tcol tval) (FP_of df tcol tval) = Ok x) W' (ss_k st' ++ R)) as (W' & PW & FW).
    { assert (F2 : Forall2 (fun x (v : list selector * (Z * Z)) => c_measure (sc_base c) (fst (snd v)) (snd (snd v)) (TP_of df tcol tval) (FP_of df tcol tval) = Ok x) Qs W).
      { clear -FQ Hk. induction FQ as [|v x W Qs E FQ IH]; constructor; auto. rewrite <- Hk. exact E. }
      destruct (Permutation_Forall2 (Permutation_sym PQ) F2) as (W' & P & F3). exists W'. split; auto.
      clear -F3. induction F3; constructor; auto. }
    apply Forall2_app_inv_r in FW. destruct FW as (A & B & FA & _ & ->).
    assert (NA : NoDup (map fst A)).
    { pose proof (Permutation_NoDup (Permutation_map fst PW) (l_nodup _ _ _ _ _ _ _ L)) as N. rewrite map_app in N. clear -N. revert N. generalize (map fst B). intros l N.
      induction (map fst A) as [|x l' IH]; [constructor|]. cbn [app] in N. inversion N as [|? ? N1 N2]; subst. constructor; auto. intros I. apply N1, in_or_app; auto. }
    assert (IA : incl A W) by (intros v Iv; apply (Permutation_in v (Permutation_sym PW)), in_or_app; auto).
    set (wl := wlines (sc_base c) (Sel tcol EQUAL (VStr tval)) (TP_of df tcol tval) (FP_of df tcol tval)).
    exists (wl A). split; [|split; [|split]].
    + apply NoDup_map_inv with (f := r_subgroup), wlines_nodup; auto.
    + intros r I. apply wlines_in in I. destruct I as (v & q' & I & E). apply wlines_in. exists v, q'. split; auto.
    + assert (LA : length (wl A) = length A).
      { clear -FA Gt Rq Hm. unfold wl. revert FA Gt. generalize (ss_k st'). intros l FA Gt.
        induction FA as [|v x A l E FA IH]; [reflexivity|]. cbn [wlines flat_map]. fold (wlines (sc_base c) (Sel tcol EQUAL (VStr tval)) (TP_of df tcol tval) (FP_of df tcol tval) A).
        assert (E2 : c_measure (sc_base c) (fst (snd v)) (snd (snd v)) (TP_of df tcol tval) (FP_of df tcol tval) = Ok x) by exact E. rewrite E2.
        rewrite (Hm q x) by (auto; apply Gt; left; auto). cbn [app length]. rewrite IH by (intros; apply Gt; right; auto). reflexivity. }
      rewrite LA. assert (length A = length (ss_k st')) as -> by (clear -FA; induction FA; cbn [length]; lia). exact Fu.
    + intros r I. apply wlines_in in I. destruct I as (v & q' & I & E & _ & ->). cbn [r_quality]. apply Gt.
      clear -FA I E. induction FA as [|v' x A l E' FA IH]; [destruct I|]. destruct I as [<-|I]; [left; congruence|right; auto].
Qed.
Print Assumptions C33_sound. Print Assumptions C33_exact_counts. Print Assumptions C33_nothing_pruned. Print Assumptions C33_top_k.

(** * The Piatetsky-Shapiro measure with its second estimate *)
Definition qlt (x y : Q) : bool := negb (Qle_bool y x).
Definition on_counts (m : measure) (tp fp TP FP : Z) : res Q := compute m (table (inject_Z tp) (inject_Z fp) (inject_Z TP) (inject_Z FP)).
(** Minimum quality [qmin], minimum n 1, the [num] best. *)
Definition ps_config (qmin : Q) (num : Z) : star_config Q :=
  StarC (SDC (on_counts PiatetskyShapiro) (fun q => Qle_bool qmin q) None None (Some 1) true)
        (on_counts PSOptimisticEstimate2) (on_counts PiatetskyShapiro) qlt Qeq_bool num.
Lemma qlt_true : forall x y, qlt x y = true <-> (x < y)%Q.
Proof. intros x y. unfold qlt. rewrite negb_true_iff. split; [intros H; apply Qnot_le_lt; intros G; apply Qle_bool_iff in G; congruence|]. intros H. apply not_true_iff_false. rewrite Qle_bool_iff. apply Qlt_not_le; auto. Qed.
Lemma qlt_false : forall x y, qlt x y = false <-> (y <= x)%Q.
Proof. intros x y. unfold qlt. rewrite negb_false_iff. apply Qle_bool_iff. Qed.
Lemma qlt_weak : strict_weak_order qlt.
Proof.
  split; [|split].
  - intros x. apply qlt_false. lra.
  - intros x y H. apply qlt_true in H. apply qlt_false. lra.
  - intros x y z A B. apply qlt_false in A, B. apply qlt_false. lra.
Qed.
Lemma ps_values : forall tp fp TP FP q, on_counts PiatetskyShapiro tp fp TP FP = Ok q ->
  (q == inject_Z tp - (inject_Z tp + inject_Z fp) * (inject_Z TP / (inject_Z TP + inject_Z FP)))%Q.
Proof.
  intros tp fp TP FP q H. unfold on_counts in H. cbn [compute ps_m table pget lookup String.eqb Ascii.eqb Bool.eqb bind] in H.
  unfold qdiv in H. destruct (Qeq_bool (_ + _) 0) eqn:E1 in H; [discriminate|]. cbn [bind] in H. destruct (Qeq_bool _ 0) eqn:E2 in H; [discriminate|]. cbn [bind] in H.
  injection H as <-. apply Qeq_bool_neq in E1. apply Qeq_bool_neq in E2. field. auto.
Qed.
Lemma ps_oe2_values : forall tp fp TP FP q, on_counts PSOptimisticEstimate2 tp fp TP FP = Ok q ->
  (q == inject_Z tp * (1 - inject_Z TP / (inject_Z TP + inject_Z FP)))%Q.
Proof.
  intros tp fp TP FP q H. unfold on_counts in H. cbn [compute ps_oe2_m table pget lookup String.eqb Ascii.eqb Bool.eqb bind] in H.
  unfold qdiv in H. destruct (Qeq_bool _ 0) eqn:E2 in H; [discriminate|]. cbn [bind] in H.
  injection H as <-. reflexivity.
Qed.
Lemma ps_bound : forall tp fp tp' fp' TP FP o q, 0 <= tp' <= tp -> 0 <= fp' -> 0 <= TP -> 0 <= FP ->
  on_counts PSOptimisticEstimate2 tp fp TP FP = Ok o -> on_counts PiatetskyShapiro tp' fp' TP FP = Ok q -> qlt o q = false.
Proof.
  intros tp fp tp' fp' TP FP o q Ht Hf H1 H2 Eo Eq. apply qlt_false. apply ps_oe2_values in Eo. apply ps_values in Eq. rewrite Eo, Eq.
  assert (A1 : (inject_Z tp' <= inject_Z tp)%Q) by (rewrite <- Zle_Qle; lia).
  assert (A2 : (0 <= inject_Z fp')%Q) by (change 0%Q with (inject_Z 0); rewrite <- Zle_Qle; lia).
  assert (A3 : (0 <= inject_Z TP)%Q) by (change 0%Q with (inject_Z 0); rewrite <- Zle_Qle; lia).
  assert (A4 : (0 <= inject_Z FP)%Q) by (change 0%Q with (inject_Z 0); rewrite <- Zle_Qle; lia).
  assert (B : (0 <= inject_Z TP / (inject_Z TP + inject_Z FP) <= 1)%Q).
  { destruct (Qeq_dec (inject_Z TP + inject_Z FP) 0) as [E|N].
    - rewrite E. unfold Qdiv. setoid_replace (/ 0)%Q with 0%Q by reflexivity. lra.
    - assert (P : (0 < inject_Z TP + inject_Z FP)%Q) by lra. split; [apply Qle_shift_div_l; auto; lra|apply Qle_shift_div_r; auto; lra]. }
  revert B. generalize (inject_Z TP / (inject_Z TP + inject_Z FP))%Q. intros p B. nra.
Qed.
(** The hypotheses of C33_top_k hold for it on every dataset. *)
Theorem C33_top_k_piatetsky_shapiro : forall qmin num df tcol tval st0 st', 0 < num -> categorical df -> distinct_keys df tcol -> has_column df tcol ->
  let c := ps_config qmin num in
  star_new c = Ok st0 -> star_fit c st0 df tcol tval = Ok st' -> ss_cpruned st' = 0%nat ->
  forall X q, frequent_for c df tcol tval X -> quality (on_counts PiatetskyShapiro) df tcol tval X = Ok q -> (qmin <= q)%Q ->
  exists ls, st_file (ss_base st') = Some ls /\
    (In (line_of df tcol tval X q) ls \/
     exists better, NoDup better /\ incl better ls /\ Z.of_nat (length better) = num /\ forall r, In r better -> (q < r_quality r)%Q).
Proof.
  intros qmin num df tcol tval st0 st' Hn Hcat Hquo Hcol c Hnew H Hc X q HX Eq Rq.
  assert (NN : forall df t X, 0 <= tp_of df t X /\ 0 <= fp_of df t X) by (intros; unfold tp_of, fp_of; lia).
  destruct (C33_top_k Q c df tcol tval st0 st' Hn Hcat Hquo Hcol eq_refl Hnew H Hc) with (X := X) (q := q) as (ls & F & R); auto.
  - apply qlt_weak.
  - cbn [c ps_config sc_base sc_oe c_measure sc_lt]. intros tp fp q' o' A B E1 E2. destruct A as [A _], B as [B _]. apply (ps_bound tp fp tp fp (TP_of df tcol tval) (FP_of df tcol tval) o' q'); auto; [lia|apply (proj1 (NN df (Sel tcol EQUAL (VStr tval)) []))|apply (proj2 (NN df (Sel tcol EQUAL (VStr tval)) []))].
  - cbn [c ps_config sc_base sc_oe c_measure sc_lt]. intros X' Y' o' q' I HY HX' E1 E2. set (t := Sel tcol EQUAL (VStr tval)).
    apply (ps_bound (tp_of df t Y') (fp_of df t Y') (tp_of df t X') (fp_of df t X') (TP_of df tcol tval) (FP_of df tcol tval) o' q'); auto;
      [|apply NN|apply (proj1 (NN df t []))|apply (proj2 (NN df t []))].
    split; [apply NN|]. unfold tp_of. apply inj_le. unfold pos_rows. clear -I. induction (seq 0 (df_n df)) as [|i l IH]; cbn [filter]; auto.
    assert (M : matches_all df X' i = true -> matches_all df Y' i = true).
    { unfold matches_all. rewrite !forallb_forall. auto. }
    destruct (matches_all df X' i); [rewrite M by auto|destruct (matches_all df Y' i)]; destruct (row_matchesb df i t); cbn [andb length]; lia.
  - cbn [c ps_config sc_base sc_lt c_reaches]. intros a b A B. apply qlt_true in A. apply Qle_bool_iff in B. apply Qle_bool_iff. lra.
  - cbn. apply Qle_bool_iff; auto.
  - exists ls. split; auto. destruct R as [R|(l & A & B & C & D)]; auto. right. exists l. split; auto. split; auto. split; auto.
    intros r I. apply qlt_true. apply (D r I).
Qed.
Print Assumptions C33_top_k_piatetsky_shapiro.

(** * Counterexamples to C33 *)
(** Three columns and the class, one row per entry. *)
Definition rows3 (l : list (string * string * string * string)) : dataframe :=
  DF (length l) [("a", map (fun r => VStr (fst (fst (fst r)))) l); ("b", map (fun r => VStr (snd (fst (fst r)))) l);
                 ("c", map (fun r => VStr (snd (fst r))) l); ("class", map (fun r => VStr (snd r)) l)].
Lemma rows3_no_quotes : forall l, no_quotes (rows3 l).
Proof. intros l a c [H|[H|[H|[H|[]]]]]; injection H as <- <-; split; reflexivity. Qed.
Lemma rows3_ok : forall l, categorical (rows3 l) /\ distinct_keys (rows3 l) "class" /\ has_column (rows3 l) "class".
Proof.
  intros l. assert (K : forall a c, In (a, c) (df_cols (rows3 l)) -> (a = "a" \/ a = "b" \/ a = "c" \/ a = "class") /\ exists f, c = map (fun r => VStr (f r)) l).
  { intros a c [H|[H|[H|[H|[]]]]]; injection H as <- <-; (split; [auto|]).
    - exists (fun r => fst (fst (fst r))); reflexivity.
    - exists (fun r => snd (fst (fst r))); reflexivity.
    - exists (fun r => snd (fst r)); reflexivity.
    - exists (fun r => snd r); reflexivity. }
  enough (C : categorical (rows3 l)) by (split; [exact C|split; [apply no_quotes_keys; [exact C|]; intros a c I; destruct (K a c I) as ([->|[->|[->| ->]]] & _); split; reflexivity|eexists; reflexivity]]). split; [|split].
  - intros a c I. destruct (K a c I) as (_ & f & ->). apply map_length.
  - repeat constructor; cbn; intuition discriminate.
  - intros a c v I J. destruct (K a c I) as (_ & f & ->). apply in_map_iff in J. destruct J as (r & <- & _). reflexivity.
Qed.
Definition rows_a := [("x","x","x","n"); ("x","y","x","p"); ("y","x","y","n")].
Definition rows_b := [("x","x","y","p"); ("y","y","x","n"); ("x","y","y","p"); ("x","y","x","n"); ("y","x","y","n")].
(** A written subgroup whose tp, fp are (1, 0): two rows satisfy it, one of each class. *)
Theorem C33_counts_counterexample : exists st0 st' ls r,
  let c := ps_config (-(100)) 1 in let df := rows3 rows_a in
  star_new c = Ok st0 /\ star_fit c st0 df "class" "p" = Ok st' /\ st_file (ss_base st') = Some ls /\ In r ls /\
  g_desc (r_subgroup r) = [Sel "a" EQUAL (VStr "x"); Sel "c" EQUAL (VStr "x")] /\ (r_tp r, r_fp r) = (1, 0) /\
  tp_of df (Sel "class" EQUAL (VStr "p")) (g_desc (r_subgroup r)) = 1 /\ fp_of df (Sel "class" EQUAL (VStr "p")) (g_desc (r_subgroup r)) = 1.
Proof.
  eexists _, _, _, (Rec (SG [Sel "a" EQUAL (VStr "x"); Sel "c" EQUAL (VStr "x")] (Sel "class" EQUAL (VStr "p"))) _ 1 0 _ _). cbn zeta.
  split; [vm_compute; reflexivity|]. split; [vm_compute; reflexivity|]. split; [vm_compute; reflexivity|]. split; [|split; [reflexivity|split; [reflexivity|split; vm_compute; reflexivity]]].
  cbn [In]. repeat (try (left; reflexivity); right).
Qed.
(** Two subgroups asked for; the best description of the dataset (quality 6/5) is not written
    and all the written ones have a quality of at most 4/5. *)
Theorem C33_best_counterexample : exists st0 st' ls X q,
  let c := ps_config (-(100)) 2 in let df := rows3 rows_b in
  star_new c = Ok st0 /\ star_fit c st0 df "class" "p" = Ok st' /\ st_file (ss_base st') = Some ls /\
  frequent_for c df "class" "p" X /\ quality (on_counts PiatetskyShapiro) df "class" "p" X = Ok q /\ (q == 6 # 5)%Q /\
  forall r, In r ls -> g_desc (r_subgroup r) <> X /\ (r_quality r <= 4 # 5)%Q.
Proof.
  eexists _, _, _, [Sel "a" EQUAL (VStr "x"); Sel "c" EQUAL (VStr "y")], _. cbn zeta.
  split; [vm_compute; reflexivity|]. split; [vm_compute; reflexivity|]. split; [vm_compute; reflexivity|].
  split; [|split; [vm_compute; reflexivity|split; [vm_compute; reflexivity|]]].
  - split; [split; [discriminate|split]|].
    + vm_compute. repeat constructor.
    + intros s [<-|[<-|[]]]; repeat split; try discriminate; eexists; reflexivity.
    + split; vm_compute; [lia|discriminate].
  - intros r I. cbn [In] in I. repeat (destruct I as [<-|I]; [split; [discriminate|vm_compute; discriminate]|]). destruct I.
Qed.
(** A fit that prunes and still satisfies C33_top_k. *)
Definition rows_c := [("x","x","x","p"); ("x","x","x","p"); ("x","x","y","p"); ("y","y","x","n"); ("y","y","y","n"); ("y","x","y","n")].
Example C33_nonvacuous : exists st0 st', let c := ps_config 0 1 in let df := rows3 rows_c in
  star_new c = Ok st0 /\ star_fit c st0 df "class" "p" = Ok st' /\ ss_cpruned st' = 0%nat /\ (0 < ss_pruned st')%nat /\
  frequent_for c df "class" "p" [Sel "a" EQUAL (VStr "x")] /\ (exists ls, st_file (ss_base st') = Some ls /\ (0 < length ls)%nat).
Proof.
  eexists _, _. cbn zeta. split; [vm_compute; reflexivity|]. split; [vm_compute; reflexivity|]. split; [vm_compute; reflexivity|]. split; [vm_compute; lia|]. split.
  - split; [split; [discriminate|split]|].
    + vm_compute. repeat constructor.
    + intros s [<-|[]]; repeat split; try discriminate; eexists; reflexivity.
    + split; vm_compute; [lia|discriminate].
  - eexists. split; [vm_compute; reflexivity|]. vm_compute. lia.
Qed.
Example C32_nonvacuous : exists a b, let c := ps_config 0 0 in let df := rows3 rows_c in
  star_new c = Ok (StarS (SDS 0 0 None) [] 0 0) /\ sdmap_fit (sc_base c) (SDS 0 0 None) df "class" "p" = Ok a /\ star_fit c (StarS (SDS 0 0 None) [] 0 0) df "class" "p" = Ok b /\
  (0 < st_selected a)%nat /\ st_selected a = st_selected (ss_base b).
Proof. eexists _, _. cbn zeta. split; [reflexivity|]. split; [vm_compute; reflexivity|]. split; [vm_compute; reflexivity|]. split; vm_compute; [lia|reflexivity]. Qed.

(** * C34: fitting again *)
(** SDMap: the second fit raises iff the first does, writes the same file and adds the same
    numbers to the counters (they are not reset). *)
Theorem C34_sdmap_again : forall V (c : sd_config V) df tcol tval st st1, categorical df -> distinct_keys df tcol -> has_column df tcol ->
  sdmap_fit c st df tcol tval = Ok st1 ->
  exists st2, sdmap_fit c st1 df tcol tval = Ok st2 /\ st_file st2 = st_file st1 /\
    (st_selected st2 - st_selected st1 = st_selected st1 - st_selected st)%nat /\ (st_selected st <= st_selected st1)%nat /\
    (st_unselected st2 - st_unselected st1 = st_unselected st1 - st_unselected st)%nat /\ (st_unselected st <= st_unselected st1)%nat.
Proof.
  intros V c df tcol tval st st1 Hcat Hquo Hcol E. destruct (fit_thresholds _ _ _ _ _ _ _ Hcat E) as [ok Hok].
  destruct (sdmap_fit_all V c ok df tcol tval Hcat Hquo Hcol Hok) as (P & NP & HP & EP). rewrite EP in E. rewrite EP.
  destruct P as [|X P].
  - injection E as <-. exists st. repeat split; auto; lia.
  - remember (X :: P) as Q eqn:EQ. clear EQ EP X P. set (tp := tp_of df (Sel tcol EQUAL (VStr tval))) in *. set (fp := fp_of df (Sel tcol EQUAL (VStr tval))) in *.
    pose proof (handle_err c (Sel tcol EQUAL (VStr tval)) (TP_of df tcol tval) (FP_of df tcol tval) tp fp Q _ (ex_intro _ st1 E)) as Hq.
    rewrite (handle_ok c _ _ _ tp fp) in E by auto. injection E as <-. rewrite (handle_ok c _ _ _ tp fp) by auto.
    eexists. split; [reflexivity|]. destruct (c_write c); cbn [st_selected st_unselected st_file]; repeat split; lia.
Qed.
(** The counters of the second fit differ from those of the first one. *)
Theorem C34_counters_counterexample : exists st1 st2,
  sdmap_fit toy_config (SDS 0 0 None) toy "class" "p" = Ok st1 /\ sdmap_fit toy_config st1 toy "class" "p" = Ok st2 /\
  st_selected st1 = 3%nat /\ st_selected st2 = 6%nat /\ visited_nodes st1 = 7%nat /\ visited_nodes st2 = 14%nat.
Proof. eexists _, _. split; [vm_compute; reflexivity|]. split; [vm_compute; reflexivity|]. repeat split; vm_compute; reflexivity. Qed.
(** A fit that finds nothing frequent leaves the file of the fit before. *)
Theorem C34_stale_file_counterexample : exists st1 st2 l, let c := SDC (fun tp fp _ _ => Ok (tp - fp)) (fun q => 1 <=? q) None None (Some 2) true in
  let small := DF 1 [("a", [VStr "x"]); ("class", [VStr "p"])] in
  sdmap_fit c (SDS 0 0 None) toy "class" "p" = Ok st1 /\ sdmap_fit c st1 small "class" "p" = Ok st2 /\
  st_file st2 = Some l /\ l <> [] /\ forall X, ~ frequent small "class" "p" None None (Some 2) X.
Proof.
  eexists _, _, _. cbn zeta. split; [vm_compute; reflexivity|]. split; [vm_compute; reflexivity|]. split; [reflexivity|]. split; [discriminate|].
  intros X (_ & _ & H). cbn [supported] in H. unfold tp_of, fp_of, pos_rows, neg_rows in H. cbn [df_n seq filter] in H.
  destruct (matches_all _ X 0), (row_matchesb _ 0 _); cbn [andb negb length Z.of_nat] in H; lia.
Qed.
(** SDMapStar: the second fit of the same object writes fewer subgroups. *)
Definition rows_d := DF 2 [("a", [VStr "x"; VStr "y"]); ("class", [VStr "p"; VStr "n"])].
Theorem C34_sdmapstar_counterexample : exists st0 st1 st2 l1 l2, let c := ps_config (-(100)) 2 in
  star_new c = Ok st0 /\ star_fit c st0 rows_d "class" "p" = Ok st1 /\ star_fit c st1 rows_d "class" "p" = Ok st2 /\
  st_file (ss_base st1) = Some l1 /\ st_file (ss_base st2) = Some l2 /\ length l1 = 2%nat /\ length l2 = 1%nat.
Proof. eexists _, _, _, _, _. cbn zeta. repeat (split; [vm_compute; reflexivity|]). vm_compute; reflexivity. Qed.
Print Assumptions C34_sdmap_again.
