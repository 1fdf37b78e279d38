(** Theorem C73 for SDMapStar: crash points; C33: the exceptions of SDMapStar. *)
From Verif Require Import SDMapStarErrors CrashStar CrashProofs ReportProofs CoreText FileLoad MiningProofs SDMapProofs.
From Verif Require Import QualityModel Properties_SDMap Properties_SDMapStar Properties_VLSD Properties_Report Properties_Crash.
From Coq Require Import Lia.
Open Scope string_scope.
Open Scope list_scope.
Open Scope nat_scope.

(** * C33: with a limit, an exception of fit is an exception of the quality measure or of the optimistic estimate, on the numbers of some rows. *)
Theorem C33_errors : forall V (c : star_config V) st0 df tcol tval st e, (0 < sc_num c)%Z -> categorical df -> distinct_keys df tcol -> has_column df tcol ->
  star_new c = Ok st0 -> star_fit c st df tcol tval = Err e ->
  exists tp fp, (0 <= tp <= TP_of df tcol tval /\ 0 <= fp <= FP_of df tcol tval /\ 0 < tp + fp)%Z /\
    (sc_kquality c tp fp (TP_of df tcol tval) (FP_of df tcol tval) = Err e \/ sc_oe c tp fp (TP_of df tcol tval) (FP_of df tcol tval) = Err e \/
     c_measure (sc_base c) tp fp (TP_of df tcol tval) (FP_of df tcol tval) = Err e).
Proof. exact star_fit_blame. Qed.
Print Assumptions C33_errors.

(** * C73 *)
Theorem C73_sdmapstar_faithful : forall V (c : star_config V) st df tcol tval,
  snd (sdmapstar_run c st df tcol tval) = star_fit c st df tcol tval /\
  (forall st', star_fit c st df tcol tval = Ok st' -> ss_base st' = fold_left sd_effect (fst (sdmapstar_run c st df tcol tval)) (ss_base st)).
Proof. intros V c st df tcol tval. destruct (star_follows V c st df tcol tval) as [H1 H2]. split; auto. intros st' E. apply H2. rewrite H1. exact E. Qed.
Theorem C73_sdmapstar_closing : forall V (c : star_config V) st df tcol tval, c_write (sc_base c) = true ->
  well_ordered (sdmapstar_run c st df tcol tval) /\
  (forall e, snd (sdmapstar_run c st df tcol tval) = Err e -> closed (fst (sdmapstar_run c st df tcol tval)) = false) /\
  (all_nominal df = false \/ col_get (df_cols df) tcol = None -> exists e, sdmapstar_run c st df tcol tval = ([], Err e)).
Proof.
  intros V c st df tcol tval Hw.
  assert (W : well_ordered (sdmapstar_run c st df tcol tval)).
  { destruct (star_shape V c st df tcol tval Hw) as [[E _]|(TP & FP & fuel & t & st0 & E)]; [left; auto|]. cbn zeta in E. right. rewrite E. cbn [fst snd].
    eexists. split; [|split; [|reflexivity]]; apply inner_body; eapply Forall_impl; try apply (star_fpgrowth_effects c); intros e [H _]; exact H. }
  split; auto. split.
  - intros e E. destruct W as [->|(body & _ & C & ->)]; [reflexivity|]. rewrite E, app_nil_r. exact C.
  - intros [E|E]; unfold sdmapstar_run; cbn zeta; [rewrite E; eexists; reflexivity|]. destruct (negb (all_nominal df)); [eexists; reflexivity|].
    unfold target_mask, df_col. rewrite E. cbn. eexists; reflexivity.
Qed.
Lemma star_final : forall V (c : star_config V) st st' df tcol tval, c_write (sc_base c) = true -> star_fit c st df tcol tval = Ok st' ->
  let t := fst (sdmapstar_run c st df tcol tval) in
  (t = [] /\ st' = st) \/ (t <> [] /\ ss_base st' = SDS (st_selected (ss_base st) + selected_in t) (st_unselected (ss_base st) + unselected_in t) (Some (lines_of t))).
Proof.
  intros V c st st' df tcol tval Hw E t. unfold t. clear t. destruct (C73_sdmapstar_faithful V c st df tcol tval) as [F1 F2]. pose proof (F2 _ E) as F3. clear F2. rewrite E in F1.
  destruct (star_shape V c st df tcol tval Hw) as [[E0 H0]|(TP & FP & fuel & t & s0 & Es)]; [left; split; [exact E0|apply H0; exact F1]|]. right. cbn zeta in Es.
  destruct (C73_sdmapstar_closing V c st df tcol tval Hw) as [W _]. assert (N : fst (sdmapstar_run c st df tcol tval) <> []) by (rewrite Es; discriminate). split; auto. clear Es.
  destruct (sdmapstar_run c st df tcol tval) as [tt' r]. cbn [fst snd] in *. subst r. destruct W as [W|(body & O & C & W)]; cbn [fst snd] in W; [contradiction|]. subst tt'.
  rewrite F3. cbn [fold_left]. rewrite fold_left_app. change (fold_left sd_effect body (sd_effect (ss_base st) EOpen)) with (replay sd_effect body (sd_effect (ss_base st) EOpen)).
  rewrite sd_replay by auto. cbn [fold_left sd_effect st_selected st_unselected st_file app].
  change (EOpen :: body ++ [EClose]) with ([EOpen] ++ body ++ [EClose]). rewrite !selected_app, !unselected_app, !lines_of_app. cbn. rewrite !Nat.add_0_r, app_nil_r. reflexivity.
Qed.
Lemma star_values : forall V (c : star_config V) st df tcol tval, c_write (sc_base c) = true ->
  Forall (fun r => c_measure (sc_base c) (r_tp r) (r_fp r) (r_TP r) (r_FP r) = Ok (r_quality r) /\ c_reaches (sc_base c) (r_quality r) = true) (lines_of (fst (sdmapstar_run c st df tcol tval))).
Proof.
  intros V c st df tcol tval Hw. apply effects_lines. destruct (star_shape V c st df tcol tval Hw) as [[E _]|(TP & FP & fuel & t & s0 & E)]; rewrite E; [constructor|]. cbn [fst]. constructor; auto. apply Forall_app. split.
  - eapply Forall_impl; [|apply (star_fpgrowth_effects c)]. intros [] [_ H]; auto.
  - destruct (snd _); repeat constructor.
Qed.
Lemma star_settled : forall V (c : star_config V) st df tcol tval, c_write (sc_base c) = true -> settled (fst (sdmapstar_run c st df tcol tval)).
Proof.
  intros V c st df tcol tval Hw. destruct (star_shape V c st df tcol tval Hw) as [[E _]|(TP & FP & fuel & t & s0 & E)]; rewrite E; [apply settled_nil|]. cbn [fst].
  apply (settled_app [EOpen]); [apply settled_mark; auto|]. apply settled_app; [apply star_fpgrowth_settled; auto|].
  destruct (snd _); [apply settled_mark; auto|apply settled_nil].
Qed.
(** With functions that do not raise: the visited descriptions. *)
Lemma star_total : forall V (c : star_config V) v0 st df tcol tval, (0 <= sc_num c)%Z -> categorical df -> distinct_keys df tcol -> has_column df tcol -> c_write (sc_base c) = true ->
  fst (sdmapstar_run c st df tcol tval) <> [] -> let c' := star_totalised v0 c in let t := fst (sdmapstar_run c' st df tcol tval) in
  exists W, NoDup (map fst W) /\
    (forall X tp fp, In (X, (tp, fp)) W -> frequent df tcol tval (c_min_tp (sc_base c)) (c_min_fp (sc_base c)) (c_min_n (sc_base c)) X /\
       (tp <= tp_of df (Sel tcol EQUAL (VStr tval)) X /\ fp <= fp_of df (Sel tcol EQUAL (VStr tval)) X)%Z /\
       supported (c_min_tp (sc_base c)) (c_min_fp (sc_base c)) (c_min_n (sc_base c)) tp fp /\
       (sc_num c = 0%Z -> tp = tp_of df (Sel tcol EQUAL (VStr tval)) X /\ fp = fp_of df (Sel tcol EQUAL (VStr tval)) X)) /\
    lines_of t = wlines (sc_base c') (Sel tcol EQUAL (VStr tval)) (TP_of df tcol tval) (FP_of df tcol tval) W /\
    selected_in t + unselected_in t = length W.
Proof.
  intros V c v0 st df tcol tval H0 Hcat Hk Hcol Hw N c' t.
  assert (Hok : exists ok, thresholds (c_min_tp (sc_base c)) (c_min_fp (sc_base c)) (c_min_n (sc_base c)) = Ok ok).
  { destruct (thresholds (c_min_tp (sc_base c)) (c_min_fp (sc_base c)) (c_min_n (sc_base c))) as [ok|] eqn:T; [eauto|]. exfalso. apply N. unfold sdmapstar_run, generate_set_of_frequent_selectors. rewrite T. cbn zeta.
    destruct (negb (all_nominal df)); [reflexivity|]. destruct (target_mask _ _ _); [|reflexivity]. unfold run_bind, run_lift. cbn [fst snd app bind]. destruct (population _ _). reflexivity. }
  destruct Hok as [ok Hok].
  assert (Hnew : star_new c' = Ok (StarS (SDS 0 0 None) [] 0 0)) by (unfold star_new, sdmap_new; cbn [c' star_totalised sc_base sd_totalised c_min_tp c_min_fp c_min_n]; rewrite Hok; reflexivity).
  destruct (star_le V v0 c st df tcol tval) as [LE _]. fold c' in LE. fold t in LE.
  assert (Nt : t <> []) by (intros K; apply N; rewrite K in LE; apply begins_of_nil in LE; auto).
  assert (Hw' : c_write (sc_base c') = true) by exact Hw.
  assert (D : (0 < sc_num c')%Z \/ sc_num c' = 0%Z) by (change (sc_num c') with (sc_num c); lia).
  enough (exists st' W, star_fit c' st df tcol tval = Ok st' /\ NoDup (map fst W) /\
    (forall X tp fp, In (X, (tp, fp)) W -> frequent df tcol tval (c_min_tp (sc_base c)) (c_min_fp (sc_base c)) (c_min_n (sc_base c)) X /\
       (tp <= tp_of df (Sel tcol EQUAL (VStr tval)) X /\ fp <= fp_of df (Sel tcol EQUAL (VStr tval)) X)%Z /\
       supported (c_min_tp (sc_base c)) (c_min_fp (sc_base c)) (c_min_n (sc_base c)) tp fp /\
       (sc_num c = 0%Z -> tp = tp_of df (Sel tcol EQUAL (VStr tval)) X /\ fp = fp_of df (Sel tcol EQUAL (VStr tval)) X)) /\
    ((st' = st /\ W = []) \/ fold_res (handle_individual_result (sc_base c') (Sel tcol EQUAL (VStr tval)) (TP_of df tcol tval) (FP_of df tcol tval)) W
      (SDS (st_selected (ss_base st)) (st_unselected (ss_base st)) (Some [])) = Ok (ss_base st'))) as (st' & W & Est & ND & HW & HF).
  { exists W. split; auto. split; auto. destruct (star_final V c' st st' df tcol tval Hw' Est) as [[K _]|[_ Eb]]; [contradiction|]. fold t in Eb. destruct HF as [[-> ->]|HF].
    - assert (L0 : lines_of t = []). { destruct (lines_of t) eqn:K; auto. exfalso. destruct (ss_base st) as [a b f]. cbn [st_selected st_unselected st_file] in Eb. pose proof (f_equal st_selected Eb) as K1. cbn [st_selected] in K1. pose proof (star_settled V c' st df tcol tval Hw') as [ST _]. fold t in ST. rewrite K in ST. cbn [length] in ST. lia. }
      rewrite L0. split; [reflexivity|]. pose proof (f_equal st_selected Eb) as K1. pose proof (f_equal st_unselected Eb) as K2. cbn [st_selected st_unselected] in K1, K2. cbn [length]. lia.
    - destruct (handle_fold _ _ _ _ _ _ _ HF) as (_ & H1 & H2 & H3). rewrite Hw' in H3. rewrite Eb in H1, H2, H3. cbn [st_selected st_unselected st_file app] in H1, H2, H3. split; [injection H3 as H3; exact H3|]. assert (K : forall a b n m k, n + a + (m + b) = n + m + k -> a + b = k) by (intros; lia). exact (K _ _ _ _ _ H2). }
  destruct D as [D|D].
  - destruct (star_fit c' st df tcol tval) as [st'|e] eqn:E.
    + destruct (star_fit_limit V c' df tcol tval st st' D Hcat Hk Hcol E) as [[-> Hn]|[W L]].
      * exists st, []. split; auto. split; [constructor|]. split; [intros X tp fp []|]. left; auto.
      * exists st', W. split; auto. split; [apply L|]. split.
        -- intros X tp fp I. destruct (l_sound _ _ _ _ _ _ _ L X tp fp I) as (A1 & A2 & A3 & A4). split; [exact A1|]. split; [split; auto|]. split; [exact A4|]. intros K. exfalso. change (sc_num c') with (sc_num c) in D. lia.
        -- right. pose proof (l_handled _ _ _ _ _ _ _ L) as K. rewrite Hw' in K. exact K.
    + exfalso. destruct (star_fit_blame V c' _ df tcol tval st e D Hcat Hk Hcol Hnew E) as (tp & fp & _ & [K|[K|K]]).
      all: cbn [c' star_totalised sc_kquality sc_oe sc_base sd_totalised c_measure] in K; unfold totalised in K; match type of K with match ?x with _ => _ end = _ => destruct x; discriminate end.
  - destruct (star_fit_spec V c' ok df tcol tval st) as (P & NDP & HP & E); auto; [lia|].
    set (W := map (fun X => (X, (tp_of df (Sel tcol EQUAL (VStr tval)) X, fp_of df (Sel tcol EQUAL (VStr tval)) X))) P).
    assert (EW : map fst W = P) by (unfold W; rewrite map_map; cbn [fst]; apply map_id).
    assert (Hsd : forall X tp fp, In (X, (tp, fp)) W -> In X P /\ tp = tp_of df (Sel tcol EQUAL (VStr tval)) X /\ fp = fp_of df (Sel tcol EQUAL (VStr tval)) X).
    { intros X tp fp I. apply in_map_iff in I. destruct I as (Y & Ey & I). injection Ey as <- <- <-. auto. }
    destruct (star_fit c' st df tcol tval) as [st'|e] eqn:E'.
    + exists st', W. split; auto. split; [rewrite EW; auto|]. split.
      * intros X tp fp I. apply Hsd in I. destruct I as (I & -> & ->). apply HP in I. split; [exact I|]. split; [lia|]. split; [apply I|auto].
      * destruct P as [|X P']; [left; split; [congruence|reflexivity]|]. right. rewrite Hw' in E.
        match type of E with _ = bind ?m _ => destruct m as [b'|] eqn:Eb; [|discriminate] end. cbn [bind] in E. injection E as ->. cbn [ss_base]. rewrite <- Eb. unfold W. clear. 
        generalize (SDS (st_selected (ss_base st)) (st_unselected (ss_base st)) (Some (A := list (record V)) [])). generalize (X :: P'). induction l as [|Y l IH]; intros s; cbn [map fold_res]; auto.
        match goal with |- bind ?m _ = _ => destruct m end; cbn [bind]; auto.
    + exfalso. destruct P as [|X P']; [discriminate|]. match type of E with _ = bind ?m _ => destruct m as [b'|] eqn:Eb; [discriminate|] end. clear -Eb. revert Eb.
      generalize (if c_write (sc_base c') then SDS (st_selected (ss_base st)) (st_unselected (ss_base st)) (Some (A := list (record V)) []) else ss_base st). generalize (X :: P'). clear. induction l as [|Y l IH]; intros s H; [discriminate|]. cbn [fold_res] in H.
      assert (K : exists s', handle_individual_result (sc_base c') (Sel tcol EQUAL (VStr tval)) (TP_of df tcol tval) (FP_of df tcol tval) s (Y, (tp_of df (Sel tcol EQUAL (VStr tval)) Y, fp_of df (Sel tcol EQUAL (VStr tval)) Y)) = Ok s').
      { unfold handle_individual_result, c'. cbn [star_totalised sc_base sd_totalised c_measure]. unfold totalised. destruct (c_measure _ _ _ _ _); cbn [bind]; destruct (c_reaches _ _); eauto. }
      destruct K as [s' K]. rewrite K in H. cbn [bind] in H. exact (IH _ H).
Qed.
(** At any crash point: every line written so far is a frequent description with a sufficient quality; its numbers are supported ones and count rows that it
    covers (all of them when there is no limit); no description is written twice; if the fit ends, they are the first lines of its file. *)
Theorem C73_sdmapstar_crash_lines : forall V (c : star_config V) df tcol tval st evs, (0 <= sc_num c)%Z ->
  categorical df -> distinct_keys df tcol -> has_column df tcol -> c_write (sc_base c) = true ->
  begins evs (fst (sdmapstar_run c st df tcol tval)) ->
  NoDup (map r_subgroup (lines_of evs)) /\
  (forall r, In r (lines_of evs) -> exists X q tp fp, frequent_for c df tcol tval X /\
     r = Rec (SG X (Sel tcol EQUAL (VStr tval))) q tp fp (TP_of df tcol tval) (FP_of df tcol tval) /\
     (tp <= tp_of df (Sel tcol EQUAL (VStr tval)) X /\ fp <= fp_of df (Sel tcol EQUAL (VStr tval)) X)%Z /\
     supported (c_min_tp (sc_base c)) (c_min_fp (sc_base c)) (c_min_n (sc_base c)) tp fp /\
     c_measure (sc_base c) tp fp (TP_of df tcol tval) (FP_of df tcol tval) = Ok q /\ c_reaches (sc_base c) q = true /\
     (sc_num c = 0%Z -> r = line_of df tcol tval X q)) /\
  (forall st' ls, star_fit c st df tcol tval = Ok st' -> opened evs = true -> st_file (ss_base st') = Some ls -> begins (lines_of evs) ls).
Proof.
  intros V c df tcol tval st evs H0 Hcat Hk Hcol Hw B. rewrite <- and_assoc. split.
  - destruct (lines_of evs) as [|r0 ls0] eqn:El; [split; [constructor|intros r []]|].
    assert (N : fst (sdmapstar_run c st df tcol tval) <> []) by (intros K; rewrite K in B; apply begins_of_nil in B; subst evs; discriminate).
    destruct (star_le V (r_quality r0) c st df tcol tval) as [LE _]. pose proof (begins_lines _ _ (begins_trans _ _ _ B LE)) as BL. rewrite El in BL.
    pose proof (star_values V c st df tcol tval Hw) as HV. rewrite Forall_forall in HV.
    destruct (star_total V c (r_quality r0) st df tcol tval H0 Hcat Hk Hcol Hw N) as (W & ND & HW & EL & _). rewrite EL in BL. split.
    + eapply begins_nodup; [apply begins_map; exact BL|apply wlines_nodup; exact ND].
    + intros r I. pose proof (begins_in _ _ r BL I) as I'. apply wlines_in in I'. destruct I' as ([X [tp fp]] & q & IW & _ & _ & Er). cbn [fst snd] in Er.
      pose proof (begins_lines _ _ B) as B2. rewrite El in B2. destruct (HV _ (begins_in _ _ r B2 I)) as [Hm Hr]. subst r. cbn [r_tp r_fp r_TP r_FP r_quality] in Hm, Hr.
      destruct (HW X tp fp IW) as (A1 & A2 & A3 & A4). exists X, q, tp, fp. split; [exact A1|]. split; [reflexivity|]. split; [exact A2|]. split; [exact A3|]. split; [exact Hm|]. split; [exact Hr|].
      intros K. destruct (A4 K) as [-> ->]. reflexivity.
  - intros st' ls E O Ef. destruct (star_final V c st st' df tcol tval Hw E) as [[Et _]|[_ Et]].
    + rewrite Et in B. apply begins_of_nil in B. subst evs. discriminate.
    + rewrite Et in Ef. cbn [st_file] in Ef. injection Ef as <-. apply begins_lines; auto.
Qed.
(** ... and the counters count the lines (the last one may not be counted yet), and no more visits than frequent descriptions. *)
Theorem C73_sdmapstar_crash_counters : forall V (c : star_config V) df tcol tval st evs all, (0 <= sc_num c)%Z ->
  categorical df -> distinct_keys df tcol -> has_column df tcol -> c_write (sc_base c) = true ->
  begins evs (fst (sdmapstar_run c st df tcol tval)) ->
  NoDup all -> (forall X, In X all <-> frequent_for c df tcol tval X) ->
  let now := fold_left sd_effect evs (ss_base st) in
  st_selected now = st_selected (ss_base st) + selected_in evs /\ st_unselected now = st_unselected (ss_base st) + unselected_in evs /\
  selected_in evs <= length (lines_of evs) <= S (selected_in evs) /\
  (evs = fst (sdmapstar_run c st df tcol tval) -> length (lines_of evs) = selected_in evs) /\
  selected_in evs + unselected_in evs <= length all.
Proof.
  intros V c df tcol tval st evs all H0 Hcat Hk Hcol Hw B ND Hall now.
  pose proof (star_settled V c st df tcol tval Hw) as ST.
  destruct (sd_counts V evs (ss_base st)) as [E1 E2]. split; [exact E1|]. split; [exact E2|]. split; [apply ST; auto|]. split; [intros ->; apply ST|].
  destruct (Nat.eq_dec (selected_in evs + unselected_in evs) 0) as [Z|Z]; [lia|].
  assert (N : fst (sdmapstar_run c st df tcol tval) <> []) by (intros K; rewrite K in B; apply begins_of_nil in B; subst evs; apply Z; reflexivity).
  assert (v0 : exists v : V, True).
  { destruct (star_shape V c st df tcol tval Hw) as [[E _]|(TP & FP & fuel & t & s0 & E)]; [rewrite E in N; contradiction|].
    assert (F : Forall (fun e => match e with EOpen | EClose => True | _ => exists v : V, True end) evs).
    { destruct B as [r B]. enough (F : Forall (fun e => match e with EOpen | EClose => True | _ => exists v : V, True end) (fst (sdmapstar_run c st df tcol tval))) by (rewrite B in F; apply Forall_app in F; apply F).
      rewrite E. cbn [fst]. constructor; auto. apply Forall_app. split; [|destruct (snd _); repeat constructor].
      eapply Forall_impl; [|apply (star_fpgrowth_effects c)]. intros [|l| | |] [H1 H2]; auto. exists (r_quality l). exact I. }
    clear -F Z. induction F as [|e evs He F IH]; [contradiction Z; reflexivity|]. destruct e; auto; apply IH; intros K; apply Z; unfold selected_in, unselected_in in *; cbn; auto. }
  destruct v0 as [v0 _]. destruct (star_total V c v0 st df tcol tval H0 Hcat Hk Hcol Hw N) as (W & NDW & HW & _ & EL). destruct (star_le V v0 c st df tcol tval) as [LE _].
  assert (La : length (map fst W) <= length all).
  { apply NoDup_incl_length; auto. intros X I. apply Hall. apply in_map_iff in I. destruct I as ([Y [tp fp]] & <- & I). apply HW in I. apply I. }
  rewrite map_length in La. destruct (begins_trans _ _ _ B LE) as [r Er]. rewrite Er, selected_app, unselected_app in EL. lia.
Qed.
(** On the disk. *)
Theorem C73_sdmapstar_crash_text : forall V (c : star_config V) (show : V -> string) qname df tcol tval st evs old d, (0 <= sc_num c)%Z ->
  categorical df -> clear_dataset df -> clear_value tval -> distinct_keys df tcol -> has_column df tcol -> tidy qname -> (forall v, tidy (show v)) -> c_write (sc_base c) = true ->
  begins evs (fst (sdmapstar_run c st df tcol tval)) -> on_disk (sdmap_line_text show qname) old evs d ->
  (opened evs = false /\ d = old) \/
  exists text rep, d = Some text /\ read_report (whole_lines text) = Ok rep /\ NoDup (map fst rep) /\
    (forall l, In l rep -> exists X q tp fp, frequent_for c df tcol tval X /\
       (tp <= tp_of df (Sel tcol EQUAL (VStr tval)) X /\ fp <= fp_of df (Sel tcol EQUAL (VStr tval)) X)%Z /\
       supported (c_min_tp (sc_base c)) (c_min_fp (sc_base c)) (c_min_n (sc_base c)) tp fp /\
       c_measure (sc_base c) tp fp (TP_of df tcol tval) (FP_of df tcol tval) = Ok q /\ c_reaches (sc_base c) q = true /\
       (sc_num c = 0%Z -> tp = tp_of df (Sel tcol EQUAL (VStr tval)) X /\ fp = fp_of df (Sel tcol EQUAL (VStr tval)) X) /\
       fst l = SG X (Sel tcol EQUAL (VStr tval)) /\
       reads_record show qname (Rec (SG X (Sel tcol EQUAL (VStr tval))) q tp fp (TP_of df tcol tval) (FP_of df tcol tval)) (snd l)) /\
    (closed evs = true -> whole_lines text = text /\ map fst rep = map r_subgroup (lines_of evs)).
Proof.
  intros V c show qname df tcol tval st evs old d H0 Hcat HC Ht Hk Hcol Hq Hv Hw B D. destruct (C73_sdmapstar_crash_lines V c df tcol tval st evs H0 Hcat Hk Hcol Hw B) as (ND & M & _).
  apply (disk_report _ _ r_subgroup (record_fields show qname)) in D.
  - destruct D as [D|(text & k & -> & R & Z)]; [left; auto|right]. exists text, (map (fun x => (r_subgroup x, record_fields show qname x)) (firstn k (lines_of evs))). split; auto. split; auto.
    rewrite map_map. cbn [fst]. split; [eapply begins_nodup; [apply begins_map, firstn_begins|exact ND]|]. split.
    + intros l I. apply in_map_iff in I. destruct I as (r & <- & I). apply firstn_in, M in I. destruct I as (X & q & tp & fp & HX & -> & A2 & A3 & A4 & A5 & A6). exists X, q, tp, fp.
      split; [exact HX|]. split; [exact A2|]. split; [exact A3|]. split; [exact A4|]. split; [exact A5|]. split; [|split; [reflexivity|apply record_reads]].
      intros K. pose proof (A6 K) as A7. split; [exact (f_equal r_tp A7)|exact (f_equal r_fp A7)].
    + intros Hc. destruct (Z Hc) as [Z1 Z2]. rewrite Z1. split; auto.
  - intros r _. unfold sdmap_line_text, record_fields. cbn [String.concat]. rewrite !app_assoc_str. reflexivity.
  - intros r I. apply M in I. destruct I as (X & q & tp & fp & (D1 & C1 & _) & -> & _). split; [apply (description_clear df); auto|]. split; [discriminate|]. apply record_tidy; auto.
Qed.
Print Assumptions C73_sdmapstar_faithful. Print Assumptions C73_sdmapstar_closing. Print Assumptions C73_sdmapstar_crash_lines. Print Assumptions C73_sdmapstar_crash_counters. Print Assumptions C73_sdmapstar_crash_text.
(** With the Piatetsky-Shapiro measure and its estimate (divisions by the number of rows of the population): never an exception. *)
Theorem C33_piatetsky_shapiro_never_raises : forall qmin num df tcol tval st, (0 < num)%Z -> categorical df -> distinct_keys df tcol -> has_column df tcol ->
  exists st', star_fit (ps_config qmin num) st df tcol tval = Ok st'.
Proof.
  intros qmin num df tcol tval st Hn Hcat Hk Hcol. destruct (star_fit (ps_config qmin num) st df tcol tval) as [st'|e] eqn:E; [eauto|]. exfalso.
  destruct (C33_errors Q (ps_config qmin num) (StarS (SDS 0 0 None) [] 0 0) df tcol tval st e Hn Hcat Hk Hcol eq_refl E) as (tp & fp & (H1 & H2 & H3) & D).
  destruct (on_counts_defined PiatetskyShapiro tp fp (TP_of df tcol tval) (FP_of df tcol tval)) as [q Eq]; [cbn; auto|lia|auto|auto|].
  destruct (on_counts_defined PSOptimisticEstimate2 tp fp (TP_of df tcol tval) (FP_of df tcol tval)) as [o Eo]; [cbn; auto|lia|auto|auto|].
  cbn [ps_config sc_kquality sc_oe sc_base c_measure] in D. destruct D as [D|[D|D]]; congruence.
Qed.
Print Assumptions C33_piatetsky_shapiro_never_raises.
