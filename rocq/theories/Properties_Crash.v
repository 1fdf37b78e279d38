(** Theorem C73: crash points.  Whenever fit ends, raises or is killed, the output file holds what it held before or a beginning
    of the report, and its whole lines read back as correct results. *)
From Verif Require Import CrashMiners CrashProofs ReportProofs CoreText FileLoad MiningProofs SDMapProofs VLSDProofs.
From Verif Require Import Properties_SDMap Properties_SDMapStar Properties_VLSD Properties_Report.
From Coq Require Import Lia.
Open Scope string_scope.
Open Scope list_scope.
Open Scope nat_scope.

(** * SDMap *)
(** The run and the model of the final state are the same program. *)
Theorem C73_sdmap_faithful : forall V (c : sd_config V) df tcol tval st,
  sdmap_fit c st df tcol tval =
  match sdmap_run c df tcol tval with
  | (evs, Ok _) => Ok (fold_left sd_effect evs st)
  | (_, Err e) => Err e
  end.
Proof.
  intros V c df tcol tval st. rewrite (sdmap_tracks c df tcol tval st). destruct (sdmap_run c df tcol tval) as [evs [[]|e]]; reflexivity.
Qed.
(** The file is opened at most once, before any other effect, and closed exactly when fit ends. *)
Lemma sdmap_order : forall V (c : sd_config V) df tcol tval, c_write c = true -> well_ordered (sdmap_run c df tcol tval).
Proof.
  intros V c df tcol tval Hw. destruct (sdmap_shape c df tcol tval Hw) as [[E _]|(TP & FP & fuel & t & E)]; [left; auto|]. cbn zeta in E. right. rewrite E. cbn [fst snd].
  eexists. split; [|split; [|reflexivity]]; apply inner_body; eapply Forall_impl; try apply (fpgrowth_effects c); intros e [H _]; exact H.
Qed.
(** At a crash point before the closing the lines are those of the body. *)
Lemma crash_body : forall L A (m : run L A) evs, well_ordered m -> begins evs (fst m) ->
  (evs = [] \/ exists pre, evs = EOpen :: pre /\ begins pre (tl (fst m))).
Proof.
  intros L A m evs W [r E]. destruct evs as [|e evs]; [left; auto|]. right. rewrite E. destruct W as [W|(body & _ & _ & W)]; rewrite W in E; [discriminate|].
  cbn [app] in E. injection E as <- E. exists evs. split; auto. exists r. reflexivity.
Qed.
Lemma begins_of_nil : forall A (l : list A), begins l [] -> l = [].
Proof. intros A l [r E]. symmetry in E. apply app_eq_nil in E. apply E. Qed.
(** The state after a fit that ends. *)
Lemma sdmap_final : forall V (c : sd_config V) st st' df tcol tval, c_write c = true -> sdmap_fit c st df tcol tval = Ok st' ->
  let t := fst (sdmap_run c df tcol tval) in
  snd (sdmap_run c df tcol tval) = Ok tt /\
  ((t = [] /\ st' = st) \/ (t <> [] /\ st' = SDS (st_selected st + selected_in t) (st_unselected st + unselected_in t) (Some (lines_of t)))).
Proof.
  intros V c st st' df tcol tval Hw E t. unfold t. clear t. rewrite C73_sdmap_faithful in E. pose proof (sdmap_order V c df tcol tval Hw) as W.
  destruct (sdmap_run c df tcol tval) as [t [[]|e]]; [|discriminate]. split; [reflexivity|]. cbn [fst].
  assert (E' : fold_left sd_effect t st = st') by congruence. clear E. destruct W as [W|(body & O & C & W)]; cbn [fst snd] in W.
  - left. subst t. auto.
  - right. subst t. split; [discriminate|]. rewrite <- E'. cbn [fold_left]. rewrite fold_left_app.
    change (fold_left sd_effect body (sd_effect st EOpen)) with (replay sd_effect body (sd_effect st EOpen)). rewrite sd_replay by auto. cbn [fold_left sd_effect st_selected st_unselected st_file app].
    change (EOpen :: body ++ [EClose]) with ([EOpen] ++ body ++ [EClose]). rewrite !selected_app, !unselected_app, !lines_of_app. cbn. rewrite !Nat.add_0_r, app_nil_r. reflexivity.
Qed.
(** The lines of a run carry the values of the measure. *)
Lemma sdmap_values : forall V (c : sd_config V) df tcol tval, c_write c = true ->
  Forall (fun r => c_measure c (r_tp r) (r_fp r) (r_TP r) (r_FP r) = Ok (r_quality r) /\ c_reaches c (r_quality r) = true) (lines_of (fst (sdmap_run c df tcol tval))).
Proof.
  intros V c df tcol tval Hw. apply effects_lines. destruct (sdmap_shape c df tcol tval Hw) as [[E _]|(TP & FP & fuel & t & E)]; rewrite E; [constructor|]. cbn [fst]. constructor; auto. apply Forall_app. split.
  - eapply Forall_impl; [|apply (fpgrowth_effects c)]. intros [] [_ H]; auto.
  - destruct (snd _); repeat constructor.
Qed.
(** With a measure that does not raise. *)
Lemma sdmap_total : forall V (c : sd_config V) v0 df tcol tval, categorical df -> distinct_keys df tcol -> has_column df tcol -> c_write c = true ->
  fst (sdmap_run c df tcol tval) <> [] -> let c' := sd_totalised v0 c in let t := fst (sdmap_run c' df tcol tval) in
  sdmap_new c' = Ok (SDS 0 0 None) /\ t <> [] /\ sdmap_fit c' (SDS 0 0 None) df tcol tval = Ok (SDS (selected_in t) (unselected_in t) (Some (lines_of t))) /\
  exists X, frequent df tcol tval (c_min_tp c) (c_min_fp c) (c_min_n c) X.
Proof.
  intros V c v0 df tcol tval Hcat Hk Hcol Hw N c' t.
  assert (Hok : exists ok, thresholds (c_min_tp c) (c_min_fp c) (c_min_n c) = Ok ok).
  { destruct (thresholds (c_min_tp c) (c_min_fp c) (c_min_n c)) as [ok|] eqn:T; [eauto|]. exfalso. apply N. unfold sdmap_run, generate_set_of_frequent_selectors. rewrite T.
    destruct (negb (all_nominal df)); reflexivity. }
  destruct Hok as [ok Hok]. assert (Hnew : sdmap_new c' = Ok (SDS 0 0 None)) by (unfold sdmap_new; cbn [c' sd_totalised c_min_tp c_min_fp c_min_n]; rewrite Hok; reflexivity).
  destruct (proj2 (proj1 (C27_errors V c' _ df tcol tval (SDS 0 0 None) Hcat Hk Hcol Hnew))) as [st' Est]; [intros X _; apply totalised_ok|].
  destruct (sdmap_le v0 c df tcol tval) as [LE _]. fold c' in LE. fold t in LE.
  destruct (sdmap_final V c' _ _ df tcol tval Hw Est) as [_ [[Et _]|[Nt Et]]].
  { exfalso. apply N. fold t in Et. rewrite Et in LE. apply begins_of_nil in LE. auto. }
  split; auto. split; auto. split; [rewrite Est, Et; reflexivity|].
  destruct (sdmap_fit_all V c' ok df tcol tval Hcat Hk Hcol Hok) as (P & _ & HP & _). destruct P as [|X P]; [|exists X; apply HP; left; auto]. exfalso.
  assert (HN : forall X, ~ frequent df tcol tval (c_min_tp c') (c_min_fp c') (c_min_n c') X) by (intros X HX; apply HP in HX; destruct HX).
  pose proof (C27_nothing_frequent V c' _ df tcol tval (SDS 0 0 None) Hcat Hk Hcol Hnew HN) as K. rewrite K in Est. injection Est as <-. discriminate.
Qed.
(** At any crash point: every line written so far is a frequent description with its true numbers and sufficient quality, and no description
    is written twice; if the fit ends, they are the first lines of its file. *)
Theorem C73_sdmap_crash_lines : forall V (c : sd_config V) df tcol tval evs,
  categorical df -> distinct_keys df tcol -> has_column df tcol -> c_write c = true ->
  begins evs (fst (sdmap_run c df tcol tval)) ->
  NoDup (map r_subgroup (lines_of evs)) /\
  (forall r, In r (lines_of evs) -> exists X q, frequent df tcol tval (c_min_tp c) (c_min_fp c) (c_min_n c) X /\
     quality (c_measure c) df tcol tval X = Ok q /\ c_reaches c q = true /\ r = line_of df tcol tval X q) /\
  (forall st st' ls, sdmap_fit c st df tcol tval = Ok st' -> opened evs = true -> st_file st' = Some ls -> begins (lines_of evs) ls).
Proof.
  intros V c df tcol tval evs Hcat Hk Hcol Hw B.
  enough (NoDup (map r_subgroup (lines_of evs)) /\ (forall r, In r (lines_of evs) -> exists X q, frequent df tcol tval (c_min_tp c) (c_min_fp c) (c_min_n c) X /\
     quality (c_measure c) df tcol tval X = Ok q /\ c_reaches c q = true /\ r = line_of df tcol tval X q)) as [H1 H2].
  { split; auto. split; auto. intros st st' ls E O Ef. destruct (sdmap_final V c st st' df tcol tval Hw E) as [_ [[Et _]|[_ Et]]].
    - rewrite Et in B. apply begins_of_nil in B. subst evs. discriminate.
    - rewrite Et in Ef. cbn [st_file] in Ef. injection Ef as <-. apply begins_lines; auto. }
  destruct (lines_of evs) as [|r0 ls0] eqn:El; [split; [constructor|intros r []]|].
  assert (N : fst (sdmap_run c df tcol tval) <> []) by (intros K; rewrite K in B; apply begins_of_nil in B; subst evs; discriminate).
  destruct (sdmap_le (r_quality r0) c df tcol tval) as [LE _]. pose proof (begins_lines _ _ (begins_trans _ _ _ B LE)) as BL. rewrite El in BL.
  pose proof (sdmap_values V c df tcol tval Hw) as HV. rewrite Forall_forall in HV.
  destruct (sdmap_total V c (r_quality r0) df tcol tval Hcat Hk Hcol Hw N) as (_ & _ & Est & Hx).
  destruct (C27_sound_and_complete V (sd_totalised (r_quality r0) c) df tcol tval _ _ Hcat Hk Hcol Hw Est Hx) as (ls & Ef & ND & M). cbn [st_file] in Ef. injection Ef as <-. split.
  - eapply begins_nodup; [apply begins_map; exact BL|exact ND].
  - intros r I. pose proof (begins_in _ _ r BL I) as I'. apply M in I'. destruct I' as (X & q & HX & _ & _ & Er). exists X, q.
    pose proof (begins_lines _ _ B) as B2. rewrite El in B2. destruct (HV _ (begins_in _ _ r B2 I)) as [Hm Hr]. subst r. split; [exact HX|]. split; [exact Hm|]. split; [exact Hr|reflexivity].
Qed.
(** ... and the counters count the lines (the last one may not be counted yet), and no more visits than frequent descriptions. *)
Theorem C73_sdmap_crash_counters : forall V (c : sd_config V) df tcol tval evs st all,
  categorical df -> distinct_keys df tcol -> has_column df tcol -> c_write c = true ->
  begins evs (fst (sdmap_run c df tcol tval)) ->
  NoDup all -> (forall X, In X all <-> frequent df tcol tval (c_min_tp c) (c_min_fp c) (c_min_n c) X) ->
  let now := fold_left sd_effect evs st in
  st_selected now = st_selected st + selected_in evs /\ st_unselected now = st_unselected st + unselected_in evs /\
  selected_in evs <= length (lines_of evs) <= S (selected_in evs) /\
  (snd (sdmap_run c df tcol tval) = Ok tt -> evs = fst (sdmap_run c df tcol tval) -> length (lines_of evs) = selected_in evs) /\
  selected_in evs + unselected_in evs <= length all.
Proof.
  intros V c df tcol tval evs st all Hcat Hk Hcol Hw B ND Hall now.
  assert (ST : settled (fst (sdmap_run c df tcol tval))).
  { destruct (sdmap_shape c df tcol tval Hw) as [[E _]|(TP & FP & fuel & t & E)]; rewrite E; [apply settled_nil|]. cbn [fst]. apply (settled_app [EOpen]); [apply settled_mark; auto|]. apply settled_app; [apply fpgrowth_settled; auto|].
    destruct (snd _); [apply settled_mark; auto|apply settled_nil]. }
  destruct (sd_counts V evs st) as [E1 E2]. split; [exact E1|]. split; [exact E2|]. split; [apply ST; auto|]. split; [intros _ ->; apply ST|].
  destruct (Nat.eq_dec (selected_in evs + unselected_in evs) 0) as [Z|Z]; [lia|].
  assert (N : fst (sdmap_run c df tcol tval) <> []) by (intros K; rewrite K in B; apply begins_of_nil in B; subst evs; apply Z; reflexivity).
  assert (v0 : exists v : V, True).
  { destruct (sdmap_shape c df tcol tval Hw) as [[E _]|(TP & FP & fuel & t & E)]; [rewrite E in N; contradiction|].
    assert (F : Forall (fun e => match e with EOpen | EClose => True | _ => exists v : V, True end) evs).
    { destruct B as [r B]. enough (F : Forall (fun e => match e with EOpen | EClose => True | _ => exists v : V, True end) (fst (sdmap_run c df tcol tval))) by (rewrite B in F; apply Forall_app in F; apply F).
      rewrite E. cbn [fst]. constructor; auto. apply Forall_app. split; [|destruct (snd _); repeat constructor].
      eapply Forall_impl; [|apply (fpgrowth_effects c)]. intros [|l| | |] [H1 H2]; auto. exists (r_quality l). exact I. }
    clear -F Z. induction F as [|e evs He F IH]; [contradiction Z; reflexivity|]. destruct e; auto; apply IH; intros K; apply Z; unfold selected_in, unselected_in in *; cbn; auto. }
  destruct v0 as [v0 _]. destruct (sdmap_total V c v0 df tcol tval Hcat Hk Hcol Hw N) as (Hnew & _ & Est & _). destruct (sdmap_le v0 c df tcol tval) as [LE _].
  destruct (C28_counters V _ _ df tcol tval _ Hcat Hk Hcol Hnew Est) as (all' & good & ND' & Hall' & _ & _ & _ & Ev & _). unfold visited_nodes in Ev. cbn [st_selected st_unselected] in Ev.
  assert (La : length all' = length all).
  { apply Permutation_length, NoDup_Permutation; auto. intros X. rewrite Hall. apply Hall'. }
  destruct (begins_trans _ _ _ B LE) as [r Er]. rewrite Er, selected_app, unselected_app in Ev. lia.
Qed.

(** On the disk: the file holds what it held before, or its whole lines read back as distinct correct results.  After the end of the fit
    there is no incomplete line. *)
Theorem C73_sdmap_crash_text : forall V (c : sd_config V) (show : V -> string) qname df tcol tval evs old d,
  categorical df -> clear_dataset df -> clear_value tval -> distinct_keys df tcol -> has_column df tcol -> tidy qname -> (forall v, tidy (show v)) -> c_write c = true ->
  begins evs (fst (sdmap_run c df tcol tval)) -> on_disk (sdmap_line_text show qname) old evs d ->
  (opened evs = false /\ d = old) \/
  exists text rep, d = Some text /\ read_report (whole_lines text) = Ok rep /\ NoDup (map fst rep) /\
    (forall l, In l rep -> exists X q, frequent df tcol tval (c_min_tp c) (c_min_fp c) (c_min_n c) X /\ quality (c_measure c) df tcol tval X = Ok q /\ c_reaches c q = true /\
       fst l = SG X (Sel tcol EQUAL (VStr tval)) /\ reads_record show qname (line_of df tcol tval X q) (snd l)) /\
    (closed evs = true -> whole_lines text = text /\ map fst rep = map r_subgroup (lines_of evs)).
Proof.
  intros V c show qname df tcol tval evs old d Hcat HC Ht Hk Hcol Hq Hv Hw B D. destruct (C73_sdmap_crash_lines V c df tcol tval evs Hcat Hk Hcol Hw B) as (ND & M & _).
  apply (disk_report _ _ r_subgroup (record_fields show qname)) in D.
  - destruct D as [D|(text & k & -> & R & Z)]; [left; auto|right]. exists text, (map (fun x => (r_subgroup x, record_fields show qname x)) (firstn k (lines_of evs))). split; auto. split; auto.
    rewrite map_map. cbn [fst]. split; [eapply begins_nodup; [apply begins_map, firstn_begins|exact ND]|]. split.
    + intros l I. apply in_map_iff in I. destruct I as (r & <- & I). apply firstn_in, M in I. destruct I as (X & q & HX & Eq & Rq & ->). exists X, q. split; [exact HX|]. split; [exact Eq|]. split; [exact Rq|]. split; [reflexivity|]. apply record_reads.
    + intros Hc. destruct (Z Hc) as [Z1 Z2]. rewrite Z1. split; auto.
  - intros r _. unfold sdmap_line_text, record_fields. cbn [String.concat]. rewrite !app_assoc_str. reflexivity.
  - intros r I. apply M in I. destruct I as (X & q & (D1 & C1 & _) & _ & _ & ->). split; [apply (description_clear df); auto|]. split; [discriminate|]. apply record_tidy; auto.
Qed.
(** A fit that raises never closes the file, one that ends has closed it; refused data and data without frequent descriptions leave the file as it was. *)
Theorem C73_sdmap_closing : forall V (c : sd_config V) df tcol tval, c_write c = true ->
  well_ordered (sdmap_run c df tcol tval) /\
  (forall e, snd (sdmap_run c df tcol tval) = Err e -> closed (fst (sdmap_run c df tcol tval)) = false) /\
  (all_nominal df = false \/ col_get (df_cols df) tcol = None -> exists e, sdmap_run c df tcol tval = ([], Err e)).
Proof.
  intros V c df tcol tval Hw. pose proof (sdmap_order V c df tcol tval Hw) as W. split; auto. split.
  - intros e E. destruct W as [->|(body & _ & C & ->)]; [reflexivity|]. rewrite E, app_nil_r. exact C.
  - intros [E|E]; unfold sdmap_run; [rewrite E; eexists; reflexivity|]. destruct (negb (all_nominal df)); [eexists; reflexivity|].
    unfold generate_set_of_frequent_selectors, target_mask, df_col. rewrite E. destruct (thresholds _ _ _); cbn; eexists; reflexivity.
Qed.
Print Assumptions C73_sdmap_faithful. Print Assumptions C73_sdmap_crash_lines. Print Assumptions C73_sdmap_crash_counters. Print Assumptions C73_sdmap_crash_text. Print Assumptions C73_sdmap_closing.
