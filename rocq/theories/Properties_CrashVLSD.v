(** Theorem C73 for VLSD: crash points. *)
From Verif Require Import CrashVLSD CrashProofs ReportProofs CoreText FileLoad MiningProofs VLSDProofs.
From Verif Require Import Properties_SDMap Properties_VLSD Properties_Report Properties_Crash.
From Coq Require Import Lia.
Open Scope string_scope.
Open Scope list_scope.
Open Scope nat_scope.

Theorem C73_vlsd_faithful : forall Seq (impl : vl_impl Seq) V (c : vl_config V) df tcol tval st,
  vlsd_fit impl c st df tcol tval =
  match vlsd_run impl c df tcol tval with
  | (evs, Ok _) => Ok (fold_left vl_effect evs st)
  | (_, Err e) => Err e
  end.
Proof.
  intros Seq impl V c df tcol tval st. rewrite (vlsd_tracks impl c df tcol tval st). destruct (vlsd_run impl c df tcol tval) as [evs [[]|e]]; reflexivity.
Qed.
Lemma impl_facts : forall Seq impl rows, representation Seq impl rows -> forall V, monotone_impl (V := V) impl /\ (forall (c : vl_config V) TP FP, joins_estimate impl c TP FP) /\ @inits_counts Seq V impl.
Proof. intros Seq impl rows R V. destruct R; [apply sets_facts|apply bitsets_facts]. Qed.
(** The file is opened before anything is looked at, even when the target column does not exist: its old content is lost. *)
Theorem C73_vlsd_closing : forall Seq impl rows, representation Seq impl rows -> forall V (c : vl_config V) df tcol tval, vc_write c = true ->
  well_ordered (vlsd_run impl c df tcol tval) /\
  (forall e, snd (vlsd_run impl c df tcol tval) = Err e -> closed (fst (vlsd_run impl c df tcol tval)) = false) /\
  (all_nominal df = false -> vlsd_run impl c df tcol tval = ([], Err DatasetAttributeTypeError)) /\
  (all_nominal df = true -> opened (fst (vlsd_run impl c df tcol tval)) = true) /\
  (all_nominal df = true -> col_get (df_cols df) tcol = None -> vlsd_run impl c df tcol tval = ([EOpen], Err KeyError)).
Proof.
  intros Seq impl rows R V c df tcol tval Hw. destruct (impl_facts Seq impl rows R V) as (_ & HJ & HI).
  assert (W : well_ordered (vlsd_run impl c df tcol tval)).
  { destruct (all_nominal df) eqn:Hn; [|left; unfold vlsd_run; rewrite Hn; reflexivity]. right. pose proof (vlsd_shape Seq V impl c df tcol tval Hw Hn) as E. cbn zeta in E. rewrite E. cbn [fst snd].
    exists (fst (vlsd_body impl c df tcol tval)).
    assert (F : Forall inner (fst (vlsd_body impl c df tcol tval))) by (eapply Forall_impl; [|apply (vlsd_body_effects Seq V impl c df tcol tval (HJ c) HI)]; intros e [H _]; exact H).
    destruct (inner_body _ F) as [F1 F2]. auto. }
  split; auto. split; [|split; [|split]].
  - intros e E. destruct W as [->|(body & _ & C & ->)]; [reflexivity|]. rewrite E, app_nil_r. exact C.
  - intros Hn. unfold vlsd_run. rewrite Hn. reflexivity.
  - intros Hn. pose proof (vlsd_shape Seq V impl c df tcol tval Hw Hn) as E. cbn zeta in E. rewrite E. reflexivity.
  - intros Hn E. unfold vlsd_run. rewrite Hn, Hw. cbn [negb]. unfold target_mask, df_col. rewrite E. reflexivity.
Qed.
Lemma vlsd_final : forall Seq impl rows, representation Seq impl rows -> forall V (c : vl_config V) st st' df tcol tval, vc_write c = true -> vlsd_fit impl c st df tcol tval = Ok st' ->
  let t := fst (vlsd_run impl c df tcol tval) in
  snd (vlsd_run impl c df tcol tval) = Ok tt /\ st' = VS (vs_selected st + selected_in t) (vs_unselected st + unselected_in t) (Some (lines_of t)).
Proof.
  intros Seq impl rows R V c st st' df tcol tval Hw E t. unfold t. clear t. destruct (C73_vlsd_closing Seq impl rows R V c df tcol tval Hw) as (W & _ & K1 & K2 & _).
  rewrite C73_vlsd_faithful in E. destruct (all_nominal df) eqn:Hn; [|rewrite (K1 eq_refl) in E; discriminate]. specialize (K2 eq_refl).
  destruct (vlsd_run impl c df tcol tval) as [t [[]|e]]; [|discriminate]. split; [reflexivity|]. cbn [fst] in *. assert (E' : fold_left vl_effect t st = st') by congruence. clear E.
  destruct W as [W|(body & O & C & W)]; cbn [fst snd] in W; [rewrite W in K2; discriminate|]. subst t. rewrite <- E'. cbn [fold_left]. rewrite fold_left_app.
  change (fold_left vl_effect body (vl_effect st EOpen)) with (replay vl_effect body (vl_effect st EOpen)). rewrite vl_replay by auto. cbn [fold_left vl_effect vs_selected vs_unselected vs_file app].
  change (EOpen :: body ++ [EClose]) with ([EOpen] ++ body ++ [EClose]). rewrite !selected_app, !unselected_app, !lines_of_app. cbn. rewrite !Nat.add_0_r, app_nil_r. reflexivity.
Qed.
Lemma vlsd_values : forall Seq impl rows, representation Seq impl rows -> forall V (c : vl_config V) df tcol tval, vc_write c = true ->
  Forall (fun r => let l := vr_line r in vc_measure c (r_tp l) (r_fp l) (r_TP l) (r_FP l) = Ok (r_quality l) /\ vc_reaches c (r_quality l) = true /\
                   vc_oe c (r_tp l) (r_fp l) (r_TP l) (r_FP l) = Ok (vr_oe r)) (lines_of (fst (vlsd_run impl c df tcol tval))).
Proof.
  intros Seq impl rows R V c df tcol tval Hw. destruct (impl_facts Seq impl rows R V) as (_ & HJ & HI). apply effects_lines.
  destruct (all_nominal df) eqn:Hn; [|unfold vlsd_run; rewrite Hn; constructor]. pose proof (vlsd_shape Seq V impl c df tcol tval Hw Hn) as E. cbn zeta in E. rewrite E. cbn [fst]. constructor; auto. apply Forall_app. split.
  - eapply Forall_impl; [|apply (vlsd_body_effects Seq V impl c df tcol tval (HJ c) HI)]. intros [] [_ H]; auto.
  - destruct (snd _); repeat constructor.
Qed.
Lemma vlsd_total : forall Seq impl rows, representation Seq impl rows -> forall V (c : vl_config V) v0 df tcol tval, categorical df -> has_column df tcol ->
  exists st', vlsd_fit impl (vl_totalised v0 c) vlsd_new df tcol tval = Ok st'.
Proof.
  intros Seq impl rows R V c v0 df tcol tval Hcat Hcol. apply (proj1 (C29_errors Seq impl rows R V (vl_totalised v0 c) df tcol tval vlsd_new Hcat Hcol)). intros X _.
  unfold quality. cbn [vl_totalised vc_measure vc_oe]. unfold totalised. destruct (vc_measure c _ _ _ _); destruct (vc_oe c _ _ _ _); eauto.
Qed.
(** At any crash point: every line written so far is a covered description with its true numbers, rows and estimate and sufficient quality, and no
    description is written twice; if the fit ends, they are the first lines of its file. *)
Theorem C73_vlsd_crash_lines : forall Seq impl rows, representation Seq impl rows -> forall V (c : vl_config V) df tcol tval evs,
  categorical df -> has_column df tcol -> vc_write c = true ->
  begins evs (fst (vlsd_run impl c df tcol tval)) ->
  NoDup (map (fun r => r_subgroup (vr_line r)) (lines_of evs)) /\
  (forall r, In r (lines_of evs) -> exists X q, candidate df tcol X /\ quality (vc_measure c) df tcol tval X = Ok q /\ vc_reaches c q = true /\ reports rows c df tcol tval X q r) /\
  (forall st st', vlsd_fit impl c st df tcol tval = Ok st' -> exists ls, vs_file st' = Some ls /\ begins (lines_of evs) ls).
Proof.
  intros Seq impl rows R V c df tcol tval evs Hcat Hcol Hw B.
  enough (NoDup (map (fun r => r_subgroup (vr_line r)) (lines_of evs)) /\ (forall r, In r (lines_of evs) -> exists X q, candidate df tcol X /\ quality (vc_measure c) df tcol tval X = Ok q /\ vc_reaches c q = true /\ reports rows c df tcol tval X q r)) as [H1 H2].
  { split; auto. split; auto. intros st st' E. destruct (vlsd_final Seq impl rows R V c st st' df tcol tval Hw E) as [_ Et]. exists (lines_of (fst (vlsd_run impl c df tcol tval))). rewrite Et. split; [reflexivity|]. apply begins_lines; auto. }
  destruct (lines_of evs) as [|r0 ls0] eqn:El; [split; [constructor|intros r []]|]. set (v0 := r_quality (vr_line r0)).
  destruct (vlsd_le impl (proj1 (impl_facts Seq impl rows R V)) v0 c df tcol tval) as [LE _]. pose proof (begins_lines _ _ (begins_trans _ _ _ B LE)) as BL. rewrite El in BL.
  pose proof (vlsd_values Seq impl rows R V c df tcol tval Hw) as HV. rewrite Forall_forall in HV.
  destruct (vlsd_total Seq impl rows R V c v0 df tcol tval Hcat Hcol) as [st' Est]. destruct (vlsd_final Seq impl rows R V (vl_totalised v0 c) vlsd_new st' df tcol tval Hw Est) as [_ Et].
  destruct (C29_sound Seq impl rows R V (vl_totalised v0 c) df tcol tval _ _ Hcat Hcol Hw Est) as (ls & Ef & ND & M). rewrite Et in Ef. cbn [vs_file] in Ef. injection Ef as <-. split.
  - eapply begins_nodup; [apply begins_map; exact BL|exact ND].
  - intros r I. pose proof (begins_in _ _ r BL I) as I'. apply M in I'. destruct I' as (X & q & HX & _ & _ & (Er & _ & Rt & Rf)). exists X, q.
    pose proof (begins_lines _ _ B) as B2. rewrite El in B2. destruct (HV _ (begins_in _ _ r B2 I)) as (Hm & Hr & Ho). rewrite Er in Hm, Hr, Ho.
    split; [exact HX|]. split; [exact Hm|]. split; [exact Hr|]. split; [exact Er|]. split; [exact Ho|]. split; [exact Rt|exact Rf].
Qed.
(** ... and the counters count the lines (the last one may not be counted yet), and no more visits than covered descriptions. *)
Theorem C73_vlsd_crash_counters : forall Seq impl rows, representation Seq impl rows -> forall V (c : vl_config V) df tcol tval evs st all,
  categorical df -> has_column df tcol -> vc_write c = true ->
  begins evs (fst (vlsd_run impl c df tcol tval)) ->
  NoDup all -> (forall X, In X all <-> candidate df tcol X) ->
  let now := fold_left vl_effect evs st in
  vs_selected now = vs_selected st + selected_in evs /\ vs_unselected now = vs_unselected st + unselected_in evs /\
  selected_in evs <= length (lines_of evs) <= S (selected_in evs) /\
  (snd (vlsd_run impl c df tcol tval) = Ok tt -> evs = fst (vlsd_run impl c df tcol tval) -> length (lines_of evs) = selected_in evs) /\
  selected_in evs + unselected_in evs <= length all.
Proof.
  intros Seq impl rows R V c df tcol tval evs st all Hcat Hcol Hw B ND Hall now. destruct (impl_facts Seq impl rows R V) as (_ & HJ & HI).
  assert (Hn : all_nominal df = true \/ all_nominal df = false) by (destruct (all_nominal df); auto).
  assert (ST : settled (fst (vlsd_run impl c df tcol tval))).
  { destruct Hn as [Hn|Hn]; [|unfold vlsd_run; rewrite Hn; apply settled_nil]. pose proof (vlsd_shape Seq V impl c df tcol tval Hw Hn) as E. cbn zeta in E. rewrite E.
    cbn [fst]. apply (settled_app [EOpen]); [apply settled_mark; auto|]. apply settled_app; [apply vlsd_settled; auto|]. destruct (snd _); [apply settled_mark; auto|apply settled_nil]. }
  destruct (vl_counts Seq V evs st) as [E1 E2]. split; [exact E1|]. split; [exact E2|]. split; [apply ST; auto|]. split; [intros _ ->; apply ST|].
  destruct (Nat.eq_dec (selected_in evs + unselected_in evs) 0) as [Z|Z]; [lia|].
  assert (v0 : exists v : V, True).
  { destruct Hn as [Hn|Hn]; [|exfalso; unfold vlsd_run in B; rewrite Hn in B; apply begins_of_nil in B; subst evs; apply Z; reflexivity].
    assert (F : Forall (fun e => match e with EOpen | EClose => True | _ => exists v : V, True end) evs).
    { destruct B as [r B]. enough (F : Forall (fun e => match e with EOpen | EClose => True | _ => exists v : V, True end) (fst (vlsd_run impl c df tcol tval))) by (rewrite B in F; apply Forall_app in F; apply F).
      pose proof (vlsd_shape Seq V impl c df tcol tval Hw Hn) as E. cbn zeta in E. rewrite E. cbn [fst]. constructor; auto. apply Forall_app. split; [|destruct (snd _); repeat constructor].
      eapply Forall_impl; [|apply (vlsd_body_effects Seq V impl c df tcol tval (HJ c) HI)]. intros [|l| | |] [H1 H2]; auto. exists (vr_oe l). exact I. }
    clear -F Z. induction F as [|e evs He F IH]; [contradiction Z; reflexivity|]. destruct e; auto; apply IH; intros K; apply Z; unfold selected_in, unselected_in in *; cbn; auto. }
  destruct v0 as [v0 _]. destruct (vlsd_le impl (proj1 (impl_facts Seq impl rows R V)) v0 c df tcol tval) as [LE _].
  destruct (vlsd_total Seq impl rows R V c v0 df tcol tval Hcat Hcol) as [st' Est]. destruct (vlsd_final Seq impl rows R V (vl_totalised v0 c) vlsd_new st' df tcol tval Hw Est) as [_ Et].
  destruct (C29_counters Seq impl rows R V _ df tcol tval _ Hcat Hcol Est) as (vis & NDv & Hv & Ev & _). unfold vl_visited in Ev. rewrite Et in Ev. cbn [vs_selected vs_unselected vlsd_new Nat.add] in Ev.
  assert (La : length vis <= length all) by (apply NoDup_incl_length; auto; intros X IX; apply Hall, Hv; auto).
  destruct (begins_trans _ _ _ B LE) as [r Er]. rewrite Er, selected_app, unselected_app in Ev. lia.
Qed.
(** On the disk (vertical lists with bitarrays): the file holds what it held before, or its whole lines read back as distinct correct results.  After
    the end of the fit there is no incomplete line. *)
Theorem C73_vlsd_crash_text : forall V (c : vl_config V) (show : V -> string) qname oname df tcol tval evs old d,
  categorical df -> clear_dataset df -> clear_value tval -> has_column df tcol -> tidy qname -> tidy oname -> (forall v, tidy (show v)) -> vc_write c = true ->
  begins evs (fst (vlsd_run with_bitsets c df tcol tval)) -> on_disk (vlsd_line_text show qname oname) old evs d ->
  (evs = [] /\ d = old) \/
  exists text rep, d = Some text /\ read_report (whole_lines text) = Ok rep /\ NoDup (map fst rep) /\
    (forall l, In l rep -> exists X q r, candidate df tcol X /\ quality (vc_measure c) df tcol tval X = Ok q /\ vc_reaches c q = true /\
       reports (fun b i => nth i b false = true) c df tcol tval X q r /\
       fst l = SG X (Sel tcol EQUAL (VStr tval)) /\ reads_record show qname (line_of df tcol tval X q) (snd l) /\
       field " = " "Sequence of instances tp" (snd l) = Some (str_bitarray (vr_seq_tp r)) /\ field " = " "Sequence of instances fp" (snd l) = Some (str_bitarray (vr_seq_fp r)) /\
       field " = " ("Optimistic Estimate " ++ oname)%string (snd l) = Some (show (vr_oe r))) /\
    (closed evs = true -> whole_lines text = text /\ map fst rep = map (fun r => r_subgroup (vr_line r)) (lines_of evs)).
Proof.
  intros V c show qname oname df tcol tval evs old d Hcat HC Ht Hcol Hq Ho Hv Hw B D. destruct (C73_vlsd_crash_lines _ _ _ bitsets_of_rows V c df tcol tval evs Hcat Hcol Hw B) as (ND & M & _).
  destruct (C73_vlsd_closing _ _ _ bitsets_of_rows V c df tcol tval Hw) as (W & _). destruct (crash_body _ _ _ evs W B) as [->|(pre & Epre & _)]; [left; split; [reflexivity|exact D]|].
  apply (disk_report _ _ (fun r => r_subgroup (vr_line r)) (vlsd_fields show qname oname)) in D.
  - destruct D as [[K _]|(text & k & -> & Rd & Z)]; [rewrite Epre in K; discriminate|right]. exists text, (map (fun x => (r_subgroup (vr_line x), vlsd_fields show qname oname x)) (firstn k (lines_of evs))). split; auto. split; auto.
    rewrite map_map. cbn [fst]. split; [eapply begins_nodup; [apply begins_map, firstn_begins|exact ND]|]. split.
    + intros l I. apply in_map_iff in I. destruct I as (r & <- & I). apply firstn_in, M in I. destruct I as (X & q & HX & Eq & Rq & Hr). exists X, q, r. pose proof Hr as (El & _). rewrite <- El.
      split; [exact HX|]. split; [exact Eq|]. split; [exact Rq|]. split; [exact Hr|]. split; [cbn [fst]; rewrite El; reflexivity|]. clear. unfold vlsd_fields, reads_record. cbn [snd].
      split; [split; [|repeat split; seek]|split; [apply field_here|split; [seek|]]]; repeat rewrite field_skip by reflexivity; apply field_here.
    + intros Hc. destruct (Z Hc) as [Z1 Z2]. rewrite Z1. split; auto.
  - intros r _. unfold vlsd_line_text, vlsd_fields. cbn [String.concat]. rewrite !app_assoc_str. reflexivity.
  - intros r I. destruct (M r I) as (X & q & (D1 & C1) & _ & _ & (El & _)). split; [rewrite El; apply (description_clear df); auto|]. split; [discriminate|].
    unfold vlsd_fields. repeat constructor; repeat apply tidy_app; auto; try apply str_of_Z_tidy; try apply bits_tidy; split; reflexivity.
Qed.
Print Assumptions C73_vlsd_faithful. Print Assumptions C73_vlsd_closing. Print Assumptions C73_vlsd_crash_lines. Print Assumptions C73_vlsd_crash_counters. Print Assumptions C73_vlsd_crash_text.
