(** Theorem C71: the output files of the miners can be read back. *)
From Verif Require Import ReportModel ReportSpec ReportProofs CoreText CoreExact FileProofs FileLoad MiningProofs SDMapProofs OrderFacts.
From Verif Require Import SDMapStarModel VLSDModel IDSDSpec IDSDFit SDIGASpec QFinderSpec VerticalProofs QualityModel Properties_SDMap Properties_SDMapStar Properties_VLSD Properties_BSD Properties_IDSD Properties_Reduce Properties_QFinder Properties_SDIGA Properties_Files.
From Coq Require Import Lia.
Open Scope list_scope.
Open Scope string_scope.
Open Scope Z_scope.

(** The counts and the value of a line, as they are read. *)
Definition reads_record {V} (show : V -> string) (qname : string) (r : record V) (fields : list string) : Prop :=
  field " = " ("Quality Measure " ++ qname) fields = Some (show (r_quality r)) /\
  int_field "tp" fields = Some (r_tp r) /\ int_field "fp" fields = Some (r_fp r) /\ int_field "TP" fields = Some (r_TP r) /\ int_field "FP" fields = Some (r_FP r).

Lemma drop_app : forall u v, drop_str (String.length u) (u ++ v) = v.
Proof. induction u as [|c u IH]; intros v; cbn [String.length append drop_str]; auto. Qed.
Lemma field_here : forall mark name t fs, field mark name ((name ++ mark ++ t) :: fs) = Some t.
Proof. intros. cbn [field]. rewrite <- app_assoc_str, prefix_refl_app, drop_app. reflexivity. Qed.
Lemma field_skip : forall mark name f fs, String.prefix (name ++ mark) f = false -> field mark name (f :: fs) = field mark name fs.
Proof. intros. cbn [field]. rewrite H. reflexivity. Qed.
Lemma int_here : forall name z fs, int_field name ((name ++ " = " ++ str_of_Z z) :: fs) = Some z.
Proof. intros. unfold int_field. rewrite field_here. apply py_int_str. Qed.
Lemma int_skip : forall name f fs, String.prefix (name ++ " = ") f = false -> int_field name (f :: fs) = int_field name fs.
Proof. intros. unfold int_field. rewrite field_skip by auto. reflexivity. Qed.
Ltac seek := repeat first [rewrite int_here; reflexivity | rewrite field_here; reflexivity | rewrite int_skip by reflexivity | rewrite field_skip by reflexivity].

Definition record_fields {V} (show : V -> string) (qname : string) (r : record V) : list string :=
  [("Quality Measure " ++ qname) ++ " = " ++ show (r_quality r); "tp" ++ " = " ++ str_of_Z (r_tp r); "fp" ++ " = " ++ str_of_Z (r_fp r);
   "TP" ++ " = " ++ str_of_Z (r_TP r); "FP" ++ " = " ++ str_of_Z (r_FP r)].
Lemma record_reads : forall V (show : V -> string) qname r, reads_record show qname r (record_fields show qname r).
Proof. intros. unfold reads_record, record_fields. split; [apply field_here|]. repeat split; seek. Qed.
Lemma record_tidy : forall V (show : V -> string) qname r, tidy qname -> (forall v, tidy (show v)) -> Forall tidy (record_fields show qname r).
Proof. intros V show qname r Hq Hv. repeat constructor; repeat apply tidy_app; auto; try apply str_of_Z_tidy; split; reflexivity. Qed.

(** * SDMap, SDMapStar, BSD, CBSD and CPBSD *)
(** Any sequence of lines about clear subgroups is read back: the same subgroups in the same order, each one with its values. *)
Theorem C71_records : forall V (show : V -> string) qname (ls : list (record V)), tidy qname -> (forall v, tidy (show v)) ->
  Forall (fun r => clear_group (r_subgroup r)) ls ->
  forall text, In text [sdmap_line_text show qname; bsd_line_text show qname] ->
  exists rep, read_report (file_text (map text ls)) = Ok rep /\ Forall2 (fun r l => fst l = r_subgroup r /\ reads_record show qname r (snd l)) ls rep.
Proof.
  intros V show qname ls Hq Hv F text T. exists (map (fun r => (r_subgroup r, record_fields show qname r)) ls). split.
  - apply report_lines.
    + intros r _. destruct T as [<-|[<-|[]]]; unfold sdmap_line_text, bsd_line_text, record_fields; cbn [String.concat]; rewrite !app_assoc_str; reflexivity.
    + intros r I. rewrite Forall_forall in F. split; [apply F; auto|]. split; [discriminate|]. apply record_tidy; auto.
  - clear F T. induction ls; constructor; auto. split; [reflexivity|apply record_reads].
Qed.
Print Assumptions C71_records.
(** The subgroups of a dataset with clear names and values are clear. *)
Lemma description_clear : forall df tcol tval X, categorical df -> clear_dataset df -> has_column df tcol -> clear_value tval -> description df tcol X -> (1 <= coverage df X)%nat ->
  clear_group (SG X (Sel tcol EQUAL (VStr tval))).
Proof.
  intros df tcol tval X Hcat HC Hcol Ht (N & Q & H) C. split; auto. constructor.
  - destruct Hcol as [col Ec]. apply col_get_in in Ec; [|apply Hcat]. split; [reflexivity|]. split; [apply (HC _ _ Ec)|]. exists tval. split; auto.
  - apply Forall_forall. intros s I. cbn [g_desc] in I. destruct (H s I) as (E & V & _ & _). apply (clear_nominal df); auto. apply (covered_value df X); auto.
Qed.
Lemma forall2_fst : forall V (show : V -> string) qname (ls : list (record V)) rep,
  Forall2 (fun r l => fst l = r_subgroup r /\ reads_record show qname r (snd l)) ls rep -> map fst rep = map r_subgroup ls.
Proof. intros V show qname ls rep F. induction F as [|r l ls rep [E _] F IH]; cbn [map]; congruence. Qed.
Lemma forall2_back : forall V (show : V -> string) qname (ls : list (record V)) rep l,
  Forall2 (fun r l => fst l = r_subgroup r /\ reads_record show qname r (snd l)) ls rep -> In l rep -> exists r, In r ls /\ fst l = r_subgroup r /\ reads_record show qname r (snd l).
Proof. intros V show qname ls rep l F. induction F as [|r l' ls rep E F IH]; intros []; [subst; exists r; split; [left|]; auto|destruct IH as (r' & I & K); auto; exists r'; split; [right|]; auto]. Qed.
(** SDMap: what is read from the file is the set of all the frequent descriptions that reach the threshold, each of them once, with
    its counts in the dataset and the text of its quality. *)
Theorem C71_sdmap : forall V (c : sd_config V) (show : V -> string) qname df tcol tval st st',
  categorical df -> clear_dataset df -> clear_value tval -> distinct_keys df tcol -> has_column df tcol -> tidy qname -> (forall v, tidy (show v)) ->
  c_write c = true -> sdmap_fit c st df tcol tval = Ok st' -> (exists X, frequent df tcol tval (c_min_tp c) (c_min_fp c) (c_min_n c) X) ->
  exists ls rep, st_file st' = Some ls /\ read_report (file_text (map (sdmap_line_text show qname) ls)) = Ok rep /\ NoDup (map fst rep) /\
    (forall g, In g (map fst rep) <-> exists X q, frequent df tcol tval (c_min_tp c) (c_min_fp c) (c_min_n c) X /\
       quality (c_measure c) df tcol tval X = Ok q /\ c_reaches c q = true /\ g = SG X (Sel tcol EQUAL (VStr tval))) /\
    (forall l, In l rep -> exists q, quality (c_measure c) df tcol tval (g_desc (fst l)) = Ok q /\
       reads_record show qname (line_of df tcol tval (g_desc (fst l)) q) (snd l)).
Proof.
  intros V c show qname df tcol tval st st' Hcat HC Ht Hk Hcol Hq Hv Hw E Hx. destruct (C27_sound_and_complete V c df tcol tval st st' Hcat Hk Hcol Hw E Hx) as (ls & Ef & ND & M).
  destruct (C71_records V show qname ls Hq Hv) with (text := sdmap_line_text show qname) as (rep & R & F); [|left; auto|].
  { apply Forall_forall. intros r I. apply M in I. destruct I as (X & q & (D & C & _) & _ & _ & ->). apply (description_clear df); auto. }
  exists ls, rep. split; auto. split; auto. pose proof (forall2_fst _ _ _ _ _ F) as EF. split; [rewrite EF; auto|]. split.
  - intros g. rewrite EF, in_map_iff. split.
    + intros (r & <- & I). apply M in I. destruct I as (X & q & H1 & H2 & H3 & ->). exists X, q. split; [exact H1|]. split; [exact H2|]. split; [exact H3|]. reflexivity.
    + intros (X & q & H1 & H2 & H3 & ->). exists (line_of df tcol tval X q). split; auto. apply M. eauto 6.
  - intros l I. destruct (forall2_back _ _ _ _ _ _ F I) as (r & Ir & Eg & K). apply M in Ir. destruct Ir as (X & q & H1 & H2 & H3 & ->). rewrite Eg. cbn [line_of r_subgroup g_desc]. exists q. auto.
Qed.
Print Assumptions C71_sdmap.
(** BSD, CBSD and CPBSD: the list of the best subgroups in its order, each with its counts in the dataset. *)
Theorem C71_bsd : forall V (c : bsd_config V) (show : V -> string) qname df tcol tval st, bsd_input c df tcol tval -> clear_dataset df -> clear_value tval -> tidy qname -> (forall v, tidy (show v)) ->
  bc_write c = true -> (forall X q, candidate df tcol X -> quality (bc_measure c) df tcol tval X = Ok q -> bc_lt c (bc_dummy c) q = true) ->
  bsd_fit c (bsd_new c) df tcol tval = Ok st -> bs_k st <> [dummy_entry c] ->
  exists ls rep, bs_file st = Some ls /\ read_report (file_text (map (bsd_line_text show qname) ls)) = Ok rep /\
    Forall2 (fun e l => fst l = SG (e_pattern e) (Sel tcol EQUAL (VStr tval)) /\ reads_record show qname (line_of df tcol tval (e_pattern e) (e_quality e)) (snd l)) (bs_k st) rep.
Proof.
  intros V c show qname df tcol tval st HB HC Ht Hq Hv Hw Hd E ND. destruct (C35_output c df tcol tval st HB Hw Hd E) as (ls & Ef & _ & [[K _]|K]); [congruence|].
  destruct (C35_best_list c df tcol tval st (bs_k st) HB E) as [K'|(_ & _ & _ & F)]; [left; reflexivity|congruence|]. destruct HB as (Hcat & _ & Hcol & _).
  destruct (C71_records V show qname ls Hq Hv) with (text := bsd_line_text show qname) as (rep & R & F2); [|right; left; auto|].
  { subst ls. apply Forall_forall. intros r I. apply in_map_iff in I. destruct I as (e & <- & Ie). rewrite Forall_forall in F. destruct (F e Ie) as ((D & C) & _). apply (description_clear df); auto. }
  exists ls, rep. split; auto. split; auto. subst ls. clear -F2. remember (map _ _) as rs eqn:Ers. revert Ers. generalize (bs_k st) as k.
  induction F2 as [|r l ls rep [E1 E2] F2 IH]; intros k Ek; destruct k as [|e k]; try discriminate; constructor.
  - cbn [map] in Ek. injection Ek as -> _. auto.
  - apply IH. cbn [map] in Ek. congruence.
Qed.
Print Assumptions C71_bsd.
(** SDMapStar: whatever it prunes, what is read is what it reported. *)
Theorem C71_sdmapstar : forall V (c : star_config V) (show : V -> string) qname df tcol tval st st', 0 < sc_num c ->
  categorical df -> clear_dataset df -> clear_value tval -> distinct_keys df tcol -> has_column df tcol -> tidy qname -> (forall v, tidy (show v)) ->
  c_write (sc_base c) = true -> star_fit c st df tcol tval = Ok st' -> (exists X, frequent_for c df tcol tval X) ->
  exists ls rep, st_file (ss_base st') = Some ls /\ read_report (file_text (map (sdmap_line_text show qname) ls)) = Ok rep /\
    Forall2 (fun r l => fst l = r_subgroup r /\ reads_record show qname r (snd l)) ls rep.
Proof.
  intros V c show qname df tcol tval st st' Hn Hcat HC Ht Hk Hcol Hq Hv Hw E Hx. destruct (C33_sound V c df tcol tval st st' Hn Hcat Hk Hcol Hw E Hx) as (ls & Ef & _ & M).
  destruct (C71_records V show qname ls Hq Hv) with (text := sdmap_line_text show qname) as (rep & R & F); [|left; auto|exists ls, rep; auto].
  apply Forall_forall. intros r I. apply M in I. destruct I as (X & q & tp & fp & (D & C & _) & -> & _). apply (description_clear df); auto.
Qed.
Print Assumptions C71_sdmapstar.

(** * VLSD with bitsets *)
Definition vlsd_fields {V} (show : V -> string) (qname oname : string) (r : vl_record (list bool) V) : list string :=
  ("Sequence of instances tp" ++ " = " ++ str_bitarray (vr_seq_tp r)) :: ("Sequence of instances fp" ++ " = " ++ str_bitarray (vr_seq_fp r)) ::
  (("Quality Measure " ++ qname) ++ " = " ++ show (r_quality (vr_line r))) :: (("Optimistic Estimate " ++ oname) ++ " = " ++ show (vr_oe r)) ::
  ("tp" ++ " = " ++ str_of_Z (r_tp (vr_line r))) :: ("fp" ++ " = " ++ str_of_Z (r_fp (vr_line r))) ::
  ("TP" ++ " = " ++ str_of_Z (r_TP (vr_line r))) :: ("FP" ++ " = " ++ str_of_Z (r_FP (vr_line r))) :: [].
Lemma bits_tidy : forall b, tidy (str_bitarray b).
Proof.
  intros b. unfold str_bitarray. destruct b as [|x b]; [split; reflexivity|]. repeat apply tidy_app; try (split; reflexivity). split; [|apply bits_one_line, bits_text_bits].
  induction (x :: b) as [|y l IH]; [reflexivity|]. cbn [bits_text has_char]. rewrite IH. destruct y; reflexivity.
Qed.
Theorem C71_vlsd : forall V (c : vl_config V) (show : V -> string) qname oname df tcol tval st st',
  categorical df -> clear_dataset df -> clear_value tval -> has_column df tcol -> tidy qname -> tidy oname -> (forall v, tidy (show v)) ->
  vc_write c = true -> vlsd_fit with_bitsets c st df tcol tval = Ok st' ->
  exists ls rep, vs_file st' = Some ls /\ read_report (file_text (map (vlsd_line_text show qname oname) ls)) = Ok rep /\
    Forall2 (fun r l => fst l = r_subgroup (vr_line r) /\ reads_record show qname (vr_line r) (snd l) /\
      field " = " "Sequence of instances tp" (snd l) = Some (str_bitarray (vr_seq_tp r)) /\ field " = " "Sequence of instances fp" (snd l) = Some (str_bitarray (vr_seq_fp r)) /\
      field " = " ("Optimistic Estimate " ++ oname) (snd l) = Some (show (vr_oe r))) ls rep.
Proof.
  intros V c show qname oname df tcol tval st st' Hcat HC Ht Hcol Hq Ho Hv Hw E.
  destruct (C29_sound _ _ _ bitsets_of_rows V c df tcol tval st st' Hcat Hcol Hw E) as (ls & Ef & _ & M).
  exists ls, (map (fun r => (r_subgroup (vr_line r), vlsd_fields show qname oname r)) ls). split; auto. split.
  - apply report_lines.
    + intros r _. unfold vlsd_line_text, vlsd_fields. cbn [String.concat]. rewrite !app_assoc_str. reflexivity.
    + intros r I. destruct (M r I) as (X & q & (D & C) & _ & _ & (El & _)). split; [rewrite El; apply (description_clear df); auto|]. split; [discriminate|].
      unfold vlsd_fields. repeat constructor; repeat apply tidy_app; auto; try apply str_of_Z_tidy; try apply bits_tidy; split; reflexivity.
  - clear. induction ls as [|r ls IH]; constructor; auto. split; [reflexivity|]. unfold vlsd_fields, reads_record. cbn [snd].
    split; [split; [|repeat split; seek]|split; [apply field_here|split; [seek|]]]; repeat rewrite field_skip by reflexivity; apply field_here.
Qed.
Print Assumptions C71_vlsd.

(** * IDSD *)
Definition idsd_fields (show : xnum -> string) (l : subgroup * nat * icred) : list string :=
  let '(g, rank, r) := l in
  ["Rank" ++ " : " ++ str_of_nat rank; "coverage" ++ " : " ++ show (cr_cov r); "odds_ratio" ++ " : " ++ show (cr_or r); "p_value" ++ " : " ++ show (cr_p r);
   "absolute_contribution" ++ " : " ++ show (cr_abs r); "contribution_ratio" ++ " : " ++ show (cr_ratio r); ""].
Lemma other_clear : forall fuel l s, clear_value s -> has_char " " s = false -> has_char "," s = false -> clear_value (other_name fuel l s) /\ has_char " " (other_name fuel l s) = false.
Proof.
  induction fuel as [|f IH]; intros l s C N M; cbn [other_name]; auto. destruct (existsb _ _); auto.
  assert (E1 : has_char " " (s ++ "_") = false) by (rewrite has_char_app, N; reflexivity). assert (E2 : has_char "," (s ++ "_") = false) by (rewrite has_char_app, M; reflexivity).
  apply IH; auto. destruct C as (_ & _ & O). split; [apply (contains_no_char ","); auto|]. split; [apply (contains_no_char " "); auto|]. rewrite one_line_app, O. reflexivity.
Qed.
Lemma reduce_clear : forall cats df tcol, clear_dataset df -> clear_dataset (reduce_categories cats df tcol).
Proof.
  intros cats df tcol H a col I. unfold reduce_categories in I. destruct (cats =? -1); [apply H; auto|]. cbn [df_cols] in I. apply in_map_iff in I. destruct I as ([b col'] & E & Ic). cbn [fst snd] in E.
  destruct (H _ _ Ic) as (N & W). destruct (String.eqb b tcol); injection E as <- <-; split; auto. intros v Iv. unfold reduce_column in Iv. destruct (_ <=? _); auto. apply in_map_iff in Iv.
  destruct Iv as (x & Ex & Ix). destruct (existsb _ _); [|subst; auto]. assert (Ev : v = other_name (S (length (distinct_values col'))) (distinct_values col') "other") by congruence. subst v. apply other_clear; [split; [|split]|idtac|idtac]; reflexivity.
Qed.
Theorem C71_idsd : forall c (show : xnum -> string) st df tcol tval st', idsd_input c st df tcol tval -> clear_dataset df -> (forall v, tidy (show v)) -> idsd_fit c st df tcol tval = Ok st' ->
  exists rep, read_report (file_text (map (idsd_line_text show) (idsd_lines tcol tval st'))) = Ok rep /\
    Forall2 (fun e l => fst l = SG (ie_pattern e) (Sel tcol EQUAL (VStr tval)) /\ (exists t, field " : " "Rank" (snd l) = Some t /\ py_int t = Some (Z.of_nat (ie_rank e))) /\
      field " : " "coverage" (snd l) = Some (show (cr_cov (ie_cred e))) /\ field " : " "odds_ratio" (snd l) = Some (show (cr_or (ie_cred e))) /\
      field " : " "p_value" (snd l) = Some (show (cr_p (ie_cred e))) /\ field " : " "absolute_contribution" (snd l) = Some (show (cr_abs (ie_cred e))) /\
      field " : " "contribution_ratio" (snd l) = Some (show (cr_ratio (ie_cred e)))) (is_top st') rep.
Proof.
  intros c show st df tcol tval st' HI HC Hv E. destruct (C43_fit c st df tcol tval st' HI E) as (_ & _ & M & _). destruct HI as (Hcat & (cells & Ec & Ic) & _).
  assert (Ht : clear_value tval) by (pose proof Ec as K; apply col_get_in in K; [|apply Hcat]; apply (HC _ _ K); auto).
  exists (map (fun l => (fst (fst l), idsd_fields show l)) (idsd_lines tcol tval st')). split.
  - apply report_lines.
    + intros ((g, rank), r) _. unfold idsd_line_text, idsd_fields. cbn [fst String.concat]. rewrite !app_assoc_str. reflexivity.
    + intros l I. apply in_map_iff in I. destruct I as (e & <- & Ie). cbn [fst]. destruct (M e Ie) as ((D & C & _) & _). split.
      * apply (description_clear (reduce_categories (ic_cats c) df tcol)); auto; [apply reduce_categorical; auto|apply reduce_clear; auto|]. exists cells. rewrite reduce_target. auto.
      * split; [discriminate|]. unfold idsd_fields. repeat constructor; repeat apply tidy_app; auto; try apply str_of_Z_tidy; split; reflexivity.
  - unfold idsd_lines. rewrite map_map. clear. induction (is_top st') as [|e l IH]; cbn [map]; constructor; auto. split; [reflexivity|]. unfold idsd_fields. cbn [snd].
    split; [eexists; split; [apply field_here|apply py_int_str]|]. repeat split; seek.
Qed.
Print Assumptions C71_idsd.

(** * QFinder *)
Definition qfinder_fields (show : xnum -> string) (l : subgroup * qcred) : list string :=
  let r := snd l in
  ["coverage" ++ ": " ++ show (qc_cov r); "odds_ratio" ++ ": " ++ show (qc_or r); "p_value" ++ ": " ++ show (qc_p r);
   "absolute_contribution" ++ ": " ++ show (qc_abs r); "contribution_ratio" ++ ": " ++ show (qc_ratio r); "adjusted_p_value" ++ ": " ++ show (qc_adj r); ""].
Theorem C71_qfinder : forall c (show : xnum -> string) D tcol tval st, qfinder_input c D tcol -> clear_dataset D -> clear_value tval -> (forall v, tidy (show v)) -> qfinder_fit c D tcol tval = Ok st ->
  exists lines rep, q_lines tcol tval st (qs_cred st) = Ok lines /\ read_report (file_text (map (qfinder_line_text show) lines)) = Ok rep /\
    map fst rep = map (fun X => SG X (Sel tcol EQUAL (VStr tval))) (qs_top st) /\
    forall l, In l rep -> exists r, assoc (qs_cred st) (pattern_str (g_desc (fst l))) = Ok r /\
      field ": " "coverage" (snd l) = Some (show (qc_cov r)) /\ field ": " "odds_ratio" (snd l) = Some (show (qc_or r)) /\ field ": " "p_value" (snd l) = Some (show (qc_p r)) /\
      field ": " "absolute_contribution" (snd l) = Some (show (qc_abs r)) /\ field ": " "contribution_ratio" (snd l) = Some (show (qc_ratio r)) /\
      field ": " "adjusted_p_value" (snd l) = Some (show (qc_adj r)).
Proof.
  intros c show D tcol tval st HI HC Ht Hv E. destruct (C45_file c D tcol tval st HI E) as (lines & El & Em & A). exists lines, (map (fun l => (fst l, qfinder_fields show l)) lines). split; auto.
  destruct (C45_candidates c D tcol tval HI) as (st' & kept & E' & _ & _ & M). rewrite E in E'. injection E' as <-.
  assert (T : incl (qs_top st) (qs_candidates st)) .
  { destruct (entries_exist c D tcol tval HI) as (st' & es & top & E' & (Me & Ae) & Es & Tt & Ne & W). rewrite E in E'. injection E' as <-. rewrite Tt, <- Me. intros X HX. apply in_map_iff in HX. destruct HX as (e & <- & He). apply in_map. apply (selected_incl _ _ _ Es); auto. }
  split; [|split].
  - apply report_lines.
    + intros (g, r) _. unfold qfinder_line_text, qfinder_fields. cbn [fst snd String.concat]. rewrite !app_assoc_str. reflexivity.
    + intros l I. assert (J : In (fst l) (map fst lines)) by (apply in_map; auto). rewrite Em in J. apply in_map_iff in J. destruct J as (X & <- & J). apply T, M in J. destruct J as (Dx & C & _).
      destruct HI as (Hcat & Hcol & _). split; [apply (description_clear D); auto|]. split; [discriminate|]. unfold qfinder_fields. repeat constructor; repeat apply tidy_app; auto; split; reflexivity.
  - rewrite map_map. cbn [fst]. exact Em.
  - intros l I. apply in_map_iff in I. destruct I as ((g, r) & <- & I). exists r. split; [apply A; auto|]. unfold qfinder_fields. cbn [snd]. repeat split; seek.
Qed.
Print Assumptions C71_qfinder.

(** * SDIGA *)
Definition sdiga_fields (show : Q -> string) (l : sg_line) : list string :=
  let n k := str_of_Z (Z.of_nat k) in
  ["Quality Measure Fitness" ++ " = " ++ show (gl_fitness l); "tp" ++ " = " ++ n (gl_tp l); "fp" ++ " = " ++ n (gl_fp l); "TP" ++ " = " ++ n (gl_TP l); "FP" ++ " = " ++ n (gl_FP l);
   "unchecked_tp" ++ " = " ++ n (gl_utp l); "unchecked_fp" ++ " = " ++ n (gl_ufp l); "TP_unchecked" ++ " = " ++ n (gl_uTP l); "FP_unchecked" ++ " = " ++ n (gl_uFP l)].
Theorem C71_sdiga : forall cfg env (show : Q -> string) st df tcol tval st', sdiga_input df tcol tval -> sdiga_parameters cfg -> sorts (en_sort env) -> clear_dataset df -> (forall v, tidy (show v)) ->
  gc_write cfg = true -> sdiga_fit cfg env st df tcol tval = Ok st' ->
  exists lines rep, dg_file st' = Some lines /\ read_report (file_text (map (sdiga_line_text show) lines)) = Ok rep /\
    Forall2 (fun x l => fst l = gl_subgroup x /\ field " = " "Quality Measure Fitness" (snd l) = Some (show (gl_fitness x)) /\
      int_field "tp" (snd l) = Some (Z.of_nat (gl_tp x)) /\ int_field "fp" (snd l) = Some (Z.of_nat (gl_fp x)) /\
      int_field "TP" (snd l) = Some (Z.of_nat (gl_TP x)) /\ int_field "FP" (snd l) = Some (Z.of_nat (gl_FP x)) /\
      int_field "unchecked_tp" (snd l) = Some (Z.of_nat (gl_utp x)) /\ int_field "unchecked_fp" (snd l) = Some (Z.of_nat (gl_ufp x)) /\
      int_field "TP_unchecked" (snd l) = Some (Z.of_nat (gl_uTP x)) /\ int_field "FP_unchecked" (snd l) = Some (Z.of_nat (gl_uFP x))) lines rep.
Proof.
  intros cfg env show st df tcol tval st' HI HP HS HC Hv Hw E. destruct (C63_fit cfg env st df tcol tval HI HP HS) as (st1 & lines & E1 & L & Ef & _). rewrite E in E1. injection E1 as <-. rewrite Hw in Ef.
  destruct HI as (Hcat & _ & _ & _ & tc & Htc & It). pose proof Htc as K. apply col_get_in in K; [|apply Hcat]. destruct (HC _ _ K) as (Nt & Vt).
  exists lines, (map (fun l => (gl_subgroup l, sdiga_fields show l)) lines). split; auto. split.
  - apply report_lines.
    + intros l _. unfold sdiga_line_text, sdiga_fields, str_of_nat. cbn [String.concat]. rewrite !app_assoc_str. reflexivity.
    + intros l I. apply In_nth_error in I. destruct I as (k & Ek). destruct (L k l Ek) as ((Q & _ & R) & (G & _) & _). split.
      * rewrite G. split; [exact Q|]. constructor; [split; [reflexivity|]; split; [exact Nt|]; exists tval; split; auto|]. apply Forall_forall. intros s Is. cbn [g_desc] in Is. destruct (R s Is) as (O & _ & col & Ec & Iv).
        apply (clear_nominal df); auto. destruct (s_val s) as [v| |] eqn:Ev; [exists col, v; auto| |]; exfalso; apply col_get_in in Ec; try apply Hcat; destruct Hcat as (_ & _ & St); specialize (St _ _ _ Ec Iv); discriminate.
      * split; [discriminate|]. unfold sdiga_fields. repeat constructor; repeat apply tidy_app; auto; try apply str_of_Z_tidy; split; reflexivity.
  - clear. induction lines as [|x l IH]; cbn [map]; constructor; auto. split; [reflexivity|]. unfold sdiga_fields. cbn [snd]. repeat split; seek.
Qed.
Print Assumptions C71_sdiga.

(** * Concrete cases *)
Definition show_Q (q : Q) : string := str_of_Z (Qnum (Qred q)) ++ "/" ++ str_of_Z (Z.pos (Qden (Qred q))).
Definition show_x (x : xnum) : string := match x with XFin q => show_Q q | XPosInf => "inf" | XNegInf => "-inf" | XNan => "nan" end.
Lemma show_Q_tidy : forall q, tidy (show_Q q).
Proof. intros q. unfold show_Q. repeat apply tidy_app; try apply str_of_Z_tidy; split; reflexivity. Qed.
Lemma show_x_tidy : forall x, tidy (show_x x).
Proof. intros x. destruct x as [| |q|]; [| |apply show_Q_tidy|]; split; reflexivity. Qed.
Ltac clear_data := intros a col I; cbn in I;
  repeat (destruct I as [I|I]; [injection I as <- <-; split; [repeat split; try reflexivity; discriminate|intros v J; cbn in J; repeat (destruct J as [J|J]; [injection J as <-; repeat split; reflexivity|]); contradiction]|]); contradiction.
Lemma toy_clear : clear_dataset toy.
Proof. clear_data. Qed.
Lemma ex_clear : clear_dataset ex_data.
Proof. clear_data. Qed.
Lemma p_clear : clear_value "p".
Proof. repeat split; reflexivity. Qed.
Definition text_of {A} (line : A -> string) (ls : option (list A)) : string := match ls with Some l => file_text (map line l) | None => "" end.

Example C71_sdmap_nonvacuous : exists st', categorical toy /\ clear_dataset toy /\ clear_value "p" /\ distinct_keys toy "class" /\ has_column toy "class" /\
  sdmap_fit toy_config (SDS 0 0 None) toy "class" "p" = Ok st' /\
  text_of (sdmap_line_text str_of_Z "m") (st_file st') =
    "Description: [a = 'x'], Target: class = 'p' ; Quality Measure m = 1 ; tp = 2 ; fp = 1 ; TP = 2 ; FP = 2" ++ newline ++
    "Description: [b = 'u'], Target: class = 'p' ; Quality Measure m = 1 ; tp = 2 ; fp = 1 ; TP = 2 ; FP = 2" ++ newline ++
    "Description: [a = 'x', b = 'u'], Target: class = 'p' ; Quality Measure m = 2 ; tp = 2 ; fp = 0 ; TP = 2 ; FP = 2" ++ newline.
Proof. eexists. destruct toy_ok as (A & B & C). split; [exact A|]. split; [apply toy_clear|]. split; [apply p_clear|]. split; [exact B|]. split; [exact C|]. split; vm_compute; reflexivity. Qed.
Example C71_bsd_nonvacuous : let c := wracc_config CBSD 0 3 1 in exists st, bsd_input c toy "class" "p" /\ bsd_fit c (bsd_new c) toy "class" "p" = Ok st /\ bs_k st <> [dummy_entry c] /\
  exists ls rep, bs_file st = Some ls /\ read_report (file_text (map (bsd_line_text show_Q "WRAcc") ls)) = Ok rep /\
    map (fun l => (g_desc (fst l), int_field "tp" (snd l), int_field "fp" (snd l), field " = " "Quality Measure WRAcc" (snd l))) rep =
    [([is "a" "x"], Some 2, Some 1, Some "1/8"); ([is "b" "u"], Some 2, Some 1, Some "1/8"); ([is "a" "x"; is "b" "u"], Some 2, Some 0, Some "1/4")].
Proof. eexists. split; [apply Properties_BSD.toy_input; lia|]. split; [vm_compute; reflexivity|]. split; [discriminate|]. eexists. eexists. split; [vm_compute; reflexivity|]. split; vm_compute; reflexivity. Qed.
Example C71_idsd_nonvacuous : let c := ex_config 3 (-1) 0 (XFin 0) in exists st' rep, idsd_input c idsd_new ex_data "class" "p" /\ clear_dataset ex_data /\ idsd_fit c idsd_new ex_data "class" "p" = Ok st' /\
  read_report (file_text (map (idsd_line_text show_x) (idsd_lines "class" "p" st'))) = Ok rep /\
  map (fun l => (g_desc (fst l), field " : " "Rank" (snd l), field " : " "odds_ratio" (snd l))) rep =
  [([is "a" "x"], Some "5", Some "inf"); ([is "a" "x"; is "b" "u"], Some "5", Some "inf"); ([is "a" "x"; is "b" "v"], Some "5", Some "inf")].
Proof. eexists. eexists. split; [apply ex_input; lia|]. split; [apply ex_clear|]. split; [vm_compute; reflexivity|]. split; vm_compute; reflexivity. Qed.
Example C71_qfinder_nonvacuous : let c := ex_q 3 (-1) (-1) 0 in exists st lines rep, qfinder_input c ex_data "class" /\ clear_dataset ex_data /\ qfinder_fit c ex_data "class" "p" = Ok st /\
  q_lines "class" "p" st (qs_cred st) = Ok lines /\ read_report (file_text (map (qfinder_line_text show_x) lines)) = Ok rep /\ length rep = 3%nat.
Proof. eexists. eexists. eexists. split; [apply ex_qinput; lia|]. split; [apply ex_clear|]. split; [vm_compute; reflexivity|]. split; [vm_compute; reflexivity|]. split; vm_compute; reflexivity. Qed.
Example C71_sdiga_nonvacuous : exists st' lines rep, sdiga_input toy "class" "p" /\ sdiga_parameters mild /\ sorts (en_sort (lehmer 6)) /\ sdiga_fit mild (lehmer 6) sdiga_new toy "class" "p" = Ok st' /\
  dg_file st' = Some lines /\ read_report (file_text (map (sdiga_line_text show_Q) lines)) = Ok rep /\ length rep = 4%nat.
Proof. eexists. eexists. eexists. split; [apply Properties_SDIGA.toy_input|]. split; [apply mild_ok|]. split; [apply by_fitness_sorts|]. split; [vm_compute; reflexivity|]. split; [vm_compute; reflexivity|]. split; vm_compute; reflexivity. Qed.
(** A value that contains " ; ", or a column named ";", makes the line unreadable. *)
Theorem C71_separator_refuted : exists r1 r2 : record Z, let text := sdmap_line_text str_of_Z "m" in
  r_subgroup r1 = SG [is "a" "x ; y"] (is "class" "p") /\ read_report (file_text [text r1]) = Err IndexError /\
  r_subgroup r2 = SG [is "a" "x"; is ";" "y"] (is "class" "p") /\ read_report (file_text [text r2]) = Err IndexError.
Proof.
  exists (Rec (SG [is "a" "x ; y"] (is "class" "p")) 1 1 1 1 1), (Rec (SG [is "a" "x"; is ";" "y"] (is "class" "p")) 1 1 1 1 1). split; [reflexivity|]. split; [vm_compute; reflexivity|]. split; [reflexivity|]. vm_compute; reflexivity.
Qed.
