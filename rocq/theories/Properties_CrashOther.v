(** Theorem C73 for SDIGA and for the algorithms that write the file after the search: BSD, CBSD, CPBSD, IDSD and QFinder. *)
From Verif Require Import CrashProofs ReportProofs CoreText FileLoad MiningProofs Properties_BSD Properties_IDSD IDSDTop IDSDFit QFinderTop Properties_QFinder SDIGASpec SDIGAProofs SDIGASearch SDIGAMain Properties_SDIGA Properties_Report Properties_Crash.
From Verif Require Import Properties_SDMap.
From Coq Require Import Lia.
Open Scope string_scope.
Open Scope list_scope.
Open Scope nat_scope.

(** * SDIGA *)
(** The effects of the search: the counter, then the line. *)
Definition counted (ls : list sg_line) : list (event sg_line) := flat_map (fun l => [ESelected; ELine l]) ls.
Lemma main_loop_follows : forall cfg env dict tval tcol encoded TP FP fuel s, gc_write cfg = true ->
  snd (main_loop_run cfg env dict tval fuel tcol encoded TP FP s) = main_loop cfg env dict tval fuel tcol encoded TP FP s /\
  exists ls, fst (main_loop_run cfg env dict tval fuel tcol encoded TP FP s) = counted ls /\
    forall s', main_loop cfg env dict tval fuel tcol encoded TP FP s = Ok s' -> sl_lines s' = sl_lines s ++ ls /\ sl_selected s' = sl_selected s + length ls.
Proof.
  intros cfg env dict tval tcol encoded TP FP fuel. induction fuel as [|f IH]; intros s Hw; cbn [main_loop_run main_loop]; [split; [reflexivity|exists []; split; [reflexivity|discriminate]]|]. cbn zeta.
  unfold run_bind, run_lift. cbn [fst snd app]. destruct (evolve _ _ _ _ _) as [e|x]; cbn [fst snd bind app]; [|split; [reflexivity|exists []; split; [reflexivity|discriminate]]].
  destruct (fst e) as [|top rest']; cbn [fst snd]; [split; [reflexivity|exists []; split; [reflexivity|discriminate]]|].
  destruct (local_search _ _ _ _ _ _) as [[[[c conf] tp] fp]|x]; cbn [fst snd bind app]; [|split; [reflexivity|exists []; split; [reflexivity|discriminate]]].
  destruct (decode c dict) as [p|x]; cbn [fst snd bind app]; [|split; [reflexivity|exists []; split; [reflexivity|discriminate]]].
  destruct (existsb _ _); cbn [fst snd run_ret]; [split; [reflexivity|exists []; split; [reflexivity|intros s' E; injection E as <-; cbn; rewrite app_nil_r, Nat.add_0_r; auto]]|].
  destruct (negb _); cbn [fst snd run_ret]; [split; [reflexivity|exists []; split; [reflexivity|intros s' E; injection E as <-; cbn; rewrite app_nil_r, Nat.add_0_r; auto]]|].
  destruct (get_tp_fp _ _ _) as [utp ufp]. rewrite Hw. cbn [fst snd run_emit app].
  match goal with |- snd (main_loop_run _ _ _ _ _ _ _ _ _ ?s1) = _ /\ _ => destruct (IH s1 Hw) as (H1 & ls & H2 & H3) end.
  split; [exact H1|]. rewrite H2. eexists (_ :: ls). split; [reflexivity|]. intros s' E. destruct (H3 s' E) as [A B]. cbn [sl_lines sl_selected] in A, B. rewrite A, B, <- app_assoc. split; [reflexivity|cbn [length]; lia].
Qed.
(** The run and the model of the final state are the same program, with or without a file. *)
Lemma main_loop_value : forall cfg env dict tval tcol encoded TP FP fuel s,
  snd (main_loop_run cfg env dict tval fuel tcol encoded TP FP s) = main_loop cfg env dict tval fuel tcol encoded TP FP s.
Proof.
  intros cfg env dict tval tcol encoded TP FP fuel. induction fuel as [|f IH]; intros s; cbn [main_loop_run main_loop]; [reflexivity|]. cbn zeta.
  unfold run_bind, run_lift. cbn [fst snd app]. destruct (evolve _ _ _ _ _) as [e|x]; cbn [fst snd bind app]; [|reflexivity].
  destruct (fst e) as [|top rest']; cbn [fst snd]; [reflexivity|]. destruct (local_search _ _ _ _ _ _) as [[[[c conf] tp] fp]|x]; cbn [fst snd bind app]; [|reflexivity].
  destruct (decode c dict) as [p|x]; cbn [fst snd bind app]; [|reflexivity]. destruct (existsb _ _); [reflexivity|]. destruct (negb _); [reflexivity|]. destruct (get_tp_fp _ _ _) as [utp ufp].
  destruct (gc_write cfg); cbn [fst snd run_emit run_ret app]; apply IH.
Qed.
Theorem C73_sdiga_faithful : forall cfg env st df tcol tval, snd (sdiga_run cfg env st df tcol tval) = sdiga_fit cfg env st df tcol tval.
Proof.
  intros cfg env st df tcol tval. unfold sdiga_run, sdiga_fit. destruct (negb (all_nominal df)); [reflexivity|]. unfold run_bind, run_lift. cbn [fst snd app].
  destruct (target_mask _ _ _) as [mask|]; cbn [fst snd bind app]; [|reflexivity]. destruct (negb (any_true mask)); [reflexivity|].
  destruct (gc_write cfg) eqn:Hw; cbn [fst snd run_emit run_ret app]; (destruct (encoded_rows df tcol) as [rows|]; cbn [fst snd bind app]; [|reflexivity]); cbn zeta;
    rewrite main_loop_value; destruct (main_loop _ _ _ _ _ _ _ _ _ _); reflexivity.
Qed.
Lemma counted_lines : forall ls, lines_of (counted ls) = ls.
Proof. induction ls as [|l ls IH]; [reflexivity|]. change (counted (l :: ls)) with ([ESelected; ELine l] ++ counted ls). rewrite lines_of_app, IH. reflexivity. Qed.
Lemma counted_inner : forall ls, Forall inner (counted ls).
Proof. induction ls as [|l ls IH]; [constructor|]. cbn. repeat constructor. exact IH. Qed.
Lemma sdiga_shape : forall cfg env st df tcol tval, gc_write cfg = true ->
  (fst (sdiga_run cfg env st df tcol tval) = [] /\ exists e, sdiga_fit cfg env st df tcol tval = Err e) \/
  exists ls, fst (sdiga_run cfg env st df tcol tval) = EOpen :: counted ls ++ match sdiga_fit cfg env st df tcol tval with Ok _ => [EClose] | Err _ => [] end /\
    forall st', sdiga_fit cfg env st df tcol tval = Ok st' -> dg_file st' = Some ls /\ dg_selected st' = dg_selected st + length ls.
Proof.
  intros cfg env st df tcol tval Hw. unfold sdiga_run, sdiga_fit. destruct (negb (all_nominal df)); [left; cbn; eauto|]. unfold run_bind, run_lift. cbn [fst snd app].
  destruct (target_mask _ _ _) as [mask|]; cbn [fst snd bind app]; [|left; eauto]. destruct (negb (any_true mask)); [left; cbn; eauto|]. rewrite Hw. cbn [fst snd run_emit app]. right.
  destruct (encoded_rows df tcol) as [rows|]; cbn [fst snd bind app]; [|exists []; split; [reflexivity|discriminate]]. cbn zeta.
  match goal with |- context[main_loop_run cfg env ?d tval ?n tcol rows ?TP ?FP ?s] => destruct (main_loop_follows cfg env d tval tcol rows TP FP n s Hw) as (H1 & ls & H2 & H3) end.
  rewrite H1, H2. exists ls. destruct (main_loop _ _ _ _ _ _ _ _ _ _) as [s'|x]; cbn [fst snd bind app run_ret].
  - split; [rewrite ?app_nil_r; reflexivity|]. intros st' E. injection E as <-. cbn [dg_file dg_selected]. destruct (H3 s' eq_refl) as [A B]. cbn [sl_lines sl_selected app] in A, B. rewrite A, B. auto.
  - split; [rewrite ?app_nil_r; reflexivity|discriminate].
Qed.
Theorem C73_sdiga_closing : forall cfg env st df tcol tval, gc_write cfg = true ->
  well_ordered (sdiga_run cfg env st df tcol tval) /\
  (forall e, snd (sdiga_run cfg env st df tcol tval) = Err e -> closed (fst (sdiga_run cfg env st df tcol tval)) = false) /\
  (all_nominal df = false \/ col_get (df_cols df) tcol = None -> exists e, sdiga_run cfg env st df tcol tval = ([], Err e)).
Proof.
  intros cfg env st df tcol tval Hw. assert (W : well_ordered (sdiga_run cfg env st df tcol tval)).
  { destruct (sdiga_shape cfg env st df tcol tval Hw) as [[E _]|(ls & E & _)]; [left; auto|right]. exists (counted ls). rewrite C73_sdiga_faithful. split; [|split; [|exact E]]; apply inner_body, counted_inner. }
  split; auto. split.
  - intros e E. destruct W as [->|(body & _ & C & ->)]; [reflexivity|]. rewrite E, app_nil_r. exact C.
  - intros [E|E]; unfold sdiga_run; [rewrite E; eexists; reflexivity|]. destruct (negb (all_nominal df)); [eexists; reflexivity|]. unfold target_mask, df_col. rewrite E. cbn. eexists; reflexivity.
Qed.
Lemma counted_balance : forall ls tail, selected_in tail = 0 -> lines_of tail = [] -> forall evs, begins evs (counted ls ++ tail) -> length (lines_of evs) <= selected_in evs <= S (length (lines_of evs)).
Proof.
  induction ls as [|l ls IH]; intros tail T1 T2 evs B.
  - cbn [counted flat_map app] in B. assert (lines_of evs = []) as -> by (apply begins_lines in B; rewrite T2 in B; apply begins_of_nil in B; auto).
    destruct B as [r ->]. rewrite selected_app in T1. cbn. lia.
  - change (counted (l :: ls) ++ tail) with (ESelected :: ELine l :: (counted ls ++ tail)) in B. destruct evs as [|e1 evs]; [cbn; lia|]. destruct B as [r B]. cbn [app] in B. injection B as <- B.
    destruct evs as [|e2 evs]; [cbn; lia|]. cbn [app] in B. injection B as <- B. specialize (IH tail T1 T2 evs (ex_intro _ r B)).
    change (ESelected :: ELine l :: evs) with ([ESelected; ELine l] ++ evs). rewrite lines_of_app, selected_app, app_length. cbn. lia.
Qed.
(** At any crash point: the lines written so far are the first lines of the report that the same fit writes when it is not interrupted, and that report is correct (C63). *)
Theorem C73_sdiga_crash_lines : forall cfg env st df tcol tval evs, sdiga_input df tcol tval -> sdiga_parameters cfg -> sorts (en_sort env) -> gc_write cfg = true ->
  begins evs (fst (sdiga_run cfg env st df tcol tval)) ->
  exists st' lines, sdiga_fit cfg env st df tcol tval = Ok st' /\ dg_file st' = Some lines /\ begins (lines_of evs) lines /\
    lines_ok cfg df tcol tval (lines_of evs) /\ NoDup (map line_desc (lines_of evs)) /\
    length (lines_of evs) <= selected_in evs <= S (length (lines_of evs)) /\ (closed evs = true -> lines_of evs = lines).
Proof.
  intros cfg env st df tcol tval evs HI HP HS Hw B. destruct (C63_fit cfg env st df tcol tval HI HP HS) as (st' & lines & E & L & Ef & _). rewrite Hw in Ef. exists st', lines. split; auto. split; auto.
  destruct (sdiga_shape cfg env st df tcol tval Hw) as [[_ [e K]]|(ls & Es & H)]; [congruence|]. destruct (H st' E) as [Ef' _]. rewrite Ef in Ef'. injection Ef' as <-. rewrite E in Es. rewrite Es in B.
  assert (BL : begins (lines_of evs) lines).
  { apply begins_lines in B. change (EOpen :: counted lines ++ [EClose]) with ([EOpen] ++ counted lines ++ [EClose]) in B. rewrite !lines_of_app, counted_lines in B. cbn in B. rewrite app_nil_r in B. exact B. }
  assert (LO : lines_ok cfg df tcol tval (lines_of evs)).
  { intros k l Ek. destruct BL as [r El]. assert (Lk : k < length (lines_of evs)) by (apply nth_error_Some; congruence).
    assert (Ek' : nth_error lines k = Some l) by (rewrite El, nth_error_app1 by auto; exact Ek). pose proof (L k l Ek') as K.
    assert (F : firstn k lines = firstn k (lines_of evs)) by (rewrite El, firstn_app; replace (k - length (lines_of evs)) with 0 by lia; rewrite firstn_O, app_nil_r; reflexivity).
    cbv zeta in K. rewrite ?F in K. exact K. }
  split; auto. split; auto. split; [eapply C63_distinct; eauto|]. split.
  - destruct evs as [|e evs]; [cbn; lia|]. destruct B as [r B]. cbn [app] in B. injection B as <- B. apply (counted_balance lines [EClose] eq_refl eq_refl evs (ex_intro _ r B)).
  - intros C. destruct evs as [|e evs]; [discriminate|]. destruct B as [r B]. cbn [app] in B. injection B as <- B. destruct (begins_app_cases evs (counted lines) [EClose] (ex_intro _ r B)) as [[r' K]|(p' & -> & _)].
    + exfalso. cbn in C. pose proof (proj2 (inner_body _ (counted_inner lines))) as Z. rewrite K, closed_app in Z. apply orb_false_iff in Z. destruct Z as [Z _]. unfold closed in *. congruence.
    + assert (EL : lines_of (EOpen :: counted lines ++ p') = lines ++ lines_of p') by (change (EOpen :: counted lines ++ p') with ([EOpen] ++ counted lines ++ p'); rewrite !lines_of_app, counted_lines; reflexivity).
      rewrite EL in *. destruct BL as [r' K]. rewrite <- app_assoc in K. rewrite <- (app_nil_r lines) in K at 1. apply app_inv_head in K. symmetry in K. apply app_eq_nil in K. destruct K as [-> _]. apply app_nil_r.
Qed.
Theorem C73_sdiga_crash_text : forall cfg env (show : Q -> string) st df tcol tval evs old d, sdiga_input df tcol tval -> sdiga_parameters cfg -> sorts (en_sort env) ->
  clear_dataset df -> (forall v, tidy (show v)) -> gc_write cfg = true ->
  begins evs (fst (sdiga_run cfg env st df tcol tval)) -> on_disk (sdiga_line_text show) old evs d ->
  (opened evs = false /\ d = old) \/
  exists text rep st' lines, d = Some text /\ read_report (whole_lines text) = Ok rep /\ NoDup (map fst rep) /\
    sdiga_fit cfg env st df tcol tval = Ok st' /\ dg_file st' = Some lines /\ begins (map fst rep) (map gl_subgroup lines) /\
    (closed evs = true -> whole_lines text = text /\ map fst rep = map gl_subgroup lines).
Proof.
  intros cfg env show st df tcol tval evs old d HI HP HS HC Hv Hw B D. destruct (C73_sdiga_crash_lines cfg env st df tcol tval evs HI HP HS Hw B) as (st' & lines & E & Ef & BL & L & ND & _ & CL).
  destruct HI as (Hcat & _ & _ & _ & tc & Htc & It). pose proof Htc as K. apply col_get_in in K; [|apply Hcat]. destruct (HC _ _ K) as (Nt & Vt).
  assert (NDs : NoDup (map gl_subgroup (lines_of evs))).
  { clear -ND. induction (lines_of evs) as [|l ls IH]; [constructor|]. inversion ND as [|? ? N ND']; subst. cbn [map]. constructor; auto. intros I. apply N. apply in_map_iff in I. destruct I as (x & Ex & I). apply in_map_iff. exists x. split; auto. unfold line_desc. rewrite Ex. reflexivity. }
  apply (disk_report _ _ gl_subgroup (sdiga_fields show)) in D.
  - destruct D as [D|(text & k & -> & R & Z)]; [left; auto|right]. exists text, (map (fun x => (gl_subgroup x, sdiga_fields show x)) (firstn k (lines_of evs))), st', lines. split; auto. split; auto.
    rewrite map_map. cbn [fst]. split; [eapply begins_nodup; [apply begins_map, firstn_begins|exact NDs]|]. split; auto. split; auto. split; [apply begins_map; eapply begins_trans; [apply firstn_begins|exact BL]|].
    intros Hc. destruct (Z Hc) as [Z1 Z2]. rewrite Z1, (CL Hc). split; auto.
  - intros l _. unfold sdiga_line_text, sdiga_fields, str_of_nat. cbn [String.concat]. rewrite !app_assoc_str. reflexivity.
  - intros l I. apply In_nth_error in I. destruct I as (k & Ek). destruct (L k l Ek) as ((Q & _ & R) & (G & _) & _). split.
    + rewrite G. split; [exact Q|]. constructor; [split; [reflexivity|]; split; [exact Nt|]; exists tval; split; auto|]. apply Forall_forall. intros s Is. cbn [g_desc] in Is. destruct (R s Is) as (O & _ & col & Ec & Iv).
      apply (clear_nominal df); auto. destruct (s_val s) as [v| |] eqn:Ev; [exists col, v; auto| |]; exfalso; apply col_get_in in Ec; try apply Hcat; destruct Hcat as (_ & _ & St); specialize (St _ _ _ Ec Iv); discriminate.
    + split; [discriminate|]. unfold sdiga_fields. repeat constructor; repeat apply tidy_app; auto; try apply str_of_Z_tidy; split; reflexivity.
Qed.
(** Refuted: "fit leaves the file closed": with a population of one chromosome (accepted by the constructor) fit raises with the file open and empty. *)
Theorem C73_sdiga_one_refuted : forall cfg env st df tcol tval, sdiga_input df tcol tval -> sorts (en_sort env) -> 1 <= gc_generations cfg -> gc_population cfg = 1 -> gc_write cfg = true ->
  sdiga_run cfg env st df tcol tval = ([EOpen], Err IndexError).
Proof.
  intros cfg env st df tcol tval Hin Hs G P Hw. destruct (Hin) as (Hc & _ & _ & _ & tc & Htc & It). unfold sdiga_run.
  assert (AN : all_nominal df = true).
  { destruct Hc as (_ & _ & H). unfold all_nominal. apply forallb_forall. intros [a col] I. apply forallb_forall. intros v Iv. eapply H; eauto. }
  rewrite AN. cbn [negb]. unfold target_mask, df_col. rewrite Htc. cbn [bind]. unfold run_bind at 1, run_lift at 1. cbn [fst snd].
  assert (AT : any_true (map (fun v => py_eq v (VStr tval)) tc) = true).
  { apply existsb_exists. exists true. split; auto. apply in_map_iff. exists (VStr tval). split; auto. apply py_eq_refl_v. }
  assert (EV : forall dict fit time, evolve cfg env dict fit time = Err IndexError).
  { intros dict fit time. unfold evolve. rewrite P. cbn [generate_population]. destruct (random_chromosome env time dict) as [c t1]. cbn [map]. destruct (gc_generations cfg) as [|g]; [lia|]. cbn [generations].
    match goal with |- context[en_sort env ?l] => destruct (Hs l) as [Pm _]; assert (L1 : length (en_sort env l) = 1) by (rewrite <- (Permutation_length Pm); reflexivity); destruct (en_sort env l) as [|x [|y r]]; try discriminate L1 end.
    reflexivity. }
  assert (ML : forall dict n rows TP FP s, main_loop_run cfg env dict tval (S n) tcol rows TP FP s = ([], Err IndexError)) by (intros dict n rows TP FP s; cbn [main_loop_run]; cbn zeta; rewrite EV; reflexivity).
  rewrite AT, Hw. cbn [negb]. rewrite (encoded_is df tcol tc Htc). unfold run_bind, run_lift, run_emit. cbn [fst snd app]. cbn zeta. rewrite !ML. reflexivity.
Qed.
Print Assumptions C73_sdiga_faithful. Print Assumptions C73_sdiga_closing. Print Assumptions C73_sdiga_crash_lines. Print Assumptions C73_sdiga_crash_text. Print Assumptions C73_sdiga_one_refuted.

(** * The algorithms that write after the search *)
Lemma written : forall L (ls : list L), fold_run (fun _ l => run_emit (ELine l)) ls tt = (map ELine ls, Ok tt).
Proof. induction ls as [|l ls IH]; [reflexivity|]. cbn [fold_run]. unfold run_bind at 1. change (snd (run_emit (ELine l))) with (@Ok unit tt). cbn iota beta. rewrite IH. reflexivity. Qed.
Lemma written_lines : forall L (ls : list L), lines_of (map ELine ls) = ls.
Proof. induction ls as [|l ls IH]; [reflexivity|]. cbn [map lines_of flat_map app]. f_equal. exact IH. Qed.
(** A search that raises leaves the file as it was; one that ends writes its lines. *)
Theorem C73_bsd_run : forall V (c : bsd_config V) st df tcol tval, bc_write c = true ->
  bsd_run c st df tcol tval = match bsd_fit c st df tcol tval with
    | Ok st' => (EOpen :: map ELine (bsd_lines c tcol tval st') ++ [EClose], Ok st')
    | Err e => ([], Err e)
    end.
Proof.
  intros V c st df tcol tval Hw. unfold bsd_run. rewrite Hw. destruct (bsd_fit c st df tcol tval) as [st'|e]; [|reflexivity]. unfold run_bind, run_lift. cbn [fst snd app].
  rewrite written. unfold run_emit. cbn [fst snd app]. rewrite app_nil_r. reflexivity.
Qed.
Theorem C73_idsd_run : forall c st df tcol tval,
  idsd_run true c st df tcol tval = match idsd_fit c st df tcol tval with
    | Ok st' => (EOpen :: map ELine (idsd_lines tcol tval st') ++ [EClose], Ok st')
    | Err e => ([], Err e)
    end.
Proof.
  intros c st df tcol tval. unfold idsd_run. destruct (idsd_fit c st df tcol tval) as [st'|e]; [|reflexivity]. unfold run_bind, run_lift. cbn [fst snd app].
  rewrite written. unfold run_emit. cbn [fst snd app]. rewrite app_nil_r. reflexivity.
Qed.
(** QFinder looks the values up while the file is open; no look-up fails. *)
Theorem C73_qfinder_run : forall c D tcol tval, qfinder_input c D tcol -> exists st lines, qfinder_fit c D tcol tval = Ok st /\ q_lines tcol tval st (qs_cred st) = Ok lines /\
  qfinder_run true c D tcol tval = (EOpen :: map ELine lines ++ [EClose], Ok st).
Proof.
  intros c D tcol tval HI. destruct (C45_candidates c D tcol tval HI) as (st & kept & E & _). destruct (C45_file c D tcol tval st HI E) as (lines & El & _). exists st, lines. split; auto. split; auto.
  unfold qfinder_run. rewrite E. unfold run_bind at 1, run_lift at 1. cbn [fst snd app].
  enough (K : fold_run (fun _ p => go r <- run_lift (assoc (qs_cred st) (pattern_str p)); run_emit (ELine (SG p (Sel tcol EQUAL (VStr tval)), r))) (qs_top st) tt = (map ELine lines, Ok tt)).
  { rewrite K. unfold run_bind, run_lift, run_emit. cbn [fst snd app run_ret]. rewrite app_nil_r. reflexivity. }
  unfold q_lines in El. revert lines El. generalize (qs_top st) as top. induction top as [|p top IH]; intros lines El; cbn [map_res] in El; [injection El as <-; reflexivity|].
  destruct (assoc (qs_cred st) (pattern_str p)) as [r|] eqn:Ea; [|discriminate]. cbn [bind] in El. match type of El with bind ?m _ = _ => destruct m as [ls|] eqn:Em end; [|discriminate]. cbn [bind] in El. injection El as <-.
  cbn [fold_run map]. rewrite Ea. change (run_bind (run_lift (Ok r)) (fun r => run_emit (ELine (SG p (Sel tcol EQUAL (VStr tval)), r)))) with ([ELine (SG p (Sel tcol EQUAL (VStr tval)), r)], Ok tt).
  unfold run_bind at 1. change (snd ([ELine (SG p (Sel tcol EQUAL (VStr tval)), r)], Ok tt)) with (@Ok unit tt). cbn iota beta. rewrite (IH ls eq_refl). reflexivity.
Qed.
(** At any crash point of such a run: the old file, or the first lines of the report. *)
Lemma end_report : forall L (text : L -> string) (group : L -> subgroup) (fields : L -> list string) ls evs old d,
  (forall x, In x ls -> text x = ((subgroup_str (group x) ++ " ; " ++ String.concat " ; " (fields x)) ++ newline)%string) ->
  (forall x, In x ls -> clear_group (group x) /\ fields x <> [] /\ Forall tidy (fields x)) ->
  begins evs (EOpen :: map ELine ls ++ [EClose]) -> on_disk text old evs d ->
  (evs = [] /\ d = old) \/
  exists t k, d = Some t /\ read_report (file_text (map text ls)) = Ok (map (fun x => (group x, fields x)) ls) /\ read_report (whole_lines t) = Ok (firstn k (map (fun x => (group x, fields x)) ls)) /\
    (closed evs = true -> t = file_text (map text ls)).
Proof.
  intros L text group fields ls evs old d T C B D. assert (BL : begins (lines_of evs) ls).
  { apply begins_lines in B. change (EOpen :: map ELine ls ++ [EClose]) with ([EOpen] ++ map ELine ls ++ [EClose]) in B. rewrite !lines_of_app, written_lines in B. cbn in B. rewrite app_nil_r in B. exact B. }
  assert (In1 : forall x, In x (lines_of evs) -> In x ls) by (intros x; apply begins_in; auto).
  pose proof D as D0. apply (disk_report _ text group fields) in D; auto. destruct D as [[O ->]|(t & k & -> & R & Z)].
  - left. split; auto. destruct evs as [|e evs]; auto. destruct B as [r B]. cbn [app] in B. injection B as <- B. discriminate.
  - right. exists t, (length (firstn k (lines_of evs))). split; auto. split; [apply report_lines; auto|].
    rewrite firstn_map. rewrite <- (begins_firstn _ _ (begins_trans _ _ _ (firstn_begins k (lines_of evs)) BL)). split; auto.
    intros Hc. unfold on_disk in D0. rewrite Hc in D0. destruct (opened evs) eqn:O; [|destruct evs as [|e evs]; [discriminate|]; destruct B as [r B]; cbn [app] in B; injection B as <- B; discriminate].
    assert (EL : lines_of evs = ls); [|rewrite EL in D0; congruence].
    destruct evs as [|e evs]; [discriminate|]. destruct B as [r B]. cbn [app] in B. injection B as <- B. destruct (begins_app_cases evs (map ELine ls) [EClose] (ex_intro _ r B)) as [[r' K]|(p' & -> & _)].
    + exfalso. cbn in Hc. assert (Zc : closed (map (@ELine L) ls) = false) by (clear; induction ls; auto). rewrite K, closed_app in Zc. apply orb_false_iff in Zc. destruct Zc as [Zc _]. unfold closed in *. congruence.
    + assert (EL : lines_of (EOpen :: map ELine ls ++ p') = ls ++ lines_of p') by (change (EOpen :: map ELine ls ++ p') with ([EOpen] ++ map ELine ls ++ p'); rewrite !lines_of_app, written_lines; reflexivity).
      rewrite EL in *. destruct BL as [r' K]. rewrite <- app_assoc in K. rewrite <- (app_nil_r ls) in K at 1. apply app_inv_head in K. symmetry in K. apply app_eq_nil in K. destruct K as [-> _]. apply app_nil_r.
Qed.
Theorem C73_bsd_crash_text : forall V (c : bsd_config V) (show : V -> string) qname df tcol tval evs old d, bsd_input c df tcol tval -> clear_dataset df -> clear_value tval -> tidy qname -> (forall v, tidy (show v)) ->
  bc_write c = true -> (forall X q, candidate df tcol X -> quality (bc_measure c) df tcol tval X = Ok q -> bc_lt c (bc_dummy c) q = true) ->
  begins evs (fst (bsd_run c (bsd_new c) df tcol tval)) -> on_disk (bsd_line_text show qname) old evs d ->
  (evs = [] /\ d = old) \/
  exists st ls text rep k, bsd_fit c (bsd_new c) df tcol tval = Ok st /\ bs_file st = Some ls /\ d = Some text /\
    read_report (file_text (map (bsd_line_text show qname) ls)) = Ok rep /\ read_report (whole_lines text) = Ok (firstn k rep) /\
    (closed evs = true -> text = file_text (map (bsd_line_text show qname) ls)).
Proof.
  intros V c show qname df tcol tval evs old d HB HC Ht Hq Hv Hw Hd B D. rewrite C73_bsd_run in B by auto. destruct (bsd_fit c (bsd_new c) df tcol tval) as [st|e] eqn:E; cbn [fst] in B.
  2:{ apply begins_of_nil in B. subst evs. left. auto. }
  destruct (C35_output c df tcol tval st HB Hw Hd E) as (ls & Ef & _ & EL).
  assert (El : bsd_lines c tcol tval st = ls).
  { pose proof E as E2. unfold bsd_fit in E2. destruct (negb _); [discriminate|]. destruct (target_mask _ _ _); cbn [bind] in E2; [|discriminate]. destruct (population df a) as [TP FP].
    match type of E2 with bind ?m _ = _ => destruct m as [s1|] end; cbn [bind] in E2; [|discriminate]. destruct (first_entry _); cbn [bind] in E2; [|discriminate]. rewrite Hw in E2. injection E2 as <-. cbn [bs_file] in Ef. injection Ef as <-. reflexivity. }
  rewrite El in B. assert (CG : forall r, In r ls -> clear_group (r_subgroup r)).
  { intros r I. destruct EL as [[_ ->]|EL]; [destruct I|]. destruct (C35_best_list c df tcol tval st (bs_k st) HB E) as [K'|(_ & _ & _ & F)]; [left; reflexivity| |].
    - exfalso. rewrite K' in EL. unfold bsd_lines in El. rewrite K' in El. cbn [filter map] in El, EL. unfold dummy_entry in El. cbn [e_quality] in El.
      destruct (negb (value_eq c (bc_dummy c) (bc_dummy c))) eqn:Kd; [|rewrite EL in El; discriminate]. destruct HB as (_ & _ & _ & [Irr _] & _). unfold value_eq in Kd. rewrite !Irr in Kd. discriminate.
    - rewrite EL in I. apply in_map_iff in I. destruct I as (e & <- & Ie). rewrite Forall_forall in F. destruct (F e Ie) as ((Dx & Cx) & _). destruct HB as (Hcat & _ & Hcol & _). apply (description_clear df); auto. }
  apply (end_report _ (bsd_line_text show qname) r_subgroup (record_fields show qname) ls) in D; auto.
  - destruct D as [D|(t & k & -> & R1 & R2 & Z)]; [left; auto|]. right. eexists st, ls, t, _, k. split; auto. split; auto. split; auto. split; [exact R1|]. split; [exact R2|auto].
  - intros r _. unfold bsd_line_text, record_fields. cbn [String.concat]. rewrite !app_assoc_str. reflexivity.
  - intros r I. split; auto. split; [discriminate|]. apply record_tidy; auto.
Qed.
Theorem C73_idsd_crash_text : forall c (show : xnum -> string) st df tcol tval evs old d, idsd_input c st df tcol tval -> clear_dataset df -> (forall v, tidy (show v)) ->
  begins evs (fst (idsd_run true c st df tcol tval)) -> on_disk (idsd_line_text show) old evs d ->
  (evs = [] /\ d = old) \/
  exists st' text rep k, idsd_fit c st df tcol tval = Ok st' /\ d = Some text /\
    read_report (file_text (map (idsd_line_text show) (idsd_lines tcol tval st'))) = Ok rep /\ read_report (whole_lines text) = Ok (firstn k rep) /\
    (closed evs = true -> text = file_text (map (idsd_line_text show) (idsd_lines tcol tval st'))).
Proof.
  intros c show st df tcol tval evs old d HI HC Hv B D. rewrite C73_idsd_run in B. destruct (idsd_fit c st df tcol tval) as [st'|e] eqn:E; cbn [fst] in B.
  2:{ apply begins_of_nil in B. subst evs. left. auto. }
  destruct (C43_fit c st df tcol tval st' HI E) as (_ & _ & M & _). destruct HI as (Hcat & (cells & Ec & Ic) & _).
  assert (Ht : clear_value tval) by (pose proof Ec as K; apply col_get_in in K; [|apply Hcat]; apply (HC _ _ K); auto).
  apply (end_report _ (idsd_line_text show) (fun l => fst (fst l)) (idsd_fields show) (idsd_lines tcol tval st')) in D; auto.
  - destruct D as [D|(t & k & -> & R1 & R2 & Z)]; [left; auto|]. right. eexists st', t, _, k. split; auto. split; auto. split; [exact R1|]. split; [exact R2|auto].
  - intros ((g, rank), r) _. unfold idsd_line_text, idsd_fields. cbn [fst String.concat]. rewrite !app_assoc_str. reflexivity.
  - intros l I. apply in_map_iff in I. destruct I as (e & <- & Ie). cbn [fst]. destruct (M e Ie) as ((Dx & Cx & _) & _). split.
    + apply (description_clear (reduce_categories (ic_cats c) df tcol)); auto; [apply reduce_categorical; auto|apply reduce_clear; auto|]. exists cells. rewrite reduce_target. auto.
    + split; [discriminate|]. unfold idsd_fields. repeat constructor; repeat apply tidy_app; auto; try apply str_of_Z_tidy; split; reflexivity.
Qed.
Theorem C73_qfinder_crash_text : forall c (show : xnum -> string) D tcol tval evs old d, qfinder_input c D tcol -> clear_dataset D -> clear_value tval -> (forall v, tidy (show v)) ->
  begins evs (fst (qfinder_run true c D tcol tval)) -> on_disk (qfinder_line_text show) old evs d ->
  (evs = [] /\ d = old) \/
  exists st lines text rep k, qfinder_fit c D tcol tval = Ok st /\ q_lines tcol tval st (qs_cred st) = Ok lines /\ d = Some text /\
    read_report (file_text (map (qfinder_line_text show) lines)) = Ok rep /\ read_report (whole_lines text) = Ok (firstn k rep) /\
    (closed evs = true -> text = file_text (map (qfinder_line_text show) lines)).
Proof.
  intros c show D tcol tval evs old d HI HC Ht Hv B Dk. destruct (C73_qfinder_run c D tcol tval HI) as (st & lines & E & El & Er). rewrite Er in B. cbn [fst] in B.
  destruct (C45_file c D tcol tval st HI E) as (lines' & El' & Em & A). rewrite El in El'. injection El' as <-.
  destruct (C45_candidates c D tcol tval HI) as (st' & kept & E' & _ & _ & M). rewrite E in E'. injection E' as <-.
  assert (T : incl (qs_top st) (qs_candidates st)) .
  { destruct (entries_exist c D tcol tval HI) as (st' & es & top & E' & (Me & Ae) & Es & Tt & Ne & W). rewrite E in E'. injection E' as <-. rewrite Tt, <- Me. intros X HX. apply in_map_iff in HX. destruct HX as (e & <- & He). apply in_map. apply (selected_incl _ _ _ Es); auto. }
  apply (end_report _ (qfinder_line_text show) fst (qfinder_fields show) lines) in Dk; auto.
  - destruct Dk as [Dk|(t & k & -> & R1 & R2 & Z)]; [left; auto|]. right. eexists st, lines, t, _, k. split; auto. split; auto. split; auto. split; [exact R1|]. split; [exact R2|auto].
  - intros (g, r) _. unfold qfinder_line_text, qfinder_fields. cbn [fst snd String.concat]. rewrite !app_assoc_str. reflexivity.
  - intros l I. assert (J : In (fst l) (map fst lines)) by (apply in_map; auto). rewrite Em in J. apply in_map_iff in J. destruct J as (X & <- & J). apply T, M in J. destruct J as (Dx & C & _).
    destruct HI as (Hcat & Hcol & _). split; [apply (description_clear D); auto|]. split; [discriminate|]. unfold qfinder_fields. repeat constructor; repeat apply tidy_app; auto; split; reflexivity.
Qed.
Print Assumptions C73_bsd_run. Print Assumptions C73_idsd_run. Print Assumptions C73_qfinder_run. Print Assumptions C73_bsd_crash_text. Print Assumptions C73_idsd_crash_text. Print Assumptions C73_qfinder_crash_text.

(** * Concrete cases: a measure that divides by fp raises in the middle of the search *)
Definition ratio : Z -> Z -> Z -> Z -> res Z := fun tp fp _ _ => if (fp =? 0)%Z then Err ZeroDivisionError else Ok (tp / fp)%Z.
Definition ratio_config : sd_config Z := SDC ratio (Z.leb 1) None None (Some 0%Z) true.
Definition summary {L A} (group : L -> subgroup) (m : CrashModel.run L A) := (map (fun l => g_desc (group l)) (lines_of (fst m)), selected_in (fst m), closed (fst m), match snd m with Ok _ => None | Err e => Some e end).
Example C73_sdmap_nonvacuous : categorical toy /\ clear_dataset toy /\ clear_value "p" /\ distinct_keys toy "class" /\ has_column toy "class" /\
  summary r_subgroup (sdmap_run ratio_config toy "class" "p") = ([[is "a" "x"]; [is "b" "u"]], 2, false, Some ZeroDivisionError) /\
  exists evs text rep, begins evs (fst (sdmap_run ratio_config toy "class" "p")) /\ on_disk (sdmap_line_text str_of_Z "m") None evs (Some text) /\
    text = ("Description: [a = 'x'], Target: class = 'p' ; Quality Measure m = 2 ; tp = 2 ; fp = 1 ; TP = 2 ; FP = 2" ++ newline ++ "Description: [b = 'u'], Targ")%string /\
    read_report (whole_lines text) = Ok rep /\ map fst rep = [SG [is "a" "x"] (is "class" "p")].
Proof.
  destruct toy_ok as (A & B & C). split; [exact A|]. split; [apply toy_clear|]. split; [apply p_clear|]. split; [exact B|]. split; [exact C|]. split; [vm_compute; reflexivity|].
  eexists (fst (sdmap_run ratio_config toy "class" "p")), _, _. split; [apply begins_refl|]. split; [|split; [reflexivity|split; vm_compute; reflexivity]].
  unfold on_disk. replace (opened (fst (sdmap_run ratio_config toy "class" "p"))) with true by (vm_compute; reflexivity). replace (closed (fst (sdmap_run ratio_config toy "class" "p"))) with false by (vm_compute; reflexivity).
  eexists _, ("et: class = 'p' ; Quality Measure m = 2 ; tp = 2 ; fp = 1 ; TP = 2 ; FP = 2" ++ newline)%string. split; [|reflexivity]. vm_compute. reflexivity.
Qed.
Definition ratio_star (num : Z) : star_config Z := StarC ratio_config (fun tp _ _ _ => Ok tp) ratio Z.ltb Z.eqb num.
Example C73_sdmapstar_nonvacuous : summary r_subgroup (sdmapstar_run (ratio_star 2) (StarS (SDS 0 0 None) [] 0 0) toy "class" "p") = ([[is "b" "u"]], 1, false, Some ZeroDivisionError) /\
  summary r_subgroup (sdmapstar_run (ratio_star 0) (StarS (SDS 0 0 None) [] 0 0) toy "class" "p") = ([[is "a" "x"]; [is "b" "u"]], 2, false, Some ZeroDivisionError).
Proof. split; vm_compute; reflexivity. Qed.
Definition ratio_vlsd : vl_config Z := VC ratio (Z.leb 1) (fun tp _ _ _ => Ok tp) (Z.leb 0) Z.ltb NO_ORDER NO_ORDER true.
Example C73_vlsd_nonvacuous : summary (fun r => r_subgroup (vr_line r)) (vlsd_run with_bitsets ratio_vlsd toy "class" "p") = ([[is "a" "x"]; [is "b" "u"]], 2, false, Some ZeroDivisionError) /\
  summary (fun r => r_subgroup (vr_line r)) (vlsd_run with_sets ratio_vlsd toy "class" "p") = ([[is "a" "x"]; [is "b" "u"]], 2, false, Some ZeroDivisionError).
Proof. split; vm_compute; reflexivity. Qed.
Example C73_sdiga_nonvacuous : sdiga_input toy "class" "p" /\ sdiga_parameters mild /\ sorts (en_sort (lehmer 6)) /\ clear_dataset toy /\ length (fst (sdiga_run mild (lehmer 6) sdiga_new toy "class" "p")) = 10.
Proof.
  destruct C63_nonvacuous as (A & B & C & st' & lines & E & F & L & _). split; auto. split; auto. split; auto. split; [apply toy_clear|].
  destruct (sdiga_shape mild (lehmer 6) sdiga_new toy "class" "p" eq_refl) as [[_ [e K]]|(ls & Es & H)]; [rewrite E in K; discriminate|]. rewrite Es. rewrite E in *. destruct (H st' eq_refl) as [F' _]. rewrite F in F'. injection F' as <-.
  cbn [length]. rewrite app_length. unfold counted. clear -L. repeat (destruct lines as [|? lines]; try discriminate). reflexivity.
Qed.
Example C73_bsd_nonvacuous : let c := wracc_config CBSD 0 3 1 in bsd_input c toy "class" "p" /\ length (fst (bsd_run c (bsd_new c) toy "class" "p")) = 5.
Proof. split; [apply Properties_BSD.toy_input; lia|vm_compute; reflexivity]. Qed.
Example C73_idsd_nonvacuous : let c := ex_config 3 (-1) 0 (XFin 0) in idsd_input c idsd_new ex_data "class" "p" /\ length (fst (idsd_run true c idsd_new ex_data "class" "p")) = 5.
Proof. split; [apply ex_input; lia|vm_compute; reflexivity]. Qed.
Example C73_qfinder_nonvacuous : let c := ex_q 3 (-1) (-1) 0 in qfinder_input c ex_data "class" /\ length (fst (qfinder_run true c ex_data "class" "p")) = 5.
Proof. split; [apply ex_qinput; lia|vm_compute; reflexivity]. Qed.
