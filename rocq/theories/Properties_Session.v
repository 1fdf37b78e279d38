(** C74: several calls of fit on one object, the file after an exception. *)
From Verif Require Import CrashSpec CrashProofs CoreText SessionModel SessionProofs ReportProofs MiningProofs Properties_BSD Properties_IDSD SDIGASpec SDIGAProofs SDIGASearch SDIGAMain VLSDProofs Properties_VLSD Properties_SDIGA Properties_Report Properties_Crash Properties_CrashVLSD Properties_CrashStar Properties_CrashOther.
From Verif Require Import Properties_SDMap.
From Coq Require Import Lia.
Open Scope string_scope.
Open Scope list_scope.
Open Scope nat_scope.

(** The report of a call: the text of its lines. *)
Definition report_of {L A} (text : L -> string) (m : CrashModel.run L A) : string := file_text (map text (lines_of (fst m))).
(** The content of the file when [m] ends, if a file object that had sent [sent] to the disk and still held [rest] was dropped just after
    [m] had opened the file: [rest], preceded by one zero byte per byte of [sent], shows behind the report of [m]. *)
Definition overlaid (report sent rest : string) : string :=
  match rest with
  | EmptyString => report
  | _ => (report ++ drop_chars (String.length report) (zero_bytes (String.length sent) ++ rest))%string
  end.

(** The model of C73 (any crash point of one call) is what the file object does: exactly these contents are possible. *)
Theorem C74_crash_points : forall L A (text : L -> string) (m : CrashModel.run L A) evs old d, well_ordered m -> begins evs (fst m) ->
  (on_disk text old evs d <-> exists w', effects text evs (World old None) w' /\ w_disk w' = d).
Proof.
  intros L A text m evs old d W B. destruct (crash_body L A m evs W B) as [->|(pre & -> & Bp)].
  { split; [intros D; cbn in D; subst d; eexists; split; [constructor|reflexivity]|]. intros (w' & H & E). inversion H; subst. reflexivity. }
  unfold on_disk. change (opened (EOpen :: pre)) with true. cbv iota.
  assert (Hp : exists b tail, pre = b ++ tail /\ opened b = false /\ closed b = false /\ (tail = [] \/ tail = [EClose])).
  { destruct W as [E|(body & Ho & Hc & E)].
    - rewrite E in B. destruct B as [r Er]. discriminate.
    - rewrite E in Bp. cbn [tl] in Bp. destruct (begins_app_cases _ _ _ Bp) as [[r Eb]|(p' & -> & Bt)].
      + exists pre, []. rewrite app_nil_r. subst body. rewrite opened_app in Ho. rewrite closed_app in Hc. apply orb_false_iff in Ho. apply orb_false_iff in Hc. split; [reflexivity|]. split; [apply Ho|]. split; [apply Hc|]. left; reflexivity.
      + exists body, p'. split; [reflexivity|]. split; auto. split; auto. destruct (snd m).
        * destruct Bt as [r Er]. destruct p' as [|x p']; [left; reflexivity|]. right. cbn in Er. injection Er as <- Er. destruct p'; [reflexivity|discriminate].
        * left. destruct Bt as [r Er]. destruct p'; [reflexivity|discriminate]. }
  destruct Hp as (b & tail & -> & Ho & Hc & T).
  change (closed (EOpen :: b ++ tail)) with (closed (b ++ tail)). rewrite closed_app, Hc. cbn [orb].
  assert (LT : file_text (map text (lines_of (EOpen :: b ++ tail))) = body_text text b).
  { change (lines_of (EOpen :: b ++ tail)) with (lines_of (b ++ tail)). rewrite lines_of_app. destruct T as [->| ->]; cbn [lines_of flat_map]; rewrite app_nil_r; reflexivity. }
  rewrite LT. destruct T as [->| ->].
  - change (closed (@nil (event L))) with false. cbv iota. rewrite app_nil_r. split.
    + intros (p & q & E & ->). eexists. split; [econstructor; [constructor|]|].
      * cbn [flush_all]. change (Some "") with (Some (over "" "")). change 0 with (String.length ""). apply (body_any text b Ho Hc "" "" p q). symmetry; exact E.
      * cbn [w_disk append]. rewrite over_empty. reflexivity.
    + intros (w' & H & <-). inversion H as [|? ? ? w1 ? He Hr]; subst. inversion He; subst. cbn [flush_all] in Hr.
      change (Some "") with (Some (over "" "")) in Hr. change 0 with (String.length "") in Hr. destruct (body_effects text b Ho Hc _ _ _ _ Hr) as (Q & R & E & ->). cbn in E. exists Q, R. split; [auto|].
      cbn [w_disk]. rewrite over_empty. reflexivity.
  - change (closed [@EClose L]) with true. cbv iota. split.
    + intros ->. eexists. split; [econstructor; [constructor|apply effects_app; eexists; split; [|econstructor; constructor]]|].
      * cbn [flush_all]. change (Some "") with (Some (over "" "")). change 0 with (String.length ""). apply (body_any text b Ho Hc "" "" "" (body_text text b)). reflexivity.
      * cbn [w_disk append flush_all f_place f_buffer String.length]. rewrite over_empty. destruct (body_text text b) eqn:X; [reflexivity|]. cbn [put put_at]. rewrite over_empty. reflexivity.
    + intros (w' & H & <-). inversion H as [|? ? ? w1 ? He Hr]; subst. inversion He; subst. cbn [flush_all] in Hr.
      change (Some "") with (Some (over "" "")) in Hr. change 0 with (String.length "") in Hr. apply effects_app in Hr. destruct Hr as (v & H1 & H2).
      destruct (body_effects text b Ho Hc _ _ _ _ H1) as (Q & R & E & ->). cbn in E. inversion H2 as [|? ? ? w2 ? He2 Hr2]; subst. inversion Hr2; subst. inversion He2; subst.
      cbn [w_disk flush_all f_place f_buffer]. rewrite put_over, over_empty, E. reflexivity.
Qed.
Print Assumptions C74_crash_points.

(** After any number of calls, with or without exceptions, a call that ends leaves its report, unless the last call before it that had
    opened the file raised; then the text which that call had not yet sent to the disk can show behind the report. *)
Theorem C74_next_call : forall L A (text : L -> string) (ms : list (CrashModel.run L A)) (m : CrashModel.run L A) a old w1 w2, Forall well_ordered ms -> well_ordered m ->
  calls text ms (World old None) w1 -> effects text (fst m) w1 w2 -> snd m = Ok a -> opened (fst m) = true ->
  w_file w2 = None /\
  match last_open ms with
  | Some m1 => match snd m1 with
               | Ok _ => w_disk w2 = Some (report_of text m)
               | Err _ => exists sent rest, report_of text m1 = (sent ++ rest)%string /\ w_disk w2 = Some (overlaid (report_of text m) sent rest)
               end
  | None => w_disk w2 = Some (report_of text m)
  end.
Proof.
  intros L A text ms m a old w1 w2 F W C H Ea O. pose proof (calls_leave text ms (World old None) w1 F eq_refl C) as K.
  destruct (one_call text m w1 w2 W O H) as (L0 & EL & R). rewrite Ea in R. subst w2. cbn [w_file w_disk]. split; [reflexivity|].
  change (body_text text (fst m)) with (report_of text m).
  assert (Clean : w_file w1 = None -> Some (over (report_of text m) L0) = Some (report_of text m)).
  { intro N. subst L0. rewrite N. cbn [flush_all]. rewrite over_empty. reflexivity. }
  destruct (last_open ms) as [[evs1 [b|e]]|]; cbn [snd] in K |- *.
  - auto.
  - destruct K as (Q & R & E & Ef). exists Q, R. split; [exact E|]. subst L0. rewrite Ef. cbn [flush_all f_place f_buffer]. f_equal. unfold overlaid.
    destruct R as [|c R]; [cbn [put]; apply over_empty|]. cbn [put]. etransitivity; [apply (f_equal (over _)), put_zeros|apply over_drop].
  - subst w1. apply Clean. reflexivity.
Qed.
Print Assumptions C74_next_call.

(** If no call raised after opening the file, the file holds the report of the last call that opened it. *)
Theorem C74_no_exception : forall L A (text : L -> string) (ms : list (CrashModel.run L A)) old w, Forall well_ordered ms ->
  (forall m, In m ms -> opened (fst m) = true -> exists a, snd m = Ok a) ->
  calls text ms (World old None) w ->
  w = World (match last_open ms with Some m => Some (report_of text m) | None => old end) None.
Proof.
  intros L A text ms old w F. unfold last_open. revert w. induction ms as [|m ms IH] using rev_ind; intros w NoE C.
  - unfold calls in C. cbn in C |- *. inversion C. reflexivity.
  - apply Forall_app in F. destruct F as [F Fm]. inversion Fm as [|? ? Wm _]; subst. unfold calls in C. rewrite flat_map_app in C. cbn [flat_map] in C. rewrite app_nil_r in C.
    apply effects_app in C. destruct C as (v & C1 & C2). rewrite rev_app_distr. cbn [rev app find].
    assert (V := IH F v (fun x I => NoE x (in_or_app ms [m] x (or_introl I))) C1). destruct (opened (fst m)) eqn:O.
    + destruct (NoE m (in_or_app ms [m] m (or_intror (or_introl eq_refl))) O) as [a Ea]. destruct (one_call text m v w Wm O C2) as (L0 & EL & R). rewrite Ea in R.
      rewrite R, EL, V. cbn [w_file flush_all]. rewrite over_empty. reflexivity.
    + rewrite (unopened m Wm O) in C2. assert (Ev : v = w) by (clear V; inversion C2; reflexivity). rewrite <- Ev. exact V.
Qed.
Print Assumptions C74_no_exception.

(** Exactly when the report is intact. *)
Theorem C74_intact : forall report sent rest,
  overlaid report sent rest = report <-> rest = "" \/ String.length sent + String.length rest <= String.length report.
Proof.
  intros report sent rest. unfold overlaid. destruct rest as [|c r]; [split; auto|]. set (R := String c r).
  assert (N : forall x, (report ++ x)%string = report <-> x = "").
  { intro x. split; [|intros ->; apply str_nil_r]. intro E. apply (f_equal String.length) in E. rewrite length_app_str in E. destruct x; [reflexivity|cbn in E; lia]. }
  rewrite N. split.
  - intro E. right. apply (f_equal String.length) in E. rewrite drop_chars_length, length_app_str, zero_bytes_length in E. cbn in E. unfold R. cbn. lia.
  - intros [E|H]; [discriminate|]. assert (Z : String.length (drop_chars (String.length report) (zero_bytes (String.length sent) ++ R)) = 0).
    { rewrite drop_chars_length, length_app_str, zero_bytes_length. lia. }
    destruct (drop_chars _ _); [reflexivity|discriminate].
Qed.
Print Assumptions C74_intact.
(** Every such content can be found: after a call that raised, whatever part of its text has reached the disk. *)
Theorem C74_reached : forall L A (text : L -> string) (m1 m2 : CrashModel.run L A) e a old sent rest, well_ordered m1 -> well_ordered m2 ->
  opened (fst m1) = true -> opened (fst m2) = true -> snd m1 = Err e -> snd m2 = Ok a -> report_of text m1 = (sent ++ rest)%string ->
  exists w, calls text [m1; m2] (World old None) w /\ w_disk w = Some (overlaid (report_of text m2) sent rest).
Proof.
  intros L A text m1 m2 e a old sent rest W1 W2 O1 O2 E1 E2 R.
  pose proof (one_call_any text m1 (World old None) sent rest W1 O1 (eq_sym R) (ex_intro _ e E1)) as H1.
  match type of H1 with effects _ _ _ ?w1 => destruct (one_call_ok text m2 w1 a W2 O2 E2) as [w2 H2] end. exists w2.
  split; [unfold calls; cbn [flat_map]; rewrite app_nil_r; apply effects_app; eexists; split; eauto|].
  destruct (one_call text m2 _ w2 W2 O2 H2) as (L0 & EL & K). rewrite E2 in K. subst w2. cbn [w_disk]. f_equal. subst L0. cbn [w_file flush_all f_place f_buffer]. unfold overlaid.
  destruct rest as [|c r]; [cbn [put]; apply over_empty|]. cbn [put]. etransitivity; [apply (f_equal (over _)), put_zeros|apply over_drop].
Qed.
Print Assumptions C74_reached.
(** When the object is deleted after the exception, the whole text of the call that raised is in the file. *)
Theorem C74_deleted : forall L A (text : L -> string) (m : CrashModel.run L A) e old w, well_ordered m -> opened (fst m) = true -> snd m = Err e ->
  effects text (fst m) (World old None) w -> w_disk (deleted w) = Some (report_of text m).
Proof.
  intros L A text m e old w W O E H. destruct (one_call text m _ w W O H) as (L0 & -> & K). rewrite E in K. destruct K as (Q & R & EQ & ->).
  unfold deleted. cbn [w_disk w_file flush_all f_place f_buffer]. rewrite put_over, over_empty, <- EQ. reflexivity.
Qed.
Print Assumptions C74_deleted.

(** * The algorithms *)
(** What a call [m] that ends finds and leaves after the calls [ms]. *)
Definition after_calls {L A} (text : L -> string) (ms : list (CrashModel.run L A)) (report : string) (disk : option string) : Prop :=
  (disk = Some report /\ forall m1, last_open ms = Some m1 -> exists a, snd m1 = Ok a) \/
  exists m1 e sent rest, last_open ms = Some m1 /\ snd m1 = Err e /\ report_of text m1 = (sent ++ rest)%string /\ disk = Some (overlaid report sent rest).
Lemma next_call : forall L A (text : L -> string) (ms : list (CrashModel.run L A)) (m : CrashModel.run L A) a old w1 w2, Forall well_ordered ms -> well_ordered m ->
  calls text ms (World old None) w1 -> effects text (fst m) w1 w2 -> snd m = Ok a -> opened (fst m) = true ->
  after_calls text ms (report_of text m) (w_disk w2).
Proof.
  intros L A text ms m a old w1 w2 F W C H Ea O. destruct (C74_next_call L A text ms m a old w1 w2 F W C H Ea O) as [_ K]. unfold after_calls.
  destruct (last_open ms) as [m1|]; [|left; split; [exact K|discriminate]]. destruct (snd m1) as [b|e] eqn:E.
  - left. split; [exact K|]. intros m2 [= <-]. exists b. exact E.
  - right. destruct K as (sent & rest & R & D). exists m1, e, sent, rest. auto.
Qed.
Lemma Forall_of {A} (P : A -> Prop) l : (forall x, In x l -> P x) -> Forall P l.
Proof. intro H. apply Forall_forall. exact H. Qed.

Theorem C74_sdmap : forall V (c : sd_config V) (show : V -> string) qname inputs df tcol tval st st' old w1 w2, c_write c = true ->
  let text := sdmap_line_text show qname in
  let ms := map (fun i => sdmap_run c (fst (fst i)) (snd (fst i)) (snd i)) inputs in
  calls text ms (World old None) w1 -> effects text (fst (sdmap_run c df tcol tval)) w1 w2 -> sdmap_fit c st df tcol tval = Ok st' ->
  opened (fst (sdmap_run c df tcol tval)) = true ->
  exists ls, st_file st' = Some ls /\ after_calls text ms (file_text (map text ls)) (w_disk w2).
Proof.
  intros V c show qname inputs df tcol tval st st' old w1 w2 Hw text ms C H E O. pose proof (sdmap_order V c df tcol tval Hw) as W.
  assert (Hr : snd (sdmap_run c df tcol tval) = Ok tt /\ st' = fold_left sd_effect (fst (sdmap_run c df tcol tval)) st).
  { rewrite C73_sdmap_faithful in E. destruct (sdmap_run c df tcol tval) as [evs [[]|e]]; [|discriminate]. injection E as <-. auto. }
  destruct Hr as [Hr Es]. exists (lines_of (fst (sdmap_run c df tcol tval))). split.
  - rewrite Es. clear -W O Hr. destruct W as [K|(body & Ho & Hc & K)]; rewrite K in *; [discriminate|]. rewrite Hr. cbn [fold_left]. rewrite fold_left_app. cbn [fold_left sd_effect].
    change (lines_of (EOpen :: body ++ [EClose])) with (lines_of (body ++ [EClose])). rewrite lines_of_app. cbn [lines_of flat_map]. rewrite app_nil_r.
    assert (G : forall l0 s, st_file s = Some l0 -> st_file (fold_left sd_effect body s) = Some (l0 ++ lines_of body)).
    { clear -Ho Hc. induction body as [|e body IH]; intros l0 s F; [cbn; rewrite app_nil_r; exact F|]. cbn [fold_left]. destruct e as [|l| | |]; cbn in Ho, Hc; try discriminate.
      - change (lines_of (ELine l :: body)) with ([l] ++ lines_of body). rewrite app_assoc. apply IH; auto. cbn. rewrite F. reflexivity.
      - apply IH; auto.
      - apply IH; auto. }
    apply (G []). reflexivity.
  - apply (next_call _ _ text ms (sdmap_run c df tcol tval) tt old w1 w2); auto. apply Forall_of. intros m I. apply in_map_iff in I. destruct I as ([[d t] v] & <- & _). apply sdmap_order. exact Hw.
Qed.
Print Assumptions C74_sdmap.
Theorem C74_sdmapstar : forall V (c : star_config V) (text : record V -> string) inputs st df tcol tval st' old w1 w2, c_write (sc_base c) = true ->
  let ms := map (fun i => sdmapstar_run c (fst (fst (fst i))) (snd (fst (fst i))) (snd (fst i)) (snd i)) inputs in
  let m := sdmapstar_run c st df tcol tval in
  calls text ms (World old None) w1 -> effects text (fst m) w1 w2 -> snd m = Ok st' -> opened (fst m) = true ->
  after_calls text ms (report_of text m) (w_disk w2).
Proof.
  intros V c text inputs st df tcol tval st' old w1 w2 Hw ms m C H E O. apply (next_call _ _ text ms m st' old w1 w2); auto; [|apply C73_sdmapstar_closing; exact Hw].
  apply Forall_of. intros x I. apply in_map_iff in I. destruct I as ([[[s d] t] v] & <- & _). apply C73_sdmapstar_closing. exact Hw.
Qed.
Print Assumptions C74_sdmapstar.
Theorem C74_vlsd : forall Seq impl rows, representation Seq impl rows -> forall V (c : vl_config V) (text : vl_record Seq V -> string) inputs df tcol tval a old w1 w2, vc_write c = true ->
  let ms := map (fun i => vlsd_run impl c (fst (fst i)) (snd (fst i)) (snd i)) inputs in
  let m := vlsd_run impl c df tcol tval in
  calls text ms (World old None) w1 -> effects text (fst m) w1 w2 -> snd m = Ok a -> opened (fst m) = true ->
  after_calls text ms (report_of text m) (w_disk w2).
Proof.
  intros Seq impl rows Rp V c text inputs df tcol tval a old w1 w2 Hw ms m C H E O. apply (next_call _ _ text ms m a old w1 w2); auto; [|apply (C73_vlsd_closing Seq impl rows Rp); exact Hw].
  apply Forall_of. intros x I. apply in_map_iff in I. destruct I as ([[d t] v] & <- & _). apply (C73_vlsd_closing Seq impl rows Rp). exact Hw.
Qed.
Print Assumptions C74_vlsd.
Theorem C74_sdiga : forall cfg (text : sg_line -> string) inputs env st df tcol tval st' old w1 w2, gc_write cfg = true ->
  let ms := map (fun i => sdiga_run cfg (fst (fst (fst (fst i)))) (snd (fst (fst (fst i)))) (snd (fst (fst i))) (snd (fst i)) (snd i)) inputs in
  let m := sdiga_run cfg env st df tcol tval in
  calls text ms (World old None) w1 -> effects text (fst m) w1 w2 -> snd m = Ok st' -> opened (fst m) = true ->
  after_calls text ms (report_of text m) (w_disk w2).
Proof.
  intros cfg text inputs env st df tcol tval st' old w1 w2 Hw ms m C H E O. apply (next_call _ _ text ms m st' old w1 w2); auto; [|apply C73_sdiga_closing; exact Hw].
  apply Forall_of. intros x I. apply in_map_iff in I. destruct I as ([[[[n s] d] t] v] & <- & _). apply C73_sdiga_closing. exact Hw.
Qed.
Print Assumptions C74_sdiga.
(** BSD, CBSD, CPBSD and IDSD write the file after the search: after any calls the file holds the report of the last call that ended. *)
Definition last_ended {L A} (ms : list (CrashModel.run L A)) : option (CrashModel.run L A) := find (fun m => match snd m with Ok _ => true | Err _ => false end) (rev ms).
Lemma end_calls : forall L A (text : L -> string) (ms : list (CrashModel.run L A)) old w,
  (forall m, In m ms -> (exists ls a, m = (EOpen :: map ELine ls ++ [EClose], Ok a)) \/ exists e, m = ([], Err e)) ->
  calls text ms (World old None) w ->
  w = World (match last_ended ms with Some m => Some (report_of text m) | None => old end) None.
Proof.
  intros L A text ms old w Sh C.
  assert (IL : forall ls : list L, Forall inner (map ELine ls)) by (intro ls; induction ls; constructor; cbn; auto).
  assert (F : Forall well_ordered ms).
  { apply Forall_of. intros m I. destruct (Sh m I) as [(ls & a & ->)|(e & ->)]; [|left; reflexivity]. right. exists (map ELine ls). destruct (inner_body _ (IL ls)). auto. }
  assert (Eq : last_ended ms = last_open ms).
  { unfold last_ended, last_open. assert (K : forall l, (forall m, In m l -> In m ms) -> find (fun m : CrashModel.run L A => match snd m with Ok _ => true | Err _ => false end) l = find (fun m => opened (fst m)) l).
    { induction l as [|m l IH]; intros I; [reflexivity|]. cbn [find]. rewrite IH by (intros x Ix; apply I; right; exact Ix).
      destruct (Sh m (I m (or_introl eq_refl))) as [(ls & a & ->)|(e & ->)]; reflexivity. }
    apply K. intros m I. apply in_rev. exact I. }
  rewrite Eq. apply (C74_no_exception L A text ms old w F); auto.
  intros m I O. destruct (Sh m I) as [(ls & a & ->)|(e & ->)]; [exists a; reflexivity|discriminate].
Qed.
Theorem C74_bsd : forall V (c : bsd_config V) (text : record V -> string) inputs old w, bc_write c = true ->
  let ms := map (fun i => bsd_run c (fst (fst (fst i))) (snd (fst (fst i))) (snd (fst i)) (snd i)) inputs in
  calls text ms (World old None) w ->
  w = World (match last_ended ms with Some m => Some (report_of text m) | None => old end) None.
Proof.
  intros V c text inputs old w Hw ms C. apply end_calls; auto. intros m I. apply in_map_iff in I. destruct I as ([[[s d] t] v] & <- & _). cbn [fst snd].
  rewrite C73_bsd_run by exact Hw. destruct (bsd_fit c s d t v) as [st'|e]; [left|right]; eauto.
Qed.
Print Assumptions C74_bsd.
Theorem C74_idsd : forall c text inputs old w,
  let ms := map (fun i => idsd_run true c (fst (fst (fst i))) (snd (fst (fst i))) (snd (fst i)) (snd i)) inputs in
  calls text ms (World old None) w ->
  w = World (match last_ended ms with Some m => Some (report_of text m) | None => old end) None.
Proof.
  intros c text inputs old w ms C. apply end_calls; auto. intros m I. apply in_map_iff in I. destruct I as ([[[s d] t] v] & <- & _). cbn [fst snd].
  rewrite C73_idsd_run. destruct (idsd_fit c s d t v) as [st'|e]; [left|right]; eauto.
Qed.
Print Assumptions C74_idsd.

(** * Concrete cases *)
(** The first call raises after two lines; the second one, on a dataset without the attribute b, ends and reports one subgroup.  The file
    reads as a report of two subgroups: the second line is the one of the first call, about an attribute that does not exist. *)
Definition small : dataframe := DF 2 [("a", [VStr "x"; VStr "x"]); ("class", [VStr "p"; VStr "n"])].
Theorem C74_intact_refuted : exists w rep,
  let text := sdmap_line_text str_of_Z "m" in
  let m1 := sdmap_run ratio_config toy "class" "p" in
  let m2 := sdmap_run ratio_config small "class" "p" in
  calls text [m1; m2] (World None None) w /\ snd m1 = Err ZeroDivisionError /\ snd m2 = Ok tt /\
  map (fun l => g_desc (r_subgroup l)) (lines_of (fst m2)) = [[is "a" "x"]] /\
  w_disk w <> Some (report_of text m2) /\
  (exists t, w_disk w = Some t /\ read_report t = Ok rep) /\ map (fun l => g_desc (fst l)) rep = [[is "a" "x"]; [is "b" "u"]] /\
  col_get (df_cols small) "b" = None.
Proof.
  set (text := sdmap_line_text str_of_Z "m"). set (m1 := sdmap_run ratio_config toy "class" "p"). set (m2 := sdmap_run ratio_config small "class" "p").
  assert (O1 : opened (fst m1) = true) by (vm_compute; reflexivity). assert (O2 : opened (fst m2) = true) by (vm_compute; reflexivity).
  assert (E1 : snd m1 = Err ZeroDivisionError) by (vm_compute; reflexivity). assert (E2 : snd m2 = Ok tt) by (vm_compute; reflexivity).
  destruct (C74_reached _ _ text m1 m2 _ _ None "" (report_of text m1) (sdmap_order _ ratio_config toy "class" "p" eq_refl) (sdmap_order _ ratio_config small "class" "p" eq_refl) O1 O2 E1 E2 eq_refl) as (w & C & D).
  eexists w, _. cbv zeta. split; [exact C|]. split; [exact E1|]. split; [exact E2|]. split; [vm_compute; reflexivity|].
  split.
  { rewrite D. intro K. apply (f_equal (fun o => match o with Some x => x | None => "" end)) in K.
    assert (I := proj1 (C74_intact (report_of text m2) "" (report_of text m1)) K). clear K. revert I.
    assert (N1 : String.length (report_of text m1) = 208) by (vm_compute; reflexivity). assert (N2 : String.length (report_of text m2) = 104) by (vm_compute; reflexivity).
    rewrite N1, N2. clear -N1. intros [I|I]; [apply (f_equal String.length) in I|apply Nat.leb_le in I; discriminate I]. assert (X : 208 = 0) by (etransitivity; [symmetry; exact N1|exact I]). discriminate X. }
  split; [eexists; split; [exact D|vm_compute; reflexivity]|]. split; vm_compute; reflexivity.
Qed.
Print Assumptions C74_intact_refuted.
(** With some of the text of the first call on the disk: zero bytes. *)
Example C74_overlaid_example : overlaid "ab" "cde" "fgh" = ("ab" ++ String "000"%char "fgh")%string /\ overlaid "ab" "" "cde" = "abe" /\ overlaid "abcdef" "cde" "fgh" = "abcdef" /\ overlaid "a" "bcd" "" = "a".
Proof. repeat split. Qed.
