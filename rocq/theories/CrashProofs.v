(** Runs: generic facts (C73). *)
From Verif Require Export CrashSpec.
From Verif Require Import ReportProofs CoreText FileProofs FileLoad.
From Coq Require Import Lia.
Open Scope string_scope.
Open Scope list_scope.
Open Scope nat_scope.

(** * Beginnings *)
Lemma begins_refl : forall {A} (l : list A), begins l l.
Proof. intros A l. exists []. rewrite app_nil_r. reflexivity. Qed.
Lemma begins_trans : forall {A} (a b c : list A), begins a b -> begins b c -> begins a c.
Proof. intros A a b c [x ->] [y ->]. exists (x ++ y). rewrite app_assoc. reflexivity. Qed.
Lemma begins_nil : forall {A} (l : list A), begins [] l.
Proof. intros A l. exists l. reflexivity. Qed.
Lemma begins_app : forall {A} (l a b : list A), begins a b -> begins (l ++ a) (l ++ b).
Proof. intros A l a b [x ->]. exists x. rewrite app_assoc. reflexivity. Qed.
Lemma begins_app_l : forall {A} (l a b : list A), begins l a -> begins l (a ++ b).
Proof. intros A l a b [x ->]. exists (x ++ b). rewrite app_assoc. reflexivity. Qed.
Lemma lines_of_app : forall {L} (a b : list (event L)), lines_of (a ++ b) = lines_of a ++ lines_of b.
Proof. intros. apply flat_map_app. Qed.
Lemma begins_lines : forall {L} (a b : list (event L)), begins a b -> begins (lines_of a) (lines_of b).
Proof. intros L a b [x ->]. exists (lines_of x). apply lines_of_app. Qed.
Lemma begins_in : forall {A} (a b : list A) x, begins a b -> In x a -> In x b.
Proof. intros A a b x [y ->] I. apply in_or_app. auto. Qed.
Lemma begins_nodup : forall {A} (a b : list A), begins a b -> NoDup b -> NoDup a.
Proof.
  intros A a b [y ->] H. induction a as [|x a IH]; [constructor|]. cbn [app] in H. inversion H as [|? ? N H']; subst. constructor; auto.
  intros I. apply N, in_or_app. auto.
Qed.
Lemma begins_map : forall {A B} (f : A -> B) a b, begins a b -> begins (map f a) (map f b).
Proof. intros A B f a b [y ->]. exists (map f y). apply map_app. Qed.
Lemma begins_length : forall {A} (a b : list A), begins a b -> length a <= length b.
Proof. intros A a b [y ->]. rewrite app_length. lia. Qed.
Lemma begins_firstn : forall {A} (a b : list A), begins a b -> a = firstn (length a) b.
Proof. intros A a b [y ->]. rewrite firstn_app, Nat.sub_diag, firstn_all, app_nil_r. reflexivity. Qed.
Lemma opened_app : forall {L} (a b : list (event L)), opened (a ++ b) = (opened a || opened b)%bool.
Proof. intros. apply existsb_app. Qed.
Lemma closed_app : forall {L} (a b : list (event L)), closed (a ++ b) = (closed a || closed b)%bool.
Proof. intros. apply existsb_app. Qed.
Lemma selected_app : forall {L} (a b : list (event L)), selected_in (a ++ b) = selected_in a + selected_in b.
Proof. intros. unfold selected_in. rewrite filter_app, app_length. reflexivity. Qed.
Lemma unselected_app : forall {L} (a b : list (event L)), unselected_in (a ++ b) = unselected_in a + unselected_in b.
Proof. intros. unfold unselected_in. rewrite filter_app, app_length. reflexivity. Qed.

(** * The order of runs: the same effects, and more of them if it does not raise *)
Definition run_le {L A} (m m' : run L A) : Prop := begins (fst m) (fst m') /\ (forall a, snd m = Ok a -> m' = m).
Definition res_le {A} (r r' : res A) : Prop := forall a, r = Ok a -> r' = Ok a.
Lemma run_le_refl : forall {L A} (m : run L A), run_le m m.
Proof. intros. split; [apply begins_refl|auto]. Qed.
Lemma res_le_refl : forall {A} (r : res A), res_le r r.
Proof. intros A r a E. exact E. Qed.
Lemma run_le_lift : forall {L A} (r r' : res A), res_le r r' -> run_le (@run_lift L A r) (run_lift r').
Proof. intros L A r r' H. split; [apply begins_refl|]. intros a E. cbn in E. unfold run_lift. rewrite E, (H a E). reflexivity. Qed.
Lemma run_le_bind : forall {L A B} (m m' : run L A) (f f' : A -> run L B), run_le m m' -> (forall a, run_le (f a) (f' a)) -> run_le (run_bind m f) (run_bind m' f').
Proof.
  intros L A B m m' f f' [P Q] H. unfold run_bind. destruct (snd m) as [a|e] eqn:E.
  - rewrite (Q a eq_refl), E. destruct (H a) as [P' Q']. split; cbn [fst snd]; [apply begins_app; auto|].
    intros b Eb. rewrite (Q' b Eb). reflexivity.
  - split; cbn [fst snd]; [|discriminate]. destruct (snd m'); cbn [fst]; [apply begins_app_l|]; auto.
Qed.
Lemma run_le_fold : forall {L A S} (f f' : S -> A -> run L S) l s, (forall s x, run_le (f s x) (f' s x)) -> run_le (fold_run f l s) (fold_run f' l s).
Proof.
  intros L A S f f' l. induction l as [|x l IH]; intros s H; cbn [fold_run]; [apply run_le_refl|]. apply run_le_bind; auto.
Qed.
Lemma res_le_bind : forall {A B} (m m' : res A) (f f' : A -> res B), res_le m m' -> (forall a, res_le (f a) (f' a)) -> res_le (bind m f) (bind m' f').
Proof.
  intros A B m m' f f' H F b E. destruct m as [a|]; [|discriminate]. rewrite (H a eq_refl). cbn [bind] in *. apply F; auto.
Qed.
Lemma res_le_fold : forall {A S} (f f' : S -> A -> res S) l s, (forall s x, res_le (f s x) (f' s x)) -> res_le (fold_res f l s) (fold_res f' l s).
Proof.
  intros A S f f' l. induction l as [|x l IH]; intros s H; cbn [fold_res]; [apply res_le_refl|]. apply res_le_bind; auto.
Qed.
Lemma res_le_map : forall {A B} (f f' : A -> res B) l, (forall x, res_le (f x) (f' x)) -> res_le (map_res f l) (map_res f' l).
Proof.
  intros A B f f' l H. induction l as [|x l IH]; cbn [map_res]; [apply res_le_refl|]. apply res_le_bind; auto. intros b. apply res_le_bind; auto. intros; apply res_le_refl.
Qed.

(** * All the effects of a run *)
Definition all_effects {L A} (Q : event L -> Prop) (m : run L A) : Prop := Forall Q (fst m).
Lemma effects_lift : forall {L A} Q (r : res A), @all_effects L A Q (run_lift r).
Proof. intros. constructor. Qed.
Lemma effects_ret : forall {L A} Q (a : A), @all_effects L A Q (run_ret a).
Proof. intros. constructor. Qed.
Lemma effects_emit : forall {L} (Q : event L -> Prop) e, Q e -> all_effects Q (run_emit e).
Proof. intros. constructor; auto. Qed.
Lemma effects_bind : forall {L A B} Q (m : run L A) (f : A -> run L B), all_effects Q m -> (forall a, snd m = Ok a -> all_effects Q (f a)) -> all_effects Q (run_bind m f).
Proof.
  intros L A B Q m f H F. unfold run_bind, all_effects. destruct (snd m) eqn:E; cbn [fst]; auto. apply Forall_app. split; auto. apply F; auto.
Qed.
Lemma effects_fold : forall {L A S} Q (f : S -> A -> run L S) l s, (forall s x, all_effects Q (f s x)) -> all_effects Q (fold_run f l s).
Proof.
  intros L A S Q f l. induction l as [|x l IH]; intros s H; cbn [fold_run]; [apply effects_ret|]. apply effects_bind; auto.
Qed.
Lemma effects_lines : forall {L} (Q : L -> Prop) evs, Forall (fun e => match e with ELine l => Q l | _ => True end) evs -> Forall Q (lines_of evs).
Proof. intros L Q evs F. induction F as [|e evs He F IH]; [constructor|]. cbn [lines_of flat_map]. destruct e; cbn [app]; auto. Qed.
(** Neither opening nor closing. *)
Definition inner {L} (e : event L) : Prop := match e with EOpen | EClose => False | _ => True end.
Lemma inner_body : forall {L} (evs : list (event L)), Forall inner evs -> opened evs = false /\ closed evs = false.
Proof.
  intros L evs F. induction F as [|e evs He F [I1 I2]]; [auto|]. destruct e; cbn in *; auto; destruct He.
Qed.
(** Lines and counted subgroups go together (the line may have been written and not counted yet). *)
Definition balanced {L} (evs : list (event L)) : Prop :=
  forall pre, begins pre evs -> selected_in pre <= length (lines_of pre) <= S (selected_in pre).
Definition settled {L} (evs : list (event L)) : Prop := length (lines_of evs) = selected_in evs /\ balanced evs.
Lemma begins_app_cases : forall {A} (p a b : list A), begins p (a ++ b) -> begins p a \/ exists p', p = a ++ p' /\ begins p' b.
Proof.
  intros A p. induction p as [|x p IH]; intros a b [r E]; [left; apply begins_nil|]. destruct a as [|y a].
  - right. exists (x :: p). split; auto. exists r. auto.
  - cbn [app] in E. injection E as -> E. destruct (IH a b (ex_intro _ r E)) as [[z ->]|(p' & -> & B)].
    + left. exists z. reflexivity.
    + right. exists p'. auto.
Qed.
Lemma settled_app : forall {L} (a b : list (event L)), settled a -> settled b -> settled (a ++ b).
Proof.
  intros L a b [Ea Ba] [Eb Bb]. split; [rewrite lines_of_app, selected_app, app_length; lia|].
  intros pre P. apply begins_app_cases in P. destruct P as [P|(p' & -> & P)]; [apply Ba; auto|].
  rewrite lines_of_app, selected_app, app_length. specialize (Bb p' P). lia.
Qed.
Lemma settled_nil : forall {L}, @settled L [].
Proof. intros L. split; auto. intros pre [r E]. symmetry in E. apply app_eq_nil in E. destruct E as [-> _]. cbn. lia. Qed.
Lemma settled_mark : forall {L} (e : event L), lines_of [e] = [] -> selected_in [e] = 0 -> settled [e].
Proof.
  intros L e E1 E2. split; [rewrite E1, E2; reflexivity|]. intros pre [r E]. destruct pre as [|a pre]; [cbn; lia|]. cbn [app] in E. injection E as <- E.
  symmetry in E. apply app_eq_nil in E. destruct E as [-> _]. rewrite E1, E2. cbn. lia.
Qed.
Definition run_settled {L A} (m : run L A) : Prop := settled (fst m).
Lemma settled_lift : forall {L A} (r : res A), @run_settled L A (run_lift r).
Proof. intros. apply settled_nil. Qed.
Lemma settled_ret : forall {L A} (a : A), @run_settled L A (run_ret a).
Proof. intros. apply settled_nil. Qed.
Lemma settled_bind : forall {L A B} (m : run L A) (f : A -> run L B), run_settled m -> (forall a, run_settled (f a)) -> run_settled (run_bind m f).
Proof. intros L A B m f H F. unfold run_bind, run_settled. destruct (snd m); cbn [fst]; auto. apply settled_app; auto. apply F. Qed.
Lemma settled_fold : forall {L A S} (f : S -> A -> run L S) l s, (forall s x, run_settled (f s x)) -> run_settled (fold_run f l s).
Proof. intros L A S f l. induction l as [|x l IH]; intros s H; cbn [fold_run]; [apply settled_ret|]. apply settled_bind; auto. Qed.

(** * The state that follows the effects *)
Section Tracks.
  Context {L St : Type} (effect : St -> event L -> St).
  Definition replay (evs : list (event L)) (st : St) : St := fold_left effect evs st.
  Lemma replay_app : forall a b st, replay (a ++ b) st = replay b (replay a st).
  Proof. intros. apply fold_left_app. Qed.
  (** [f] computes the value of the run and the state after its effects. *)
  Definition tracks {A} (m : run L A) (f : St -> res (A * St)) : Prop :=
    forall st, f st = match snd m with Ok a => Ok (a, replay (fst m) st) | Err e => Err e end.
  Definition tracks_unit (m : run L unit) (f : St -> res St) : Prop :=
    forall st, f st = match snd m with Ok _ => Ok (replay (fst m) st) | Err e => Err e end.
  Lemma tracks_lift_bind : forall {A} (r : res A) (g : A -> run L unit) (f : A -> St -> res St),
    (forall a, tracks_unit (g a) (f a)) -> tracks_unit (run_bind (run_lift r) g) (fun st => do a <- r; f a st).
  Proof. intros A r g f H st. unfold run_bind, run_lift. destruct r as [a|e]; cbn [fst snd bind app]; auto. apply H. Qed.
  Lemma tracks_bind : forall (m m' : run L unit) (f f' : St -> res St), tracks_unit m f -> tracks_unit m' f' ->
    tracks_unit (run_bind m (fun _ => m')) (fun st => do st <- f st; f' st).
  Proof.
    intros m m' f f' H H' st. unfold run_bind. rewrite (H st). destruct (snd m) as [a|e]; cbn [fst snd bind]; auto. rewrite replay_app. apply H'.
  Qed.
  Lemma tracks_fold : forall {A} (g : A -> run L unit) (f : St -> A -> res St) l, (forall x, tracks_unit (g x) (fun st => f st x)) ->
    tracks_unit (fold_run (fun _ x => g x) l tt) (fold_res f l).
  Proof.
    intros A g f l H. induction l as [|x l IH]; intros st; cbn [fold_run fold_res]; [reflexivity|].
    rewrite (tracks_bind (g x) (fold_run (fun _ x => g x) l tt) (fun st => f st x) (fold_res f l) (H x) IH st).
    unfold run_bind. destruct (snd (g x)) as [[]|]; reflexivity.
  Qed.
  Lemma tracks_ext : forall (m m' : run L unit) f f', tracks_unit m f -> m' = m -> (forall st, f' st = f st) -> tracks_unit m' f'.
  Proof. intros m m' f f' H -> E st. rewrite E. apply H. Qed.
  Lemma tracks_ret : tracks_unit (run_ret tt) (fun st => Ok st).
  Proof. intros st. reflexivity. Qed.
  Lemma tracks_err : forall e, tracks_unit (run_lift (Err e)) (fun _ => Err e).
  Proof. intros e st. reflexivity. Qed.
End Tracks.

(** * The text *)
Lemma has_break_app : forall a b, has_break (a ++ b)%string = (has_break a || has_break b)%bool.
Proof. induction a as [|c a IH]; intros b; cbn; auto. rewrite IH, orb_assoc. reflexivity. Qed.
Lemma one_line_no_break : forall s, one_line s = true -> has_break s = false.
Proof.
  induction s as [|c s IH]; intros H; [reflexivity|]. unfold one_line in *. cbn [all_chars has_break] in *. apply andb_prop in H. destruct H as [H1 H2].
  apply andb_prop in H1. destruct H1 as [H1 _]. apply negb_true_iff in H1. rewrite H1, IH by auto. reflexivity.
Qed.
Lemma whole_no_break : forall s, has_break s = false -> whole_lines s = EmptyString.
Proof. intros [|c s] H; [reflexivity|]. cbn [whole_lines]. rewrite H. reflexivity. Qed.
Lemma whole_line : forall s t, whole_lines ((s ++ newline) ++ t)%string = ((s ++ newline) ++ whole_lines t)%string.
Proof.
  induction s as [|c s IH]; intros t.
  - cbn. destruct (has_break t) eqn:E; auto.
  - cbn [append whole_lines]. replace (has_break (String c ((s ++ newline) ++ t))) with true; [rewrite IH; reflexivity|].
    cbn [has_break]. rewrite !has_break_app. cbn. rewrite orb_true_r. cbn. rewrite orb_true_r. reflexivity.
Qed.
(** A beginning of a line is the line or has no line break. *)
Lemma string_split : forall (a b p q : string), (a ++ b)%string = (p ++ q)%string ->
  (exists r, a = (p ++ r)%string /\ r <> EmptyString) \/ (exists r, p = (a ++ r)%string /\ b = (r ++ q)%string).
Proof.
  induction a as [|c a IH]; intros b p q E.
  - right. exists p. auto.
  - destruct p as [|c' p]; [left; exists (String c a); split; [reflexivity|discriminate]|].
    cbn [append] in E. injection E as <- E. destruct (IH b p q E) as [(r & -> & N)|(r & -> & E')].
    + left. exists r. auto.
    + right. exists r. auto.
Qed.
Lemma whole_prefix : forall bodies p q, Forall (fun s => one_line s = true) bodies ->
  file_text (map (fun s => s ++ newline) bodies)%string = (p ++ q)%string ->
  exists k, k <= length bodies /\ whole_lines p = file_text (map (fun s => s ++ newline) (firstn k bodies))%string.
Proof.
  unfold file_text. induction bodies as [|s bodies IH]; intros p q F E.
  - cbn in E. destruct p; [|discriminate]. exists 0. auto.
  - inversion F as [|? ? Hs F']; subst. cbn [map] in E. rewrite concat_cons in E. apply string_split in E. destruct E as [(r & E & N)|(r & -> & E)].
    + exists 0. split; [lia|]. cbn [firstn map]. apply whole_no_break.
      destruct (has_break p) eqn:B; auto. exfalso. apply string_split in E. destruct E as [(r' & E & _)|(r' & E & E')].
      * apply one_line_no_break in Hs. rewrite E, has_break_app, B in Hs. discriminate.
      * destruct r' as [|c r']; [|destruct r'; cbn in E'; [|discriminate]; injection E' as _ E'; destruct r; [contradiction|discriminate]].
        rewrite app_nil_r_str in E. subst p. apply one_line_no_break in Hs. congruence.
    + destruct (IH r q F' E) as (k & Lk & Ek). exists (S k). split; [cbn; lia|]. cbn [firstn map]. rewrite concat_cons, whole_line, Ek. reflexivity.
Qed.
(** Any beginning of the text of the lines, without its last incomplete line, reads back as the first lines. *)
Lemma report_prefix : forall A (text : A -> string) (group : A -> subgroup) (fields : A -> list string) ls,
  (forall x, In x ls -> text x = ((subgroup_str (group x) ++ " ; " ++ String.concat " ; " (fields x)) ++ newline)%string) ->
  (forall x, In x ls -> clear_group (group x) /\ fields x <> [] /\ Forall tidy (fields x)) ->
  forall p q, file_text (map text ls) = (p ++ q)%string ->
  exists k, read_report (whole_lines p) = Ok (map (fun x => (group x, fields x)) (firstn k ls)).
Proof.
  intros A text group fields ls T C p q E.
  set (body := fun x => (subgroup_str (group x) ++ " ; " ++ String.concat " ; " (fields x))%string).
  assert (E1 : map text ls = map (fun s => s ++ newline)%string (map body ls)) by (rewrite map_map; apply map_ext_in; auto).
  rewrite E1 in E. apply whole_prefix in E.
  - destruct E as (k & _ & ->). exists k. rewrite firstn_map, map_map.
    assert (In1 : forall x, In x (firstn k ls) -> In x ls) by (intros x I; rewrite <- (firstn_skipn k ls); apply in_or_app; auto).
    rewrite <- (report_lines A (fun x => body x ++ newline)%string group fields (firstn k ls)); [reflexivity|reflexivity|]. intros x I. apply C; auto.
  - apply Forall_forall. intros s I. apply in_map_iff in I. destruct I as (x & <- & I). destruct (C x I) as (G & N & F). unfold body.
    rewrite !one_line_app, clear_one_line, concat_tidy by auto. reflexivity.
Qed.

Lemma whole_file : forall bodies, whole_lines (file_text (map (fun s => s ++ newline)%string bodies)) = file_text (map (fun s => s ++ newline)%string bodies).
Proof. unfold file_text. induction bodies as [|s bodies IH]; [reflexivity|]. cbn [map]. rewrite concat_cons, whole_line, IH. reflexivity. Qed.
(** What can be read from the disk at a crash point. *)
Lemma disk_report : forall L (text : L -> string) (group : L -> subgroup) (fields : L -> list string) evs old d,
  (forall x, In x (lines_of evs) -> text x = ((subgroup_str (group x) ++ " ; " ++ String.concat " ; " (fields x)) ++ newline)%string) ->
  (forall x, In x (lines_of evs) -> clear_group (group x) /\ fields x <> [] /\ Forall tidy (fields x)) ->
  on_disk text old evs d ->
  (opened evs = false /\ d = old) \/
  exists t k, d = Some t /\ read_report (whole_lines t) = Ok (map (fun x => (group x, fields x)) (firstn k (lines_of evs))) /\ (closed evs = true -> firstn k (lines_of evs) = lines_of evs /\ whole_lines t = t).
Proof.
  intros L text group fields evs old d T C D. unfold on_disk in D. destruct (opened evs); [|left; auto]. right.
  assert (E1 : map text (lines_of evs) = map (fun s => s ++ newline)%string (map (fun x => subgroup_str (group x) ++ " ; " ++ String.concat " ; " (fields x)) (lines_of evs))%string) by (rewrite map_map; apply map_ext_in; auto).
  destruct (closed evs).
  - exists (file_text (map text (lines_of evs))), (length (lines_of evs)). split; auto. rewrite firstn_all.
    assert (WF : whole_lines (file_text (map text (lines_of evs))) = file_text (map text (lines_of evs))) by (rewrite E1; apply whole_file). rewrite WF.
    split; [apply report_lines; auto|auto].
  - destruct D as (p & q & E & ->). destruct (report_prefix L text group fields (lines_of evs) T C p q E) as (k & Ek). exists p, k. split; auto. split; auto. discriminate.
Qed.
Lemma firstn_in : forall {A} k (l : list A) x, In x (firstn k l) -> In x l.
Proof. intros A k l x I. rewrite <- (firstn_skipn k l). apply in_or_app. auto. Qed.
Lemma firstn_begins : forall {A} k (l : list A), begins (firstn k l) l.
Proof. intros A k l. exists (skipn k l). rewrite firstn_skipn. reflexivity. Qed.
