(** Proofs about several calls of fit on the same object (SessionModel.v). *)
From Verif Require Import CrashSpec CrashProofs CoreText SessionModel.
From Coq Require Import Lia.
Open Scope string_scope.
Open Scope list_scope.
Open Scope nat_scope.

(** * Texts *)
Lemma over_nil : forall d, over "" d = d.
Proof. destruct d; reflexivity. Qed.
Lemma over_empty : forall s, over s "" = s.
Proof. induction s as [|c s IH]; [reflexivity|]. cbn [over]. rewrite IH. reflexivity. Qed.
Lemma put_at_over : forall P s d, put_at (String.length P) s (over P d) = over (P ++ s)%string d.
Proof.
  induction P as [|c P IH]; intros s d; cbn [String.length put_at append].
  - rewrite over_nil. reflexivity.
  - destruct d as [|x d]; cbn [over put_at]; rewrite IH; reflexivity.
Qed.
Lemma put_over : forall P s d, put (String.length P) s (over P d) = over (P ++ s)%string d.
Proof.
  intros P s d. destruct s as [|c s]; [|apply put_at_over]. cbn [put].
  assert (E : (P ++ "")%string = P) by (clear; induction P as [|c P IH]; [reflexivity|cbn; rewrite IH; reflexivity]). rewrite E. reflexivity.
Qed.
Lemma str_nil_r : forall s, (s ++ "")%string = s.
Proof. induction s as [|c s IH]; [reflexivity|cbn; rewrite IH; reflexivity]. Qed.
Lemma file_text_cons : forall s ls, file_text (s :: ls) = (s ++ file_text ls)%string.
Proof. intros s [|t ls]; unfold file_text; cbn [String.concat]; [symmetry; apply str_nil_r|]. destruct s; reflexivity. Qed.
Lemma file_text_app : forall a b, file_text (a ++ b) = (file_text a ++ file_text b)%string.
Proof.
  induction a as [|s a IH]; intro b; [reflexivity|]. cbn [app]. rewrite !file_text_cons, IH, app_assoc_str. reflexivity.
Qed.

Section Text.
  Context {L : Type}.
  Variable text : L -> string.
  Definition body_text (evs : list (event L)) : string := file_text (map text (lines_of evs)).
  Lemma body_text_app : forall a b, body_text (a ++ b) = (body_text a ++ body_text b)%string.
  Proof. intros a b. unfold body_text. rewrite lines_of_app, map_app, file_text_app. reflexivity. Qed.
  Lemma body_text_line : forall l evs, body_text (ELine l :: evs) = (text l ++ body_text evs)%string.
  Proof. intros l evs. unfold body_text. change (lines_of (ELine l :: evs)) with (l :: lines_of evs). cbn [map]. apply file_text_cons. Qed.

  (** * Effects *)
  Lemma effects_app : forall a b w w', effects text (a ++ b) w w' <-> exists v, effects text a w v /\ effects text b v w'.
  Proof.
    induction a as [|e a IH]; intros b w w'; cbn [app]; split.
    - intro H. exists w. split; [constructor|exact H].
    - intros (v & H & K). inversion H; subst. exact K.
    - intro H. inversion H as [|? ? ? w1 ? He Hr]; subst. apply IH in Hr. destruct Hr as (v & H1 & H2). exists v. split; auto. econstructor; eauto.
    - intros (v & H & K). inversion H as [|? ? ? w1 ? He Hr]; subst. econstructor; eauto. apply IH. exists v. auto.
  Qed.
  (** Between [open] and [close]: the file holds the text that was sent over what was there, the rest is in the buffer. *)
  Lemma body_effects : forall evs, opened evs = false -> closed evs = false -> forall P B d w,
    effects text evs (World (Some (over P d)) (Some (FObj (String.length P) B))) w ->
    exists Q R, (Q ++ R = P ++ B ++ body_text evs)%string /\ w = World (Some (over Q d)) (Some (FObj (String.length Q) R)).
  Proof.
    induction evs as [|e evs IH]; intros Ho Hc P B d w H.
    - inversion H; subst. exists P, B. split; [|reflexivity]. unfold body_text. cbn. rewrite str_nil_r. reflexivity.
    - inversion H as [|? ? ? w1 ? He Hr]; subst. destruct e as [|l| | |]; cbn in Ho, Hc; try discriminate.
      + inversion He as [|? ? ? ? now later E| | |]; subst. rewrite put_over in Hr.
        replace (String.length P + String.length now) with (String.length (P ++ now)%string) in Hr by (rewrite length_app_str; reflexivity).
        destruct (IH Ho Hc _ _ _ _ Hr) as (Q & R & EQ & ->). exists Q, R. split; [|reflexivity]. rewrite EQ, body_text_line.
        rewrite !app_assoc_str. f_equal. rewrite <- (app_assoc_str now), <- E, app_assoc_str. reflexivity.
      + inversion He; subst. exact (IH Ho Hc _ _ _ _ Hr).
      + inversion He; subst. exact (IH Ho Hc _ _ _ _ Hr).
  Qed.
  (** Nothing need reach the disk ... *)
  Lemma body_keep : forall evs, opened evs = false -> closed evs = false -> forall d n B,
    effects text evs (World (Some d) (Some (FObj n B))) (World (Some d) (Some (FObj n (B ++ body_text evs)%string))).
  Proof.
    induction evs as [|e evs IH]; intros Ho Hc d n B.
    - replace (B ++ body_text [])%string with B by (unfold body_text; cbn; rewrite str_nil_r; reflexivity). constructor.
    - destruct e as [|l| | |]; cbn in Ho, Hc; try discriminate.
      + econstructor; [apply (eff_line text l d n B "" (B ++ text l)%string); reflexivity|]. cbn [put String.length]. rewrite Nat.add_0_r.
        rewrite body_text_line, <- app_assoc_str. apply IH; auto.
      + econstructor; [constructor|]. apply IH; auto.
      + econstructor; [constructor|]. apply IH; auto.
  Qed.
  Lemma split_either : forall a b c d, (a ++ b = c ++ d)%string -> (exists x, a = c ++ x /\ d = x ++ b)%string \/ (exists x, c = a ++ x /\ b = x ++ d)%string.
  Proof.
    induction a as [|x a IH]; intros b c d H.
    - right. exists c. split; auto.
    - destruct c as [|y c]; [left; exists (String x a); split; auto|]. cbn in H. injection H as <- H.
      destruct (IH _ _ _ H) as [(z & -> & ->)|(z & -> & ->)]; [left|right]; exists z; auto.
  Qed.
  (** ... and any beginning of the text can. *)
  Lemma body_any : forall evs, opened evs = false -> closed evs = false -> forall P d Q R, (Q ++ R)%string = body_text evs ->
    effects text evs (World (Some (over P d)) (Some (FObj (String.length P) ""))) (World (Some (over (P ++ Q)%string d)) (Some (FObj (String.length (P ++ Q)%string) R))).
  Proof.
    induction evs as [|e evs IH]; intros Ho Hc P d Q R E.
    - unfold body_text in E. cbn in E. destruct Q; [|discriminate]. cbn in E. subst R. rewrite str_nil_r. constructor.
    - destruct e as [|l| | |]; cbn in Ho, Hc; try discriminate.
      + rewrite body_text_line in E. destruct (split_either _ _ _ _ E) as [(x & -> & Er)|(x & Et & ->)].
        * econstructor; [apply (eff_line text l _ _ "" (text l) ""); cbn; rewrite str_nil_r; reflexivity|].
          rewrite put_over. rewrite <- length_app_str, <- app_assoc_str. apply IH; auto.
        * econstructor; [apply (eff_line text l _ _ "" Q x); cbn; exact Et|].
          rewrite put_over. rewrite <- length_app_str. apply body_keep; auto.
      + econstructor; [constructor|]. apply IH; auto.
      + econstructor; [constructor|]. apply IH; auto.
  Qed.

  (** * Calls *)
  Context {A : Type}.
  Lemma unopened : forall m : CrashModel.run L A, well_ordered m -> opened (fst m) = false -> fst m = [].
  Proof. intros m [E|(body & _ & _ & E)] O; [exact E|]. rewrite E in O. discriminate. Qed.
  (** A call that opens the file: what it leaves. *)
  Lemma one_call : forall (m : CrashModel.run L A) w w', well_ordered m -> opened (fst m) = true -> effects text (fst m) w w' ->
    exists L0, L0 = flush_all (w_file w) "" /\
    match snd m with
    | Ok _ => w' = World (Some (over (body_text (fst m)) L0)) None
    | Err _ => exists Q R, body_text (fst m) = (Q ++ R)%string /\ w' = World (Some (over Q L0)) (Some (FObj (String.length Q) R))
    end.
  Proof.
    intros m w w' [E|(body & Ho & Hc & E)] O H; [rewrite E in O; discriminate|]. rewrite E in H. inversion H as [|? ? ? w1 ? He Hr]; subst.
    inversion He; subst. cbn [w_file]. exists (flush_all f ""). split; [reflexivity|].
    rewrite <- (over_nil (flush_all f "")) in Hr at 1. change 0 with (String.length "") in Hr.
    assert (T : body_text (fst m) = body_text body).
    { rewrite E. change (EOpen :: ?l) with ([EOpen] ++ l). unfold body_text. rewrite !lines_of_app. destruct (snd m); cbn [lines_of flat_map app]; rewrite ?app_nil_r; reflexivity. }
    rewrite T. destruct (snd m) as [a|e].
    - apply effects_app in Hr. destruct Hr as (v & Hb & Hcl). destruct (body_effects body Ho Hc _ _ _ _ Hb) as (Q & R & EQ & ->). cbn in EQ.
      inversion Hcl as [|? ? ? w2 ? He2 Hr2]; subst. inversion Hr2; subst. inversion He2; subst. cbn [flush_all f_place f_buffer]. rewrite put_over, EQ. reflexivity.
    - rewrite app_nil_r in Hr. destruct (body_effects body Ho Hc _ _ _ _ Hr) as (Q & R & EQ & ->). cbn in EQ. exists Q, R. auto.
  Qed.
  Lemma one_call_any : forall (m : CrashModel.run L A) w Q R, well_ordered m -> opened (fst m) = true -> (Q ++ R)%string = body_text (fst m) -> (exists e, snd m = Err e) ->
    effects text (fst m) w (World (Some (over Q (flush_all (w_file w) ""))) (Some (FObj (String.length Q) R))).
  Proof.
    intros m [d f] Q R [E|(body & Ho & Hc & E)] O EQ [e Er]; [rewrite E in O; discriminate|]. rewrite Er, app_nil_r in E. rewrite E in EQ |- *. cbn [w_file].
    econstructor; [constructor|]. rewrite <- (over_nil (flush_all f "")) at 1. change 0 with (String.length ""). change Q with ("" ++ Q)%string. apply body_any; auto.
  Qed.
  Lemma one_call_ok : forall (m : CrashModel.run L A) w a, well_ordered m -> opened (fst m) = true -> snd m = Ok a ->
    exists w', effects text (fst m) w w'.
  Proof.
    intros m [d f] a [E|(body & Ho & Hc & E)] O Ea; [rewrite E in O; discriminate|]. rewrite Ea in E. rewrite E.
    eexists. econstructor; [constructor|]. apply effects_app. eexists. split; [apply body_keep; auto|]. econstructor; [constructor|constructor].
  Qed.

  Definition last_open (ms : list (CrashModel.run L A)) : option (CrashModel.run L A) := find (fun m => opened (fst m)) (rev ms).
  (** After any number of calls: [self._file]. *)
  Lemma calls_leave : forall ms w w', Forall well_ordered ms -> w_file w = None -> calls text ms w w' ->
    match last_open ms with
    | None => w' = w
    | Some m => match snd m with
                | Ok _ => w_file w' = None
                | Err _ => exists Q R, body_text (fst m) = (Q ++ R)%string /\ w_file w' = Some (FObj (String.length Q) R)
                end
    end.
  Proof.
    intros ms. unfold last_open. induction ms as [|m ms IH] using rev_ind; intros w w' F N H.
    - unfold calls in H. cbn in H |- *. inversion H. reflexivity.
    - apply Forall_app in F. destruct F as [F Fm]. inversion Fm as [|? ? Wm _]; subst. unfold calls in H. rewrite flat_map_app in H. cbn [flat_map] in H. rewrite app_nil_r in H.
      apply effects_app in H. destruct H as (v & H1 & H2). rewrite rev_app_distr. cbn [rev app find]. destruct (opened (fst m)) eqn:O.
      + destruct (one_call m v w' Wm O H2) as (L0 & _ & K). destruct (snd m); [subst; reflexivity|]. destruct K as (Q & R & E & ->). exists Q, R. auto.
      + rewrite (unopened m Wm O) in H2. inversion H2; subst. exact (IH w w' F N H1).
  Qed.
End Text.

(** * What the old object writes into the new file *)
Fixpoint zero_bytes (n : nat) : string := match n with O => "" | S n => String "000"%char (zero_bytes n) end.
Fixpoint drop_chars (n : nat) (s : string) : string :=
  match n, s with O, _ => s | S n, EmptyString => "" | S n, String _ r => drop_chars n r end.
Lemma put_zeros : forall n s, put_at n s "" = (zero_bytes n ++ s)%string.
Proof. induction n as [|n IH]; intro s; cbn [put_at zero_bytes append]; [apply over_empty|]. rewrite IH. reflexivity. Qed.
Lemma over_drop : forall s d, over s d = (s ++ drop_chars (String.length s) d)%string.
Proof.
  induction s as [|c s IH]; intro d; [destruct d; reflexivity|]. destruct d as [|x d]; cbn [over String.length drop_chars append]; rewrite IH; [|reflexivity].
  destruct s; reflexivity.
Qed.
Lemma drop_chars_length : forall n s, String.length (drop_chars n s) = String.length s - n.
Proof. induction n as [|n IH]; intros [|c s]; cbn [drop_chars String.length]; try reflexivity. rewrite IH. reflexivity. Qed.
Lemma zero_bytes_length : forall n, String.length (zero_bytes n) = n.
Proof. induction n as [|n IH]; [reflexivity|]. cbn. rewrite IH. reflexivity. Qed.
