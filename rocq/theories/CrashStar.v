(** Runs of SDMapStar (C73). *)
From Verif Require Export CrashMiners.
From Verif Require Import MiningProofs SDMapProofs OrderFacts.
From Coq Require Import Lia.
Open Scope string_scope.
Open Scope list_scope.
Open Scope nat_scope.

(** A run with a state: its value is that of the model of the final state, and the file and the counters follow the effects. *)
Section StarRunProofs.
  Context {V : Type}.
  Definition follows {A} (base : A -> sd_state V) (st : star_state V) (m : run (record V) A) (r : res A) : Prop :=
    snd m = r /\ forall a, snd m = Ok a -> base a = replay sd_effect (fst m) (ss_base st).
  Lemma follows_ret : forall {A} (base : A -> sd_state V) st a, base a = ss_base st -> follows base st (run_ret a) (Ok a).
  Proof. intros A base st a E. split; [reflexivity|]. intros a' E'. injection E' as <-. exact E. Qed.
  Lemma follows_err : forall {A} (base : A -> sd_state V) st e, follows base st (run_lift (Err e)) (Err e).
  Proof. intros. split; [reflexivity|discriminate]. Qed.
  Lemma follows_lift : forall {A B} (base : B -> sd_state V) st (r : res A) (f : A -> run (record V) B) (g : A -> res B),
    (forall a, r = Ok a -> follows base st (f a) (g a)) -> follows base st (run_bind (run_lift r) f) (bind r g).
  Proof. intros A B base st r f g H. unfold run_bind, run_lift. destruct r as [a|e]; cbn [fst snd app bind]; [|split; [reflexivity|discriminate]]. specialize (H a eq_refl). destruct (f a). exact H. Qed.
  Lemma follows_bind : forall {A B} (base : A -> sd_state V) (base' : B -> sd_state V) st (m : run (record V) A) r (f : A -> run (record V) B) (g : A -> res B),
    follows base st m r -> (forall a st1, r = Ok a -> ss_base st1 = base a -> follows base' st1 (f a) (g a)) -> follows base' st (run_bind m f) (bind r g).
  Proof.
    intros A B base base' st m r f g [H1 H2] F. unfold run_bind. rewrite H1 in *. destruct r as [a|e]; cbn [fst snd bind]; [|split; [reflexivity|discriminate]].
    destruct (F a (StarS (base a) [] 0 0) eq_refl eq_refl) as [F1 F2]. split; [exact F1|]. cbn [fst snd]. intros b Eb. rewrite (F2 b Eb). cbn [ss_base]. rewrite (H2 a eq_refl), replay_app. reflexivity.
  Qed.
  Lemma follows_fold : forall {X} (f : star_state V -> X -> run (record V) (star_state V)) g l st, (forall st x, follows ss_base st (f st x) (g st x)) ->
    follows ss_base st (fold_run f l st) (fold_res g l st).
  Proof.
    intros X f g l. induction l as [|x l IH]; intros st H; cbn [fold_run fold_res]; [apply follows_ret; reflexivity|].
    eapply follows_bind; [apply H|]. intros a st1 _ E. destruct (IH a H) as [F1 F2]. split; auto. rewrite E. exact F2.
  Qed.
  Lemma follows_base : forall {A} (base : A -> sd_state V) st st1 m r, ss_base st1 = ss_base st -> follows base st m r -> follows base st1 m r.
  Proof. intros A base st st1 m r E [F1 F2]. split; auto. rewrite E. exact F2. Qed.

  Variable c : star_config V.
  Variable tsel : selector.
  Variables TP FP : Z.
  Lemma star_handle_follows : forall st v, follows ss_base st (star_handle_run c tsel TP FP st v) (star_handle c tsel TP FP st v).
  Proof.
    intros st v. unfold star_handle_run, star_handle. pose proof (handle_tracks (sc_base c) tsel TP FP v (ss_base st)) as H. unfold run_bind, run_lift.
    rewrite H. destruct (handle_run (sc_base c) tsel TP FP v) as [evs [[]|e]]; cbn [fst snd bind]; split; auto; try discriminate. intros a E. injection E as <-. rewrite app_nil_r. reflexivity.
  Qed.
  Lemma update_base : forall st tp fp st', update_k c TP FP st tp fp = Ok st' -> ss_base st' = ss_base st.
  Proof.
    intros st tp fp st' E. unfold update_k in E. destruct (sc_kquality c tp fp TP FP) as [q|]; [|discriminate]. cbn [bind] in E. destruct (Z.ltb _ _); [injection E as <-; reflexivity|].
    destruct (ss_k st) as [|w k]; [discriminate|]. injection E as <-. destruct (sc_lt c w q); reflexivity.
  Qed.
  Lemma star_visit_follows : forall st v, follows (fun r => ss_base (snd r)) st (star_visit_run c tsel TP FP st v) (star_visit c tsel TP FP st v).
  Proof.
    intros st v. unfold star_visit_run, star_visit. destruct (0 <? sc_num c)%Z.
    - destruct v as [p [tp fp]]. apply follows_lift. intros st1 E1. apply (follows_base _ st1); [symmetry; apply (update_base st tp fp); auto|]. apply follows_lift. intros oe _. apply follows_lift. intros w _.
      destruct (sc_lt c oe w); [apply follows_ret; reflexivity|]. eapply follows_bind; [apply star_handle_follows|]. intros a st2 _ E. apply follows_ret. auto.
    - eapply follows_bind; [apply star_handle_follows|]. intros a st2 _ E. apply follows_ret. auto.
  Qed.
  Lemma conditional_base : forall st t beta r, star_conditional c TP FP st t beta = Ok r -> ss_base (snd r) = ss_base st.
  Proof.
    intros st t beta r E. unfold star_conditional in E. destruct (0 <? sc_num c)%Z.
    - destruct (worst_k st); [|discriminate]. cbn [bind] in E. destruct (generate_conditional_fp_tree_star _ _ _ _ _ _); [|discriminate]. cbn [bind] in E. injection E as <-. reflexivity.
    - destruct (generate_conditional_fp_tree _ _ _ _ _); [|discriminate]. cbn [bind] in E. injection E as <-. reflexivity.
  Qed.
  Lemma star_fpgrowth_follows : forall fuel t alpha st, follows ss_base st (star_fpgrowth_run c tsel TP FP fuel t alpha st) (star_fpgrowth c tsel TP FP fuel t alpha st).
  Proof.
    induction fuel as [|f IH]; intros t alpha st; cbn [star_fpgrowth_run star_fpgrowth]; [apply follows_err|]. apply follows_lift. intros [|] _.
    - apply follows_lift. intros combos _. apply follows_fold. clear st. intros st beta. unfold star_single_run, single_path_visit. apply follows_lift. intros s _.
      destruct (sel_assoc s (t_header t)); [|apply follows_err]. eapply follows_bind; [apply star_visit_follows|]. intros a st1 _ E. apply follows_ret. auto.
    - apply follows_lift. intros order _. apply follows_fold. clear st. intros st ai. destruct (sel_assoc ai (t_header t)) as [e|]; [|apply follows_err].
      eapply follows_bind; [apply star_visit_follows|]. intros [handled st1] st2 _ E. cbn [snd] in E. destruct handled; [|apply follows_ret; auto]. apply (follows_base _ st1); auto. apply follows_lift. intros [ct st3] E3.
      apply conditional_base in E3. cbn [snd] in E3. destruct (is_empty ct); [apply follows_ret; auto|]. apply (follows_base _ st3); auto.
  Qed.
End StarRunProofs.
Lemma star_follows : forall V (c : star_config V) st df tcol tval, follows ss_base st (sdmapstar_run c st df tcol tval) (star_fit c st df tcol tval).
Proof.
  intros V c st df tcol tval. unfold sdmapstar_run, star_fit. cbn zeta. destruct (negb (all_nominal df)); [apply follows_err|]. apply follows_lift. intros mask _. destruct (population df mask) as [TP FP].
  apply follows_lift. intros d _. apply follows_lift. intros t _. destruct (is_empty t); [apply follows_ret; reflexivity|].
  pose proof (star_fpgrowth_follows c (Sel tcol EQUAL (VStr tval)) TP FP (S (length (t_header t))) t []
    (if c_write (sc_base c) then StarS (SDS (st_selected (ss_base st)) (st_unselected (ss_base st)) (Some [])) (ss_k st) (ss_pruned st) (ss_cpruned st) else st)) as [H1 H2].
  destruct (c_write (sc_base c)); unfold run_bind; cbn [run_emit run_ret fst snd app]; rewrite H1 in *; destruct (star_fpgrowth _ _ _ _ _ _ _ _) as [st'|e]; cbn [fst snd run_emit run_ret app]; (split; [reflexivity|]); try discriminate;
    intros a E; injection E as <-; specialize (H2 _ eq_refl); cbn [ss_base] in H2; rewrite H2.
  - cbn [fst]. unfold replay. cbn [fold_left sd_effect]. rewrite fold_left_app. reflexivity.
  - cbn [fst]. rewrite app_nil_r. reflexivity.
Qed.

(** * The measure and the estimate replaced by ones that do not raise *)
Definition star_totalised {V} (v0 : V) (c : star_config V) : star_config V :=
  StarC (sd_totalised v0 (sc_base c)) (totalised v0 (sc_oe c)) (totalised v0 (sc_kquality c)) (sc_lt c) (sc_eq c) (sc_num c).
Section StarLe.
  Context {V : Type}.
  Variables (v0 : V) (c : star_config V) (tsel : selector) (TP FP : Z).
  Notation c' := (star_totalised v0 c).
  Lemma star_handle_le : forall st v, run_le (star_handle_run c tsel TP FP st v) (star_handle_run c' tsel TP FP st v).
  Proof.
    intros st [p [tp fp]]. apply run_le_bind; [apply handle_le|]. intros _. apply run_le_lift. unfold star_handle, handle_individual_result. apply res_le_bind; [|intros b; apply res_le_refl].
    apply res_le_bind; [apply totalised_le|]. intros q. apply res_le_refl.
  Qed.
  Lemma update_le : forall st tp fp, res_le (update_k c TP FP st tp fp) (update_k c' TP FP st tp fp).
  Proof. intros st tp fp. apply res_le_bind; [apply totalised_le|]. intros q. apply res_le_refl. Qed.
  Lemma star_visit_le : forall st v, run_le (star_visit_run c tsel TP FP st v) (star_visit_run c' tsel TP FP st v).
  Proof.
    intros st v. unfold star_visit_run. change (sc_num c') with (sc_num c). change (sc_lt c') with (sc_lt c). destruct (0 <? sc_num c)%Z.
    - destruct v as [p [tp fp]]. apply run_le_bind; [apply run_le_lift, update_le|]. intros st1. apply run_le_bind; [apply run_le_lift, totalised_le|]. intros oe. apply run_le_bind; [apply run_le_refl|]. intros w.
      destruct (sc_lt c oe w); [apply run_le_refl|]. apply run_le_bind; [apply star_handle_le|]. intros st2. apply run_le_refl.
    - apply run_le_bind; [apply star_handle_le|]. intros st2. apply run_le_refl.
  Qed.
  Lemma star_order_le : forall t, res_le (star_order c TP FP t) (star_order c' TP FP t).
  Proof.
    intros t. unfold star_order. change (sc_num c') with (sc_num c). destruct (0 <? sc_num c)%Z; [|apply res_le_refl]. apply res_le_bind; [|intros l; apply res_le_refl].
    apply res_le_map. intros x. apply res_le_bind; [apply totalised_le|]. intros oe. apply res_le_refl.
  Qed.
  Lemma star_filter_le : forall low low' h ids, (forall a b, res_le (low a b) (low' a b)) -> res_le (star_filter low h ids) (star_filter low' h ids).
  Proof.
    intros low low' h ids H. induction ids as [|i ids IH]; cbn [star_filter]; [apply res_le_refl|]. destruct (nth_error h i); [|apply res_le_refl].
    apply res_le_bind; [apply H|]. intros b. apply res_le_bind; [exact IH|]. intros r. apply res_le_refl.
  Qed.
  Lemma star_conditional_le : forall st t beta, res_le (star_conditional c TP FP st t beta) (star_conditional c' TP FP st t beta).
  Proof.
    intros st t beta. unfold star_conditional. change (sc_num c') with (sc_num c). cbn zeta. destruct (0 <? sc_num c)%Z; [|apply res_le_refl].
    apply res_le_bind; [apply res_le_refl|]. intros w. apply res_le_bind; [|intros r; apply res_le_refl]. unfold generate_conditional_fp_tree_star. apply res_le_bind; [apply res_le_refl|]. intros ok.
    destruct beta as [|s beta]; [apply res_le_refl|]. destruct (sel_assoc s (t_header t)) as [e|]; [|apply res_le_refl]. apply res_le_bind; [apply res_le_refl|]. intros ids.
    apply res_le_bind; [|intros kp; apply res_le_refl]. apply star_filter_le. intros a b. apply res_le_bind; [apply totalised_le|]. intros oe. apply res_le_refl.
  Qed.
  Lemma star_fpgrowth_le : forall fuel t alpha st, run_le (star_fpgrowth_run c tsel TP FP fuel t alpha st) (star_fpgrowth_run c' tsel TP FP fuel t alpha st).
  Proof.
    induction fuel as [|f IH]; intros t alpha st; cbn [star_fpgrowth_run]; [apply run_le_refl|]. apply run_le_bind; [apply run_le_refl|]. intros [|].
    - apply run_le_bind; [apply run_le_refl|]. intros combos. apply run_le_fold. clear st. intros st beta. apply run_le_bind; [apply run_le_refl|]. intros s.
      destruct (sel_assoc s (t_header t)); [|apply run_le_refl]. apply run_le_bind; [apply star_visit_le|]. intros r. apply run_le_refl.
    - apply run_le_bind; [apply run_le_lift, star_order_le|]. intros order. apply run_le_fold. clear st. intros st ai. destruct (sel_assoc ai (t_header t)) as [e|]; [|apply run_le_refl].
      apply run_le_bind; [apply star_visit_le|]. intros [[|] st1]; [|apply run_le_refl]. apply run_le_bind; [apply run_le_lift, star_conditional_le|]. intros [ct st2].
      destruct (is_empty ct); [apply run_le_refl|apply IH].
  Qed.
End StarLe.
Lemma star_le : forall V v0 (c : star_config V) st df tcol tval, run_le (sdmapstar_run c st df tcol tval) (sdmapstar_run (star_totalised v0 c) st df tcol tval).
Proof.
  intros V v0 c st df tcol tval. unfold sdmapstar_run. cbn zeta. destruct (negb (all_nominal df)); [apply run_le_refl|]. apply run_le_bind; [apply run_le_refl|]. intros mask. destruct (population df mask) as [TP FP].
  apply run_le_bind; [apply run_le_refl|]. intros d. apply run_le_bind; [apply run_le_refl|]. intros t. destruct (is_empty t); [apply run_le_refl|]. apply run_le_bind; [apply run_le_refl|]. intros _.
  apply run_le_bind; [apply star_fpgrowth_le|]. intros st1. apply run_le_refl.
Qed.

(** * What is written *)
Section StarLines.
  Context {V : Type}.
  Variables (c : star_config V) (tsel : selector) (TP FP : Z).
  Notation line := (sd_line (sc_base c) TP FP).
  Lemma star_handle_effects : forall st v, all_effects line (star_handle_run c tsel TP FP st v).
  Proof. intros st v. apply effects_bind; [apply handle_effects|]. intros _ _. apply effects_lift. Qed.
  Lemma star_visit_effects : forall st v, all_effects line (star_visit_run c tsel TP FP st v).
  Proof.
    intros st v. unfold star_visit_run. destruct (0 <? sc_num c)%Z.
    - destruct v as [p [tp fp]]. apply effects_bind; [apply effects_lift|]. intros st1 _. apply effects_bind; [apply effects_lift|]. intros oe _. apply effects_bind; [apply effects_lift|]. intros w _.
      destruct (sc_lt c oe w); [apply effects_ret|]. apply effects_bind; [apply star_handle_effects|]. intros st2 _. apply effects_ret.
    - apply effects_bind; [apply star_handle_effects|]. intros st2 _. apply effects_ret.
  Qed.
  Lemma star_fpgrowth_effects : forall fuel t alpha st, all_effects line (star_fpgrowth_run c tsel TP FP fuel t alpha st).
  Proof.
    induction fuel as [|f IH]; intros t alpha st; cbn [star_fpgrowth_run]; [apply effects_lift|]. apply effects_bind; [apply effects_lift|]. intros [|] _.
    - apply effects_bind; [apply effects_lift|]. intros combos _. apply effects_fold. clear st. intros st beta. apply effects_bind; [apply effects_lift|]. intros s _.
      destruct (sel_assoc s (t_header t)); [|apply effects_lift]. apply effects_bind; [apply star_visit_effects|]. intros r _. apply effects_ret.
    - apply effects_bind; [apply effects_lift|]. intros order _. apply effects_fold. clear st. intros st ai. destruct (sel_assoc ai (t_header t)) as [e|]; [|apply effects_lift].
      apply effects_bind; [apply star_visit_effects|]. intros [[|] st1] _; [|apply effects_ret]. apply effects_bind; [apply effects_lift|]. intros [ct st2] _. destruct (is_empty ct); [apply effects_ret|apply IH].
  Qed.
  Hypothesis Hw : c_write (sc_base c) = true.
  Lemma handle_settled : forall v, run_settled (handle_run (sc_base c) tsel TP FP v).
  Proof.
    intros [p [tp fp]]. apply settled_bind; [apply settled_lift|]. intros q. rewrite Hw. destruct (c_reaches (sc_base c) q).
    - split; [reflexivity|]. intros pre [r E]. destruct pre as [|a [|b pre]]; cbn in *; [lia|injection E as <- _; cbn; lia|].
      injection E as <- <- E. symmetry in E. apply app_eq_nil in E. destruct E as [-> _]. cbn. lia.
    - apply settled_mark; reflexivity.
  Qed.
  Lemma star_visit_settled : forall st v, run_settled (star_visit_run c tsel TP FP st v).
  Proof.
    intros st v. unfold star_visit_run. destruct (0 <? sc_num c)%Z.
    - destruct v as [p [tp fp]]. apply settled_bind; [apply settled_lift|]. intros st1. apply settled_bind; [apply settled_lift|]. intros oe. apply settled_bind; [apply settled_lift|]. intros w.
      destruct (sc_lt c oe w); [apply settled_ret|]. apply settled_bind; [apply settled_bind; [apply handle_settled|intros _; apply settled_lift]|]. intros st2. apply settled_ret.
    - apply settled_bind; [apply settled_bind; [apply handle_settled|intros _; apply settled_lift]|]. intros st2. apply settled_ret.
  Qed.
  Lemma star_fpgrowth_settled : forall fuel t alpha st, run_settled (star_fpgrowth_run c tsel TP FP fuel t alpha st).
  Proof.
    induction fuel as [|f IH]; intros t alpha st; cbn [star_fpgrowth_run]; [apply settled_lift|]. apply settled_bind; [apply settled_lift|]. intros [|].
    - apply settled_bind; [apply settled_lift|]. intros combos. apply settled_fold. clear st. intros st beta. apply settled_bind; [apply settled_lift|]. intros s.
      destruct (sel_assoc s (t_header t)); [|apply settled_lift]. apply settled_bind; [apply star_visit_settled|]. intros r. apply settled_ret.
    - apply settled_bind; [apply settled_lift|]. intros order. apply settled_fold. clear st. intros st ai. destruct (sel_assoc ai (t_header t)) as [e|]; [|apply settled_lift].
      apply settled_bind; [apply star_visit_settled|]. intros [[|] st1]; [|apply settled_ret]. apply settled_bind; [apply settled_lift|]. intros [ct st2]. destruct (is_empty ct); [apply settled_ret|apply IH].
  Qed.
End StarLines.
(** The shape of a run: nothing, or opening, inner effects and closing. *)
Lemma star_shape : forall V (c : star_config V) st df tcol tval, c_write (sc_base c) = true ->
  (fst (sdmapstar_run c st df tcol tval) = [] /\ forall st', snd (sdmapstar_run c st df tcol tval) = Ok st' -> st' = st) \/
  exists TP FP fuel t st0, let m := star_fpgrowth_run c (Sel tcol EQUAL (VStr tval)) TP FP fuel t [] st0 in
    sdmapstar_run c st df tcol tval = (EOpen :: fst m ++ match snd m with Ok _ => [EClose] | Err _ => [] end, snd m).
Proof.
  intros V c st df tcol tval Hw. unfold sdmapstar_run. cbn zeta. destruct (negb (all_nominal df)); [left; split; [reflexivity|discriminate]|].
  unfold run_bind, run_lift. destruct (target_mask _ _ _) as [mask|]; cbn [fst snd app]; [|left; split; [reflexivity|discriminate]]. destruct (population df mask) as [TP FP].
  destruct (generate_set_of_frequent_selectors _ _ _ _ _ _) as [d|]; cbn [fst snd app]; [|left; split; [reflexivity|discriminate]].
  destruct (build_tree _ _ _ _ _) as [t|]; cbn [fst snd app]; [|left; split; [reflexivity|discriminate]].
  destruct (is_empty t); [left; split; [reflexivity|]; cbn [run_ret snd]; intros st' E; congruence|]. right. rewrite Hw. cbn [run_emit fst snd app].
  exists TP, FP, (S (length (t_header t))), t.
  exists (StarS (SDS (st_selected (ss_base st)) (st_unselected (ss_base st)) (Some [])) (ss_k st) (ss_pruned st) (ss_cpruned st)).
  destruct (star_fpgrowth_run _ _ _ _ _ _ _ _) as [evs [st1|e]]; cbn [fst snd app run_ret]; rewrite ?app_nil_r; reflexivity.
Qed.
