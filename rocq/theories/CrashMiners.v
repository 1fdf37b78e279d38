(** Runs of SDMap and VLSD (C73): they agree with the models of the final state, and a run that raises is a beginning of the run with
    a measure and an estimate that do not raise. *)
From Verif Require Export CrashProofs.
From Verif Require Import MiningProofs SDMapProofs VLSDProofs.
From Coq Require Import Lia.
Open Scope string_scope.
Open Scope list_scope.
Open Scope nat_scope.

(** * SDMap *)
Section SDMapRunProofs.
  Context {V : Type}.
  Notation tr := (tracks_unit (@sd_effect V)).
  Lemma handle_tracks : forall (c : sd_config V) tsel TP FP v, tr (handle_run c tsel TP FP v) (fun st => handle_individual_result c tsel TP FP st v).
  Proof.
    intros c tsel TP FP [p [tp fp]] st. unfold handle_run, handle_individual_result, run_bind, run_lift.
    destruct (c_measure c tp fp TP FP) as [q|e]; cbn [fst snd bind app]; auto. destruct (c_reaches c q); cbn [fst snd]; [|reflexivity].
    destruct (c_write c); cbn [fst snd app run_emit run_ret]; reflexivity.
  Qed.
  Lemma fpgrowth_tracks : forall (c : sd_config V) tsel TP FP fuel t alpha, tr (fpgrowth_run c tsel TP FP fuel t alpha) (fpgrowth c tsel TP FP fuel t alpha).
  Proof.
    intros c tsel TP FP. induction fuel as [|f IH]; intros t alpha; cbn [fpgrowth_run fpgrowth]; [apply (tracks_err sd_effect)|].
    apply (tracks_lift_bind sd_effect). intros [|].
    - apply (tracks_lift_bind sd_effect). intros combos. apply (tracks_fold sd_effect). intros beta. unfold single_path_run, single_path_visit.
      apply (tracks_lift_bind sd_effect). intros s. destruct (sel_assoc s (t_header t)); [apply handle_tracks|apply (tracks_err sd_effect)].
    - apply (tracks_fold sd_effect) with (f := fun st ai => match sel_assoc ai (t_header t) with Some e => _ | None => _ end). intros ai.
      destruct (sel_assoc ai (t_header t)) as [e|]; [|apply (tracks_err sd_effect)].
      apply (tracks_bind sd_effect); [apply handle_tracks|]. apply (tracks_lift_bind sd_effect). intros ct. destruct (is_empty ct); [apply tracks_ret|apply IH].
  Qed.
  Lemma sdmap_tracks : forall (c : sd_config V) df tcol tval, tr (sdmap_run c df tcol tval) (fun st => sdmap_fit c st df tcol tval).
  Proof.
    intros c df tcol tval. unfold sdmap_run, sdmap_fit. destruct (negb (all_nominal df)); [apply (tracks_err sd_effect)|].
    apply (tracks_lift_bind sd_effect). intros d. apply (tracks_lift_bind sd_effect). intros t. destruct (is_empty t); [apply tracks_ret|].
    apply (tracks_lift_bind sd_effect). intros mask. destruct (population df mask) as [TP FP]. intros st.
    pose proof (fpgrowth_tracks c (Sel tcol EQUAL (VStr tval)) TP FP (S (length (t_header t))) t []) as H.
    destruct (c_write c); cbn zeta; rewrite H; unfold run_bind; cbn [fst snd run_emit run_ret app];
      destruct (fpgrowth_run _ _ _ _ _ _ _) as [evs [[]|e]]; cbn [fst snd]; auto; rewrite ?app_nil_r; auto.
    f_equal. unfold replay. cbn [fold_left sd_effect]. rewrite fold_left_app. reflexivity.
  Qed.

  (** The measure replaced by one that does not raise. *)
  Definition totalised (v0 : V) (m : Z -> Z -> Z -> Z -> res V) : Z -> Z -> Z -> Z -> res V :=
    fun a b x y => match m a b x y with Ok q => Ok q | Err _ => Ok v0 end.
  Definition sd_totalised (v0 : V) (c : sd_config V) : sd_config V :=
    SDC (totalised v0 (c_measure c)) (c_reaches c) (c_min_tp c) (c_min_fp c) (c_min_n c) (c_write c).
  Lemma totalised_le : forall v0 m a b x y, res_le (m a b x y) (totalised v0 m a b x y).
  Proof. intros v0 m a b x y q E. unfold totalised. rewrite E. reflexivity. Qed.
  Lemma totalised_ok : forall v0 m a b x y, exists q, totalised v0 m a b x y = Ok q.
  Proof. intros. unfold totalised. destruct (m a b x y); eauto. Qed.
  Lemma handle_le : forall v0 (c : sd_config V) tsel TP FP v, run_le (handle_run c tsel TP FP v) (handle_run (sd_totalised v0 c) tsel TP FP v).
  Proof.
    intros v0 c tsel TP FP [p [tp fp]]. apply run_le_bind; [apply run_le_lift, totalised_le|]. intros q. apply run_le_refl.
  Qed.
  Lemma sdmap_le : forall v0 (c : sd_config V) df tcol tval, run_le (sdmap_run c df tcol tval) (sdmap_run (sd_totalised v0 c) df tcol tval).
  Proof.
    intros v0 c df tcol tval. unfold sdmap_run. cbn [sd_totalised c_min_tp c_min_fp c_min_n c_write]. destruct (negb (all_nominal df)); [apply run_le_refl|].
    apply run_le_bind; [apply run_le_refl|]. intros d. apply run_le_bind; [apply run_le_refl|]. intros t. destruct (is_empty t); [apply run_le_refl|].
    apply run_le_bind; [apply run_le_refl|]. intros mask. destruct (population df mask) as [TP FP]. apply run_le_bind; [apply run_le_refl|]. intros _.
    apply run_le_bind; [|intros _; apply run_le_refl]. generalize (S (length (t_header t))) as fuel. generalize (@nil selector) as alpha. intros alpha fuel. revert t alpha.
    induction fuel as [|f IH]; intros t' alpha; cbn [fpgrowth_run]; [apply run_le_refl|]. apply run_le_bind; [apply run_le_refl|]. intros [|].
    - apply run_le_bind; [apply run_le_refl|]. intros combos. apply run_le_fold. intros _ beta. apply run_le_bind; [apply run_le_refl|]. intros s.
      destruct (sel_assoc s (t_header t')); [apply handle_le|apply run_le_refl].
    - apply run_le_fold. intros _ ai. destruct (sel_assoc ai (t_header t')); [|apply run_le_refl]. apply run_le_bind; [apply handle_le|]. intros _.
      apply run_le_bind; [apply run_le_refl|]. intros ct. destruct (is_empty ct); [apply run_le_refl|apply IH].
  Qed.

  (** Every line that is written carries the value of the measure. *)
  Definition sd_line (c : sd_config V) (TP FP : Z) (e : event (record V)) : Prop :=
    inner e /\ match e with ELine r => c_measure c (r_tp r) (r_fp r) (r_TP r) (r_FP r) = Ok (r_quality r) /\ c_reaches c (r_quality r) = true | _ => exists v : V, True end.
  Lemma handle_effects : forall (c : sd_config V) tsel TP FP v, all_effects (sd_line c TP FP) (handle_run c tsel TP FP v).
  Proof.
    intros c tsel TP FP [p [tp fp]]. apply effects_bind; [apply effects_lift|]. intros q Eq. cbn in Eq. destruct (c_reaches c q) eqn:R; [|apply effects_emit; split; [exact I|exists q; exact I]].
    apply effects_bind; [|intros _ _; apply effects_emit; split; [exact I|exists q; exact I]]. destruct (c_write c); [|apply effects_ret]. apply effects_emit. split; [exact I|]. auto.
  Qed.
  Lemma fpgrowth_effects : forall (c : sd_config V) tsel TP FP fuel t alpha, all_effects (sd_line c TP FP) (fpgrowth_run c tsel TP FP fuel t alpha).
  Proof.
    intros c tsel TP FP. induction fuel as [|f IH]; intros t alpha; cbn [fpgrowth_run]; [apply effects_lift|]. apply effects_bind; [apply effects_lift|]. intros [|] _.
    - apply effects_bind; [apply effects_lift|]. intros combos _. apply effects_fold. intros _ beta. apply effects_bind; [apply effects_lift|]. intros s _.
      destruct (sel_assoc s (t_header t)); [apply handle_effects|apply effects_lift].
    - apply effects_fold. intros _ ai. destruct (sel_assoc ai (t_header t)); [|apply effects_lift]. apply effects_bind; [apply handle_effects|]. intros _ _.
      apply effects_bind; [apply effects_lift|]. intros ct _. destruct (is_empty ct); [apply effects_ret|apply IH].
  Qed.
  (** The shape of a run: nothing, or opening, inner effects and closing. *)
  Lemma sdmap_shape : forall (c : sd_config V) df tcol tval, c_write c = true ->
    (fst (sdmap_run c df tcol tval) = [] /\ (snd (sdmap_run c df tcol tval) = Ok tt -> forall st, sdmap_fit c st df tcol tval = Ok st)) \/
    exists TP FP fuel t, let m := fpgrowth_run c (Sel tcol EQUAL (VStr tval)) TP FP fuel t [] in
      sdmap_run c df tcol tval = (EOpen :: fst m ++ match snd m with Ok _ => [EClose] | Err _ => [] end, snd m).
  Proof.
    intros c df tcol tval Hw. unfold sdmap_run, sdmap_fit. destruct (negb (all_nominal df)); [left; split; [reflexivity|discriminate]|].
    unfold run_bind, run_lift. destruct (generate_set_of_frequent_selectors _ _ _ _ _ _) as [d|]; cbn [fst snd app bind]; [|left; split; [reflexivity|discriminate]].
    destruct (build_tree _ _ _ _ _) as [t|]; cbn [fst snd app bind]; [|left; split; [reflexivity|discriminate]]. destruct (is_empty t); [left; split; reflexivity|].
    destruct (target_mask _ _ _) as [mask|]; cbn [fst snd app bind]; [|left; split; [reflexivity|discriminate]]. destruct (population df mask) as [TP FP]. right.
    exists TP, FP, (S (length (t_header t))), t. cbn zeta. rewrite Hw. cbn [run_emit fst snd app]. destruct (fpgrowth_run _ _ _ _ _ _ _) as [evs [[]|e]]; cbn [fst snd app]; auto.
    rewrite app_nil_r. reflexivity.
  Qed.
  Lemma fpgrowth_settled : forall (c : sd_config V) tsel TP FP fuel t alpha, c_write c = true -> run_settled (fpgrowth_run c tsel TP FP fuel t alpha).
  Proof.
    intros c tsel TP FP fuel t alpha Hw. revert t alpha.
    assert (H : forall v, run_settled (handle_run c tsel TP FP v)).
    { intros [p [tp fp]]. apply settled_bind; [apply settled_lift|]. intros q. rewrite Hw. destruct (c_reaches c q).
      - split; [reflexivity|]. intros pre [r E]. destruct pre as [|a [|b pre]]; cbn in *; [lia|injection E as <- _; cbn; lia|].
        injection E as <- <- E. symmetry in E. apply app_eq_nil in E. destruct E as [-> _]. cbn. lia.
      - split; [reflexivity|]. intros pre [r E]. destruct pre as [|a pre]; cbn in *; [lia|]. injection E as <- E. symmetry in E. apply app_eq_nil in E. destruct E as [-> _]. cbn. lia. }
    induction fuel as [|f IH]; intros t alpha; cbn [fpgrowth_run]; [apply settled_lift|]. apply settled_bind; [apply settled_lift|]. intros [|].
    - apply settled_bind; [apply settled_lift|]. intros combos. apply settled_fold. intros _ beta. apply settled_bind; [apply settled_lift|]. intros s.
      destruct (sel_assoc s (t_header t)); [apply H|apply settled_lift].
    - apply settled_fold. intros _ ai. destruct (sel_assoc ai (t_header t)); [|apply settled_lift]. apply settled_bind; [apply H|]. intros _.
      apply settled_bind; [apply settled_lift|]. intros ct. destruct (is_empty ct); [apply settled_ret|apply IH].
  Qed.
End SDMapRunProofs.
(** The file and the counters after the effects. *)
Lemma sd_replay : forall V (evs : list (event (record V))) (st : sd_state V), opened evs = false ->
  replay sd_effect evs st = SDS (st_selected st + selected_in evs) (st_unselected st + unselected_in evs)
    (match st_file st with Some l => Some (l ++ lines_of evs) | None => None end).
Proof.
  intros V evs. induction evs as [|e evs IH]; intros [a b fl] O; unfold replay in *; cbn [fold_left].
  - cbn. rewrite !Nat.add_0_r. destruct fl; rewrite ?app_nil_r; reflexivity.
  - assert (O' : opened evs = false) by (destruct e; cbn in O; auto; discriminate). rewrite IH by auto.
    destruct e; cbn in O; try discriminate; unfold selected_in, unselected_in; cbn [sd_effect st_selected st_unselected st_file filter length lines_of flat_map app]; f_equal; try lia; auto.
    destruct fl as [l0|]; auto. fold (lines_of evs). rewrite <- app_assoc. reflexivity.
Qed.

Lemma sd_counts : forall V (evs : list (event (record V))) (st : sd_state V),
  st_selected (fold_left sd_effect evs st) = st_selected st + selected_in evs /\ st_unselected (fold_left sd_effect evs st) = st_unselected st + unselected_in evs.
Proof.
  intros V evs. induction evs as [|e evs IH]; intros st; cbn [fold_left]; [cbn; lia|]. destruct (IH (sd_effect st e)) as [E1 E2]. rewrite E1, E2.
  destruct e; unfold selected_in, unselected_in; cbn [sd_effect st_selected st_unselected filter length]; lia.
Qed.
