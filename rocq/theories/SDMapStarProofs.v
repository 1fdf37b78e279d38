(** Proofs about SDMapStar (C32, C33). *)
From Verif Require Export SDMapProofs SDMapStarModel.
From Verif Require Import OrderFacts CoreOrder CorePattern VerticalProofs.
Open Scope string_scope.
Open Scope list_scope.
Open Scope nat_scope.

(** * Without a limit: SDMap's search over another order of the header table *)
Section NoLimit.
  Context {V : Type}.
  Variable c : star_config V.
  Hypothesis Hnum : (sc_num c <= 0)%Z.
  Variable tsel : selector.
  Variables TP FP : Z.
  Lemma no_limit : (0 <? sc_num c)%Z = false.
  Proof. apply Z.ltb_ge; auto. Qed.
  Lemma star_fpg : forall fuel t alpha st, star_fpgrowth c tsel TP FP fuel t alpha st =
    fpg (star_handle c tsel TP FP) (fun t => map fst (t_header t)) (c_min_tp (sc_base c)) (c_min_fp (sc_base c)) (c_min_n (sc_base c)) fuel t alpha st.
  Proof.
    assert (Ev : forall st v, star_visit c tsel TP FP st v = do st' <- star_handle c tsel TP FP st v; Ok (true, st')).
    { intros st v. unfold star_visit. rewrite no_limit. reflexivity. }
    induction fuel as [|f IH]; intros t alpha st; [reflexivity|]. cbn [star_fpgrowth fpg].
    destruct (there_is_a_single_path t) as [[|]|]; cbn [bind]; auto.
    - destruct (remove_empty _); cbn [bind]; auto. apply fold_res_ext. intros st' beta _. unfold single_path_visit.
      destruct (most_unfrequent _ _); cbn [bind]; auto. destruct (sel_assoc _ _); auto. rewrite Ev. destruct (star_handle _ _ _ _ _ _); reflexivity.
    - unfold star_order. rewrite no_limit. cbn [bind]. apply fold_res_ext. intros st' ai _. destruct (sel_assoc ai (t_header t)); auto.
      rewrite Ev. destruct (star_handle _ _ _ _ _ _) as [st1|]; cbn [bind]; auto. unfold star_conditional. rewrite no_limit.
      destruct (generate_conditional_fp_tree _ _ _ _ _); cbn [bind]; auto. destruct (is_empty _); auto.
  Qed.
  Lemma star_handle_fold : forall A (g : A -> pattern * (Z * Z)) P st,
    fold_res (fun st X => star_handle c tsel TP FP st (g X)) P st =
    do b <- fold_res (fun b X => handle_individual_result (sc_base c) tsel TP FP b (g X)) P (ss_base st);
    Ok (StarS b (ss_k st) (ss_pruned st) (ss_cpruned st)).
  Proof.
    intros A g. induction P as [|X P IH]; intros [b k p q]; cbn [fold_res bind ss_base ss_k ss_pruned ss_cpruned]; auto.
    unfold star_handle at 1. cbn [ss_base ss_k ss_pruned ss_cpruned].
    destruct (handle_individual_result _ _ _ _ _ _) as [b'|]; cbn [bind]; auto. rewrite IH. reflexivity.
  Qed.
End NoLimit.

Theorem star_fit_spec : forall V (c : star_config V) ok df tcol tval st, (sc_num c <= 0)%Z -> categorical df -> distinct_keys df tcol -> has_column df tcol ->
  let b := sc_base c in
  thresholds (c_min_tp b) (c_min_fp b) (c_min_n b) = Ok ok ->
  exists P, NoDup P /\ (forall X, In X P <-> frequent df tcol tval (c_min_tp b) (c_min_fp b) (c_min_n b) X) /\
    star_fit c st df tcol tval =
      match P with
      | [] => Ok st
      | _ => do b' <- fold_res (fun st X => handle_individual_result b (Sel tcol EQUAL (VStr tval)) (TP_of df tcol tval) (FP_of df tcol tval) st
                (X, (tp_of df (Sel tcol EQUAL (VStr tval)) X, fp_of df (Sel tcol EQUAL (VStr tval)) X))) P
               (if c_write b then SDS (st_selected (ss_base st)) (st_unselected (ss_base st)) (Some []) else ss_base st);
             Ok (StarS b' (ss_k st) (ss_pruned st) (ss_cpruned st))
      end.
Proof.
  intros V c ok df tcol tval st Hn Hcat Hquo Hcol b Hok.
  destruct (visits df tcol tval _ _ _ ok Hcat Hquo Hcol Hok) as (d & t & E1 & E2 & E3 & E4).
  destruct (mask_spec df tcol tval Hcat Hcol) as (mask & Hm & _).
  destruct (E4 _ (star_handle c (Sel tcol EQUAL (VStr tval)) (TP_of df tcol tval) (FP_of df tcol tval)) (fun t => map fst (t_header t))) as (P & P1 & P2 & P3).
  { intros t' lt D _ T. destruct (proj1 T) as (_ & _ & _ & _ & ->). unfold header_of. rewrite map_map. cbn [fst]. rewrite map_id. auto. }
  exists P. split; auto. split; auto. unfold star_fit. fold b. rewrite all_str_columns by auto. cbn [negb]. rewrite Hm. cbn [bind].
  rewrite (population_spec df tcol tval Hcat Hcol mask Hm). rewrite E1. cbn [bind]. rewrite E2. cbn [bind].
  destruct (is_empty t) eqn:Ee.
  - destruct P as [|X P]; auto. exfalso. apply (proj1 E3 eq_refl X), P2. left; auto.
  - rewrite (star_fpg c Hn). fold b. rewrite P3.
    destruct P as [|X P].
    + exfalso. assert (F : false = true); [|discriminate]. apply E3. intros X HX. apply P2 in HX. destruct HX.
    + rewrite (star_handle_fold c (Sel tcol EQUAL (VStr tval)) (TP_of df tcol tval) (FP_of df tcol tval) _
        (fun X => (X, (tp_of df (Sel tcol EQUAL (VStr tval)) X, fp_of df (Sel tcol EQUAL (VStr tval)) X)))).
      fold b. destruct (c_write b); reflexivity.
Qed.

(** * With a limit *)
Inductive sub {A} : list A -> list A -> Prop :=
| sub_nil : sub [] []
| sub_keep : forall x l l', sub l l' -> sub (x :: l) (x :: l')
| sub_drop : forall x l l', sub l l' -> sub l (x :: l').
Lemma sub_in : forall A (l l' : list A), sub l l' -> incl l l'.
Proof. intros A l l' H. induction H; intros y I; auto. - destruct I as [<-|I]; [left; auto|right; auto]. - right; auto. Qed.
Lemma star_filter_spec : forall low h (E : list (nat * (path * (Z * Z)))) r,
  star_filter low h (map (fun x => 1 + fst x) E) = Ok r ->
  exists E', fst r = map (fun x => 1 + fst x) E' /\ sub E' E /\ (snd r = 0 -> E' = E).
Proof.
  intros low h E. induction E as [|x E IH]; intros r H; cbn [map star_filter] in H.
  - injection H as <-. exists []. repeat split; auto using @sub.
  - destruct (nth_error h (1 + fst x)) as [n|]; [|discriminate]. destruct (low (nd_tp n) (nd_fp n)) as [b|]; [|discriminate]. cbn [bind] in H.
    destruct (star_filter low h (map (fun x => 1 + fst x) E)) as [r'|] eqn:Er; [|discriminate]. cbn [bind] in H. injection H as <-.
    destruct (IH r' eq_refl) as (E' & H1 & H2 & H3). destruct b; cbn [fst snd].
    + exists E'. split; auto. split; [constructor; auto|discriminate].
    + exists (x :: E'). split; [cbn [map]; f_equal; auto|]. split; [constructor; auto|]. intros H0. f_equal; auto.
Qed.
Lemma sub_asum : forall k Q E' E, sub E' E -> (forall x, In x E -> weight_ok (snd (snd x))) ->
  (asum k Q (base_of E') <= asum k Q (base_of E))%Z.
Proof.
  intros k Q E' E S. induction S as [|x l l' S IH|x l l' S IH]; intros H; cbn [base_of map asum]; [lia| |].
  - fold (base_of l) (base_of l'). specialize (IH ltac:(intros; apply H; right; auto)). cbn [fst snd]. destruct (Q _); lia.
  - fold (base_of l'). specialize (IH ltac:(intros; apply H; right; auto)). destruct (H x (or_introl eq_refl)) as (W1 & W2 & _). cbn [fst snd].
    unfold base_of in *. destruct (Q _); [|lia]. destruct k; cbn [pr]; lia.
Qed.

Section Limit.
  Variable U : selector -> Prop.
  Hypothesis U_nominal : forall s, U s -> nominal s.
  Hypothesis U_key : forall s t, U s -> U t -> skey s = skey t -> s = t.
  Variable ok : Z -> Z -> bool.
  Hypothesis ok_mono : forall a b a' b', (a <= a' -> b <= b' -> ok a b = true -> ok a' b' = true)%Z.
  Local Notation good := (good U ok).
  Local Notation itemset := (itemset ok).

  (** The conditional tree with pruned nodes: counts can only be lost. *)
  Lemma conditional_star_spec : forall lt t D s alpha low mtp mfp mn r, good lt D -> tree_for t D -> In s (keys (paths (build D))) ->
    thresholds mtp mfp mn = Ok ok -> generate_conditional_fp_tree_star t (s :: alpha) low mtp mfp mn = Ok r ->
    exists D' lt', good lt' D' /\ tree_for (fst r) D' /\
      (forall x, In x (keys (paths (build D'))) -> In x (keys (paths (build D))) /\ x <> s) /\
      (forall Y, itemset D' Y -> itemset D (Y ++ [s]) /\ (forall k, (cnt k D' Y <= cnt k D (Y ++ [s]))%Z) /\ (forall y, In y Y -> lt y s)) /\
      (snd r = 0 -> (forall k Y, itemset D' Y -> cnt k D' Y = cnt k D (Y ++ [s])) /\
                    (forall Y, Y <> [] -> (forall y, In y Y -> lt y s) -> itemset D (Y ++ [s]) -> itemset D' Y)).
  Proof.
    intros lt t D s alpha low mtp mfp mn r G T Is Hok H. pose proof T as (R & _).
    pose proof G as ((Irr & Tra) & GU & GW & GS & GO).
    assert (Us : U s). { apply keys_build in Is. destruct Is as (e & Ie & Ix). apply (GU e); auto. }
    unfold generate_conditional_fp_tree_star in H. rewrite Hok in H. cbn [bind] in H.
    rewrite (header_tree U ok lt t D s G T (U_nominal s Us)) in H. destruct (in_dec _ _ _) as [_|]; [|contradiction]. cbn [he_first] in H.
    pose proof (proj1 (ids_nonempty _ _) Is) as Nids.
    assert (hd_error (ids (paths (build D)) s) = Some (hd 0 (ids (paths (build D)) s))) as Hhd.
    { destruct (ids (paths (build D)) s); [contradiction|reflexivity]. }
    rewrite <- Hhd in H.
    destruct (ids_entries (build D) 1 s) as (E & E1 & E2 & E3). fold (ids (paths (build D)) s) in E1.
    assert (Llen : length (ids (paths (build D)) s) <= length (t_nodes t)).
    { destruct R as (_ & L & _). rewrite L, E1, map_length, <- (map_length snd E), E2.
      etransitivity; [apply filter_len|lia]. }
    rewrite (horizontal_spec t (build D) s R _ [] _ eq_refl Llen) in H. cbn [bind] in H. rewrite E1 in H.
    destruct (star_filter low (t_nodes t) (map (fun x => 1 + fst x) E)) as [kp|] eqn:Ek; [|discriminate]. cbn [bind] in H.
    destruct (star_filter_spec _ _ _ _ Ek) as (E' & F1 & F2 & F3). rewrite F1 in H.
    assert (El0 : forall x, In x E -> lastsel (fst (snd x)) = s).
    { intros x Ix. assert (I2 : In (snd x) (map snd E)) by (apply in_map; auto). rewrite E2 in I2. apply filter_In in I2.
      destruct I2 as [_ I2]. destruct (selector_eq_dec _ s); [auto|discriminate]. }
    pose proof (sub_in _ _ _ F2) as Hin.
    assert (E3' : Forall (fun x => nth_error (build D) (fst x) = Some (snd x)) E') by (rewrite Forall_forall in *; auto).
    destruct (conditional_base U U_nominal U_key ok ok_mono lt t D s E' G T Is E3' ltac:(auto)) as (ct & D' & lt' & H1 & H2 & H3 & H4 & H5 & H6 & H7).
    rewrite H1 in H. cbn [bind] in H. injection H as <-. cbn [fst snd].
    assert (EB : base_of E = proj_base s (build D)) by (unfold proj_base, base_of; rewrite <- E2, map_map; reflexivity).
    assert (C0 : forall k Y, Y <> [] -> cnt k (base_of E) Y = cpr k D s Y).
    { intros k Y NY. rewrite EB. unfold cnt. rewrite asum_proj_base. apply asum_ends_build. apply (good_nodup U ok lt); auto. }
    assert (LE : forall k Y, Y <> [] -> (cnt k (base_of E') Y <= cpr k D s Y)%Z).
    { intros k Y NY. rewrite <- C0 by auto. unfold cnt. apply sub_asum; auto. intros x Ix. rewrite Forall_forall in E3.
      specialize (E3 x Ix). apply nth_error_In in E3. destruct (snd x) as [p w] eqn:Ex. cbn [snd]. apply (build_in D p w); auto. }
    assert (Key : forall Y, itemset D' Y -> itemset D (Y ++ [s]) /\ (forall k, (cnt k D' Y <= cnt k D (Y ++ [s]))%Z) /\ (forall y, In y Y -> lt y s)).
    { intros Y HY. pose proof (proj1 (H6 Y) HY) as (NY & NDY & P & Q).
      pose proof (LE true Y NY) as L1. pose proof (LE false Y NY) as L2.
      assert (L : forall y, In y Y -> lt y s) by (apply (cpr_lt U ok lt D s Y G); lia).
      rewrite (cpr_max U ok lt D s Y true G L) in L1. rewrite (cpr_max U ok lt D s Y false G L) in L2. split; [|split; auto].
      - split; [destruct Y; discriminate|]. split; [|split; [unfold cn; lia|apply (ok_mono _ _ _ _ L1 L2 Q)]].
        apply Permutation_NoDup with (l := s :: Y); [apply Permutation_cons_append|]. constructor; auto. intros X. apply (Irr s), L; auto.
      - intros k. rewrite H5 by auto. destruct k; auto. }
    exists D', lt'. split; auto. split; auto. split; auto. split; auto.
    intros Z0. specialize (F3 Z0). subst E'. split.
    - intros k Y HY. destruct (Key Y HY) as (_ & _ & L). rewrite H5 by auto. rewrite C0 by apply HY. apply (cpr_max U ok lt D s Y _ G L).
    - intros Y NY L HI. apply H6. rewrite !C0 by auto. rewrite (cpr_max U ok lt D s Y true G L), (cpr_max U ok lt D s Y false G L). destruct HI as (_ & A2 & A3 & A4).
      split; auto. split; [|split; auto]. apply NoDup_remove_1 in A2. rewrite app_nil_r in A2. auto.
  Qed.

  Context {V : Type}.
  Variable c : star_config V.
  Variable tsel : selector.
  Variables TP FP : Z.
  Hypothesis Hnum : (0 < sc_num c)%Z.
  Hypothesis Hok : thresholds (c_min_tp (sc_base c)) (c_min_fp (sc_base c)) (c_min_n (sc_base c)) = Ok ok.
  Local Notation lt := (sc_lt c).
  Lemma limit : (0 <? sc_num c)%Z = true.
  Proof. apply Z.ltb_lt; auto. Qed.

  (** The order of the qualities is a strict weak order and the estimate is at least the quality. *)
  Definition sane : Prop :=
    (forall x, lt x x = false) /\ (forall x y z, lt x y = false -> lt y z = false -> lt x z = false) /\
    (forall x y, lt x y = true -> lt y x = false) /\
    (forall tp fp q o, (0 <= tp <= TP)%Z -> (0 <= fp <= FP)%Z -> sc_kquality c tp fp TP FP = Ok q -> sc_oe c tp fp TP FP = Ok o -> lt o q = false).
  Definition kinv (st : star_state V) : Prop :=
    StronglySorted (fun x y => lt y x = false) (ss_k st) /\ (Z.of_nat (length (ss_k st)) <= sc_num c)%Z.
  Definition full (st : star_state V) : Prop := Z.of_nat (length (ss_k st)) = sc_num c.
  Definition bound (w : V) (st : star_state V) : Prop := forall y, In y (ss_k st) -> lt y w = false.
  Definition counts (D : db) (Y : list selector) : Z * Z := (cnt true D Y, cnt false D Y).
  Definition visits_of (alpha : list selector) (W : list (list selector * (Z * Z))) (b b' : sd_state V) : Prop :=
    fold_res (fun b v => handle_individual_result (sc_base c) tsel TP FP b (pattern_init (fst v ++ alpha), snd v)) W b = Ok b'.
  (** What a part of the search does: [W] are the handled results, [Sc] the sets in its scope. *)
  Record run (D : db) (Sc : list selector -> Prop) (alpha : list selector) (st st' : star_state V)
    (W : list (list selector * (Z * Z))) : Prop := {
    r_sound : forall v, In v W -> Sc (fst v) /\ itemset D (fst v) /\ (fst (snd v) <= cnt true D (fst v))%Z /\ (snd (snd v) <= cnt false D (fst v))%Z /\
                ok (fst (snd v)) (snd (snd v)) = true;
    r_diff : ForallOrdPairs (fun v w => diff (fst v) (fst w)) W;
    r_handled : visits_of alpha W (ss_base st) (ss_base st');
    r_mono : ss_pruned st <= ss_pruned st' /\ ss_cpruned st <= ss_cpruned st';
    r_exact : ss_cpruned st' = ss_cpruned st -> forall v, In v W -> snd v = counts D (fst v);
    r_complete : ss_cpruned st' = ss_cpruned st -> forall Y, Sc Y -> itemset D Y ->
      (exists v, In v W /\ Permutation Y (fst v)) \/
      (ss_pruned st < ss_pruned st' /\ exists Z, incl Z Y /\ itemset D Z /\
         exists o w, sc_oe c (cnt true D Z) (cnt false D Z) TP FP = Ok o /\ lt o w = true /\
           (sane -> kinv st -> full st' /\ bound w st'));
    r_top : sane -> kinv st -> exists Qs R, Forall2 (fun v x => sc_kquality c (fst (snd v)) (snd (snd v)) TP FP = Ok x) W Qs /\
              Permutation (ss_k st' ++ R) (ss_k st ++ Qs);
    r_inv : sane -> kinv st -> kinv st' /\ (full st -> full st' /\ forall w, bound w st -> bound w st') }.

  Lemma sort_sorted : sane -> forall l, StronglySorted (fun x y => lt y x = false) (sort_by lt l).
  Proof.
    intros (S1 & S2 & S3 & _). induction l as [|x l IH]; cbn [sort_by]; [constructor|].
    assert (I : forall x l, StronglySorted (fun x y => lt y x = false) l -> StronglySorted (fun x y => lt y x = false) (insert_by lt x l)).
    { clear -S1 S2 S3. intros x l H. induction H as [|y l H IH F]; cbn [insert_by]; [repeat constructor|]. destruct (lt y x) eqn:E.
      - constructor; auto. apply Forall_forall. intros z Iz. apply (Permutation_in z (Permutation_sym (insert_by_perm lt x l))) in Iz.
        rewrite Forall_forall in F. destruct Iz as [<-|Iz]; auto.
      - constructor; [constructor; auto|]. constructor; auto. rewrite Forall_forall in *. intros z Iz. apply (S2 z y x); auto. }
    apply I, IH.
  Qed.
  Lemma run_nil : forall D (Sc : list selector -> Prop) alpha st, (forall Y, Sc Y -> ~ itemset D Y) -> run D Sc alpha st st [].
  Proof.
    intros D Sc alpha st H. constructor; auto.
    - intros v [].
    - constructor.
    - reflexivity.
    - intros _ v [].
    - intros _ Y A B. elim (H Y A B).
    - intros _ _. exists [], []. split; [constructor|]. rewrite app_nil_r. auto.
  Qed.
  Lemma run_app : forall D (Sc1 Sc2 : list selector -> Prop) alpha st st1 st2 W1 W2, run D Sc1 alpha st st1 W1 -> run D Sc2 alpha st1 st2 W2 ->
    (forall Y Z, Sc1 Y -> Sc2 Z -> diff Y Z) -> run D (fun Y => Sc1 Y \/ Sc2 Y) alpha st st2 (W1 ++ W2).
  Proof.
    intros D Sc1 Sc2 alpha st st1 st2 W1 W2 R1 R2 Df. pose proof (r_mono _ _ _ _ _ _ R1) as M1. pose proof (r_mono _ _ _ _ _ _ R2) as M2.
    constructor.
    - intros v I. apply in_app_or in I. destruct I as [I|I]; [destruct (r_sound _ _ _ _ _ _ R1 v I) as (A & B)|destruct (r_sound _ _ _ _ _ _ R2 v I) as (A & B)]; auto.
    - apply FOP_app; [apply R1|apply R2|]. intros v w Iv Iw. apply Df; [apply (r_sound _ _ _ _ _ _ R1 v Iv)|apply (r_sound _ _ _ _ _ _ R2 w Iw)].
    - unfold visits_of. rewrite fold_res_app. pose proof (r_handled _ _ _ _ _ _ R1) as H1. unfold visits_of in H1. rewrite H1. cbn [bind]. apply R2.
    - lia.
    - intros E v I. apply in_app_or in I. destruct I as [I|I]; [apply (r_exact _ _ _ _ _ _ R1)|apply (r_exact _ _ _ _ _ _ R2)]; auto; lia.
    - intros E Y [SY|SY] HY.
      + destruct (r_complete _ _ _ _ _ _ R1 ltac:(lia) Y SY HY) as [(v & I & P)|(L & Z & I & HZ & o & w & Eo & Lw & Dm)].
        * left. exists v. split; auto. apply in_or_app; auto.
        * right. split; [lia|]. exists Z. split; auto. split; auto. exists o, w. split; auto. split; auto.
          intros Sn Ki. destruct (Dm Sn Ki) as (Fu & Bo). destruct (r_inv _ _ _ _ _ _ R1 Sn Ki) as (Ki1 & _).
          destruct (r_inv _ _ _ _ _ _ R2 Sn Ki1) as (_ & B2). destruct (B2 Fu) as [B3 B4]. split; auto.
      + destruct (r_complete _ _ _ _ _ _ R2 ltac:(lia) Y SY HY) as [(v & I & P)|(L & Z & I & HZ & o & w & Eo & Lw & Dm)].
        * left. exists v. split; auto. apply in_or_app; auto.
        * right. split; [lia|]. exists Z. split; auto. split; auto. exists o, w. split; auto. split; auto.
          intros Sn Ki. apply Dm; auto. apply (r_inv _ _ _ _ _ _ R1 Sn Ki).
    - intros Sn Ki. destruct (r_inv _ _ _ _ _ _ R1 Sn Ki) as (Ki1 & _).
      destruct (r_top _ _ _ _ _ _ R1 Sn Ki) as (Q1 & X1 & F1 & P1). destruct (r_top _ _ _ _ _ _ R2 Sn Ki1) as (Q2 & X2 & F2 & P2).
      exists (Q1 ++ Q2), (X2 ++ X1). split; [apply Forall2_app; auto|].
      rewrite app_assoc. transitivity ((ss_k st1 ++ Q2) ++ X1); [apply Permutation_app_tail; auto|].
      rewrite <- app_assoc. transitivity (ss_k st1 ++ X1 ++ Q2); [apply Permutation_app_head, Permutation_app_comm|].
      rewrite !app_assoc. apply Permutation_app_tail; auto.
    - intros Sn Ki. destruct (r_inv _ _ _ _ _ _ R1 Sn Ki) as (Ki1 & A1). destruct (r_inv _ _ _ _ _ _ R2 Sn Ki1) as (Ki2 & A2). split; auto.
      intros Fu. destruct (A1 Fu) as [B1 B2]. destruct (A2 B1) as [B3 B4]. split; auto.
  Qed.
  Lemma run_scope : forall D (Sc Sc' : list selector -> Prop) alpha st st' W, (forall Y, itemset D Y -> (Sc Y <-> Sc' Y)) -> run D Sc alpha st st' W -> run D Sc' alpha st st' W.
  Proof.
    intros D Sc Sc' alpha st st' W H R. constructor; try apply R.
    - intros v I. destruct (r_sound _ _ _ _ _ _ R v I) as (A & B & C). split; auto. apply H; auto.
    - intros E Y SY HY. apply (r_complete _ _ _ _ _ _ R); auto. apply H; auto.
  Qed.

  Lemma update_k_facts : forall st tp fp st', update_k c TP FP st tp fp = Ok st' ->
    exists q, sc_kquality c tp fp TP FP = Ok q /\ ss_base st' = ss_base st /\ ss_pruned st' = ss_pruned st /\ ss_cpruned st' = ss_cpruned st /\
      (sane -> kinv st -> kinv st' /\ (full st -> full st' /\ forall w, bound w st -> bound w st') /\
         ((In q (ss_k st') /\ exists R, Permutation (ss_k st' ++ R) (ss_k st ++ [q])) \/ (ss_k st' = ss_k st /\ full st))).
  Proof.
    intros st tp fp st' H. unfold update_k in H. destruct (sc_kquality c tp fp TP FP) as [q|] eqn:Eq; [|discriminate]. cbn [bind] in H. exists q. split; auto.
    unfold kinv, full, bound. destruct (Z.ltb _ _) eqn:El; [apply Z.ltb_lt in El|apply Z.ltb_ge in El].
    - injection H as <-. cbn [ss_base ss_pruned ss_cpruned ss_k]. repeat (split; [reflexivity|]).
      assert (P := sort_by_perm lt (ss_k st ++ [q])). pose proof (Permutation_length P) as PL. rewrite app_length in PL. cbn [length] in PL.
      intros Sn (K1 & K2). split; [split; [apply sort_sorted; auto|lia]|]. split; [lia|]. left. split.
      + apply (Permutation_in q P), in_or_app; right; left; auto.
      + exists []. rewrite app_nil_r. apply Permutation_sym; auto.
    - destruct (ss_k st) as [|w k] eqn:Ek; [discriminate|]. destruct (lt w q) eqn:E; injection H as <-; cbn [ss_base ss_pruned ss_cpruned ss_k]; repeat (split; [reflexivity|]).
      + change (insert_by lt q (sort_by lt k)) with (sort_by lt (q :: k)). assert (P := sort_by_perm lt (q :: k)). pose proof (Permutation_length P) as PL. cbn [length] in PL, El.
        intros Sn (K1 & K2). cbn [length] in K2. split; [split; [apply (sort_sorted Sn (q :: k))|lia]|]. split.
        * intros Fu. split; [cbn [length] in Fu; lia|]. intros w' B y I. apply (Permutation_in y (Permutation_sym P)) in I. destruct I as [<-|I].
          -- destruct Sn as (S1 & S2 & S3 & _). apply (S2 q w w'); [apply S3; auto|apply B; left; auto].
          -- apply B; right; auto.
        * left. split; [apply (Permutation_in q P); left; auto|]. exists [w]. transitivity ((q :: k) ++ [w]); [apply Permutation_app_tail, Permutation_sym; auto|].
          transitivity ((w :: k) ++ [q]); auto. cbn [app]. transitivity (w :: q :: k); [rewrite <- (Permutation_cons_append k w); apply perm_swap|].
          constructor. apply Permutation_cons_append.
      + intros Sn (K1 & K2). rewrite Ek in *. split; auto. split; auto. right. split; auto. lia.
  Qed.
  Lemma visit_run : forall D alpha Y st b st', itemset D Y -> (forall k, (0 <= cnt k D Y)%Z) -> (cnt true D Y <= TP /\ cnt false D Y <= FP)%Z ->
    star_visit c tsel TP FP st (pattern_init (Y ++ alpha), counts D Y) = Ok (b, st') ->
    run D (Permutation Y) alpha st st' (if b then [(Y, counts D Y)] else []) /\ ss_cpruned st' = ss_cpruned st.
  Proof.
    intros D alpha Y st b st' HY HC [HB1 HB2] H. unfold star_visit in H. rewrite limit in H. unfold counts at 1 in H. cbn beta iota in H.
    destruct (update_k c TP FP st (cnt true D Y) (cnt false D Y)) as [st1|] eqn:Eu; [|discriminate]. cbn [bind] in H.
    destruct (update_k_facts _ _ _ _ Eu) as (q & Eq & Eb & Ep & Ec & F2).
    destruct (sc_oe c _ _ TP FP) as [oe|] eqn:Eo; [|discriminate]. cbn [bind] in H.
    destruct (worst_k st1) as [w|] eqn:Ew; [|discriminate]. cbn [bind] in H.
    assert (Iw : In w (ss_k st1)) by (unfold worst_k in Ew; destruct (ss_k st1); [discriminate|injection Ew as ->; left; auto]).
    destruct (lt oe w) eqn:El.
    - assert (NP : sane -> kinv st -> kinv st1 /\ ss_k st1 = ss_k st /\ full st /\ True).
      { intros Sn Ki. destruct (F2 Sn Ki) as (Ki1 & _ & [[Iq _]|[K1 K2]]); [exfalso|auto].
        destruct Sn as (S1 & S2 & S3 & S4). assert (Lq : lt q w = false).
        { destruct Ki1 as [Ks _]. unfold worst_k in Ew. destruct (ss_k st1) as [|w0 k0]; [discriminate|]. injection Ew as ->. destruct Iq as [<-|Iq]; auto.
          inversion Ks as [|? ? _ Kf]; subst. rewrite Forall_forall in Kf. auto. }
        rewrite (S2 oe q w) in El; [discriminate| |auto]. eapply S4; [| |exact Eq|exact Eo]; split; auto. }
      injection H as <- <-. cbn [ss_cpruned]. split; auto. constructor; cbn [ss_base ss_k ss_pruned ss_cpruned].
      + intros v [].
      + constructor.
      + unfold visits_of. cbn [fold_res]. rewrite Eb. reflexivity.
      + lia.
      + intros _ v [].
      + intros _ Z P HZ. right. split; [lia|]. exists Y. split; [intros x; apply Permutation_in; auto|]. split; auto.
        exists oe, w. split; [exact Eo|]. split; [exact El|]. intros Sn Ki. destruct (NP Sn Ki) as (Ki1 & K1 & K2 & K3).
        split; [unfold full in *; cbn [ss_k]; congruence|]. unfold bound. cbn [ss_k]. intros y Iy. destruct Ki1 as [Ks _]. unfold worst_k in Ew.
        destruct (ss_k st1) as [|w0 k0]; [discriminate|]. injection Ew as ->. destruct Iy as [<-|Iy]; [apply (proj1 Sn)|].
        inversion Ks as [|? ? _ Kf]; subst. rewrite Forall_forall in Kf. auto.
      + intros Sn Ki. destruct (NP Sn Ki) as (Ki1 & K1 & K2 & K3). exists [], []. split; [constructor|]. rewrite !app_nil_r, K1. auto.
      + intros Sn Ki. destruct (F2 Sn Ki) as (A1 & A2 & _). split; auto.
    - unfold star_handle in H. destruct (handle_individual_result _ _ _ _ _ _) as [b'|] eqn:Eh; [|discriminate]. cbn [bind] in H. injection H as <- <-.
      split; [|cbn [ss_cpruned]; auto]. constructor; cbn [ss_base ss_k ss_pruned ss_cpruned].
      + intros v [<-|[]]. cbn [fst snd counts]. split; auto. split; auto. split; [lia|]. split; [lia|]. apply HY.
      + repeat constructor.
      + unfold visits_of. cbn [fold_res fst snd]. rewrite <- Eb, Eh. reflexivity.
      + lia.
      + intros _ v [<-|[]]. reflexivity.
      + intros _ Z P HZ. left. exists (Y, counts D Y). split; [left; auto|]. cbn [fst]. apply Permutation_sym; auto.
      + intros Sn Ki. destruct (F2 Sn Ki) as (_ & _ & [[_ [X P]]|[K1 K2]]).
        * exists [q], X. split; [constructor; [exact Eq|constructor]|exact P].
        * exists [q], [q]. split; [constructor; [exact Eq|constructor]|]. rewrite K1. auto.
      + intros Sn Ki. destruct (F2 Sn Ki) as (A1 & A2 & _). split; auto.
  Qed.
  Lemma fold_visit_run : forall D alpha Vs st st', (forall k Y, (0 <= cnt k D Y)%Z) -> (forall Y, itemset D Y -> cnt true D Y <= TP /\ cnt false D Y <= FP)%Z -> (forall v, In v Vs -> itemset D (fst v) /\ snd v = counts D (fst v)) ->
    ForallOrdPairs (fun v w => diff (fst v) (fst w)) Vs ->
    fold_res (call (fun st v => do r <- star_visit c tsel TP FP st v; Ok (snd r)) alpha) Vs st = Ok st' ->
    exists W, run D (fun Y => exists v, In v Vs /\ Permutation (fst v) Y) alpha st st' W.
  Proof.
    intros D alpha Vs. induction Vs as [|v Vs IH]; intros st st' HC HB H F E.
    - cbn in E. injection E as <-. exists []. apply run_nil. intros Y (v & [] & _).
    - cbn [fold_res] in E. unfold call at 1 in E. destruct (H v (or_introl eq_refl)) as [HI Hs]. rewrite Hs in E.
      destruct (star_visit c tsel TP FP st (pattern_init (fst v ++ alpha), counts D (fst v))) as [[b st1]|] eqn:Ev; [|discriminate]. cbn [bind snd] in E.
      inversion F as [|? ? F0 F1]; subst. destruct (IH st1 st' HC HB ltac:(intros; apply H; right; auto) F1 E) as (W & RW).
      destruct (visit_run D alpha (fst v) st b st1 HI (fun k => HC k _) (HB _ HI) Ev) as [R1 _].
      eexists. eapply run_scope; [|eapply run_app; [exact R1|exact RW|]].
      + intros Y HY. split.
        * intros [P|(w & Iw & P)]; [exists v; split; [left; auto|auto]|exists w; split; [right; auto|auto]].
        * intros (w & [<-|Iw] & P); [left; auto|right; eauto].
      + intros Y Z P (w & Iw & P') PYZ. rewrite Forall_forall in F0. apply (F0 w Iw). etransitivity; [exact P|]. etransitivity; [exact PYZ|]. apply Permutation_sym; auto.
  Qed.
  (** From the conditional tree of [s] to the tree. *)
  Lemma lift_run : forall ltD D D' s alpha st st0 st' W, order ltD -> In s (keys (paths (build D))) ->
    ss_base st0 = ss_base st -> ss_k st0 = ss_k st -> ss_pruned st0 = ss_pruned st -> ss_cpruned st <= ss_cpruned st0 ->
    (forall Y, itemset D' Y -> itemset D (Y ++ [s]) /\ (forall k, (cnt k D' Y <= cnt k D (Y ++ [s]))%Z) /\ (forall y, In y Y -> ltD y s)) ->
    (ss_cpruned st0 = ss_cpruned st -> (forall k Y, itemset D' Y -> cnt k D' Y = cnt k D (Y ++ [s])) /\
                  (forall Y, Y <> [] -> (forall y, In y Y -> ltD y s) -> itemset D (Y ++ [s]) -> itemset D' Y)) ->
    run D' (fun _ => True) (s :: alpha) st0 st' W ->
    run D (fun Z => exists Y, Y <> [] /\ Permutation Z (Y ++ [s]) /\ forall y, In y Y -> ltD y s) alpha st st' (map (fun w => (fst w ++ [s], snd w)) W).
  Proof.
    intros ltD D D' s alpha st st0 st' W Or Is Eb Ek Ep Ec HI Hx R. pose proof (r_mono _ _ _ _ _ _ R) as M.
    constructor.
    - intros v I. apply in_map_iff in I. destruct I as (w & <- & Iw). cbn [fst snd].
      destruct (r_sound _ _ _ _ _ _ R w Iw) as (_ & A & B1 & B2 & B3). destruct (HI _ A) as (A1 & A2 & A3).
      split; [exists (fst w); split; [apply A|auto]|]. split; auto. pose proof (A2 true). pose proof (A2 false). split; [lia|]. split; [lia|auto].
    - apply (FOP_map _ _ _ (fun v w => diff (fst v) (fst w))); [|apply R]. intros v w Dvw P. cbn [fst] in P. apply Dvw. apply Permutation_app_inv_r in P; auto.
    - pose proof (r_handled _ _ _ _ _ _ R) as H. unfold visits_of in *. rewrite fold_res_map. rewrite <- Eb, <- H. apply fold_res_ext.
      intros b w Iw. cbn [fst snd]. rewrite <- app_assoc. reflexivity.
    - lia.
    - intros E v I. apply in_map_iff in I. destruct I as (w & <- & Iw). cbn [fst snd]. rewrite (r_exact _ _ _ _ _ _ R) by (auto; lia).
      destruct (Hx ltac:(lia)) as [X _]. destruct (r_sound _ _ _ _ _ _ R w Iw) as (_ & A & _). unfold counts. rewrite !X by auto. reflexivity.
    - intros E Z (Y & NY & P & L) HZ. destruct (Hx ltac:(lia)) as [X1 X2].
      assert (HY : itemset D' Y) by (apply X2; auto; apply (itemset_perm ok D Z); auto).
      destruct (r_complete _ _ _ _ _ _ R ltac:(lia) Y I HY) as [(w & Iw & Pw)|(Lp & Z' & I' & HZ' & o & w & Eo & Lw & Dm)].
      + left. exists (fst w ++ [s], snd w). split; [apply in_map_iff; exists w; auto|]. cbn [fst]. etransitivity; [exact P|]. apply Permutation_app_tail; auto.
      + right. split; [lia|]. exists (Z' ++ [s]). split; [|split; [apply HI; auto|]].
        * intros x Ix. apply (Permutation_in x (Permutation_sym P)). apply in_app_or in Ix. apply in_or_app. destruct Ix as [Ix|Ix]; auto.
        * exists o, w. rewrite <- !X1 by auto. split; auto. split; auto. intros Sn Ki. apply Dm; auto. unfold kinv in *. rewrite Ek. auto.
    - intros Sn Ki. assert (Ki0 : kinv st0) by (unfold kinv in *; rewrite Ek; auto).
      destruct (r_top _ _ _ _ _ _ R Sn Ki0) as (Qs & X & F & P). exists Qs, X. rewrite <- Ek. split; auto.
      clear -F. induction F; cbn [map]; constructor; auto.
    - intros Sn Ki. assert (Ki0 : kinv st0) by (unfold kinv in *; rewrite Ek; auto).
      destruct (r_inv _ _ _ _ _ _ R Sn Ki0) as [A B]. unfold full, bound in *. rewrite Ek in B. auto.
  Qed.
  Lemma order_perm : forall ltD t D l, good ltD D -> tree_for t D -> star_order c TP FP t = Ok l -> Permutation l (keys (paths (build D))).
  Proof.
    intros ltD t D l G T H. unfold star_order in H. rewrite limit in H.
    assert (Eh : map fst (t_header t) = keys (paths (build D))).
    { destruct (proj1 T) as (_ & _ & _ & _ & ->). unfold header_of. rewrite map_map. cbn [fst]. apply map_id. }
    destruct (map_res _ (t_header t)) as [l0|] eqn:E; [|discriminate]. cbn [bind] in H. injection H as <-.
    rewrite <- Eh. transitivity (map snd l0); [apply Permutation_map, Permutation_sym, sort_by_perm|].
    enough (map snd l0 = map fst (t_header t)) as -> by auto. clear -E. revert l0 E.
    induction (t_header t) as [|x h IH]; intros l0 E; cbn [map_res] in E; [injection E as <-; reflexivity|].
    destruct (sc_oe c _ _ TP FP); [|discriminate]. cbn [bind] in E. destruct (map_res _ h) as [l1|] eqn:E1; [|discriminate]. cbn [bind] in E. injection E as <-.
    cbn [map snd]. f_equal. apply IH; auto.
  Qed.

  Theorem star_run : forall fuel ltD t D alpha st st', good ltD D -> tree_for t D -> length (keys (paths (build D))) < fuel ->
    (forall Y, itemset D Y -> cnt true D Y <= TP /\ cnt false D Y <= FP)%Z ->
    star_fpgrowth c tsel TP FP fuel t alpha st = Ok st' -> exists W, run D (fun _ => True) alpha st st' W.
  Proof.
    induction fuel as [|f IH]; intros ltD t D alpha st st' G T Hf HB H; [lia|]. cbn [star_fpgrowth] in H.
    assert (HC : forall k Y, (0 <= cnt k D Y)%Z) by (intros k Y; apply (asum_nonneg k); apply G).
    destruct (single_path t D) as (b & Eb & Hb); [apply T|]. rewrite Eb in H. cbn [bind] in H.
    destruct b.
    - destruct (Hb eq_refl) as [ch Hch].
      destruct (single_visit U U_nominal ok (fun st v => do r <- star_visit c tsel TP FP st v; Ok (snd r)) ltD t D alpha ch G T Hch) as (Vs & (V1 & V2 & V3) & combos & Ec & Hc).
      rewrite Ec in H. cbn [bind] in H. rewrite Hc in H.
      destruct (fold_visit_run D alpha Vs st st' HC HB V1 V3 H) as (W & R). exists W. eapply run_scope; [|exact R].
      intros Y HY. split; auto. intros _. destruct (V2 Y HY) as (v & Iv & P). exists v. split; auto. apply Permutation_sym; auto.
    - clear Hb. destruct (star_order c TP FP t) as [ls|] eqn:Eo; [|discriminate]. cbn [bind] in H.
      pose proof (order_perm ltD t D ls G T Eo) as Pl.
      assert (NDl : NoDup ls) by (apply (Permutation_NoDup (Permutation_sym Pl)), keys_nodup).
      assert (Il : incl ls (keys (paths (build D)))) by (intros x Ix; apply (Permutation_in x Pl); auto).
      assert (NK : forall x, In x (keys (paths (build D))) -> nominal x).
      { intros x Ix. apply keys_build in Ix. destruct Ix as (e & Ie & Ix). apply U_nominal. destruct G as (_ & GU & _). apply (GU e); auto. }
      pose proof G as ((Irr & Tra) & _).
      (* scope of one branch *)
      set (Sb := fun s Z => exists Y, Permutation Z (Y ++ [s]) /\ forall y, In y Y -> ltD y s).
      assert (Sdiff : forall s s' Y Z, s <> s' -> Sb s Y -> Sb s' Z -> diff Y Z).
      { intros s s' Y Z N (Y0 & P1 & L1) (Z0 & P2 & L2) P.
        assert (PP : Permutation (Y0 ++ [s]) (Z0 ++ [s'])) by (etransitivity; [apply Permutation_sym; exact P1|etransitivity; [exact P|exact P2]]).
        assert (Q1 : In s (Z0 ++ [s'])) by (apply (Permutation_in s PP), in_or_app; right; left; auto).
        assert (Q2 : In s' (Y0 ++ [s])) by (apply (Permutation_in s' (Permutation_sym PP)), in_or_app; right; left; auto).
        apply in_app_or in Q1, Q2. destruct Q1 as [Q1|[Q1|[]]]; [|congruence]. destruct Q2 as [Q2|[Q2|[]]]; [|congruence].
        apply (Irr s), (Tra s s' s); auto. }
      assert (All : forall ls st, NoDup ls -> incl ls (keys (paths (build D))) ->
        fold_res (fun st ai =>
            match sel_assoc ai (t_header t) with
            | None => Err KeyError
            | Some e =>
                do r <- star_visit c tsel TP FP st (pattern_init (ai :: alpha), (he_tp e, he_fp e));
                let '(handled, st) := r in
                if handled then
                  do cs <- star_conditional c TP FP st t (ai :: alpha);
                  let '(ct, st) := cs in
                  if is_empty ct then Ok st else star_fpgrowth c tsel TP FP f ct (ai :: alpha) st
                else Ok st
            end) ls st = Ok st' -> exists W, run D (fun Z => exists s, In s ls /\ Sb s Z) alpha st st' W).
      { clear Pl NDl Il H Eo ls st. induction ls as [|s ls IHl]; intros st ND I H.
        - cbn in H. injection H as <-. exists []. apply run_nil. intros Y (s & [] & _).
        - inversion ND as [|? ? Ns ND']; subst. cbn [fold_res] in H. pose proof (I s (or_introl eq_refl)) as Is.
          rewrite (header_tree U ok ltD t D s G T) in H by auto. destruct (in_dec _ _ _) as [_|N]; [|elim N; auto]. cbn [he_tp he_fp] in H.
          destruct (star_visit c tsel TP FP st _) as [[b st1]|] eqn:Ev; [|discriminate]. cbn [bind] in H.
          pose proof (singleton_itemset U ok ltD D s G Is) as Hs.
          destruct (visit_run D alpha [s] st b st1 Hs (fun k => HC k _) (HB _ Hs) Ev) as [R1 Ec1].
          assert (Br : exists st2 W, run D (Sb s) alpha st st2 W /\
             fold_res (fun st ai =>
              match sel_assoc ai (t_header t) with
              | None => Err KeyError
              | Some e =>
                do r <- star_visit c tsel TP FP st (pattern_init (ai :: alpha), (he_tp e, he_fp e));
                let '(handled, st) := r in
                if handled then
                  do cs <- star_conditional c TP FP st t (ai :: alpha);
                  let '(ct, st) := cs in
                  if is_empty ct then Ok st else star_fpgrowth c tsel TP FP f ct (ai :: alpha) st
                else Ok st
              end) ls st2 = Ok st').
          { destruct b.
            - destruct (star_conditional c TP FP st1 t (s :: alpha)) as [[ct st2]|] eqn:Ecd; [|discriminate]. cbn [bind] in H.
              unfold star_conditional in Ecd. rewrite limit in Ecd. destruct (worst_k st1) as [w|]; [|discriminate]. cbn [bind] in Ecd.
              destruct (generate_conditional_fp_tree_star _ _ _ _ _ _) as [r|] eqn:Eg; [|discriminate]. cbn [bind] in Ecd. injection Ecd as <- <-.
              destruct (conditional_star_spec ltD t D s alpha _ _ _ _ r G T Is Hok Eg) as (D' & lt' & G' & T' & K' & C1 & C2).
              match type of H with context [is_empty (fst r)] => idtac end.
              set (st2 := StarS (ss_base st1) (ss_k st1) (ss_pruned st1) (ss_cpruned st1 + snd r)) in *.
              assert (exists st3 W, run D' (fun _ => True) (s :: alpha) st2 st3 W /\ (if is_empty (fst r) then Ok st2 else star_fpgrowth c tsel TP FP f (fst r) (s :: alpha) st2) = Ok st3) as (st3 & W & RW & E3).
              { destruct (is_empty (fst r)) eqn:Ee.
                - exists st2, []. split; auto. apply run_nil. intros Y _ HY.
                  apply (is_empty_spec (fst r) D' (proj1 T')) in Ee. pose proof (itemset_keys U ok lt' D' Y G' HY) as IK. rewrite Ee in IK.
                  destruct HY as (NY & _). destruct Y as [|y Y]; [contradiction|]. destruct (IK y); left; auto.
                - destruct (star_fpgrowth c tsel TP FP f (fst r) (s :: alpha) st2) as [st3|] eqn:E3; [|discriminate H].
                  destruct (IH lt' (fst r) D' (s :: alpha) st2 st3 G' T') as (W & RW); auto.
                  + assert (length (s :: keys (paths (build D'))) <= length (keys (paths (build D)))).
                    { apply NoDup_incl_length; [constructor; [|apply keys_nodup]|].
                      - intros X. destruct (K' s X) as [_ N]. congruence.
                      - intros x [<-|X]; auto. apply K'; auto. }
                    cbn [length] in *. lia.
                  + intros Y HY. destruct (C1 Y HY) as (HI & Hle & _). destruct (HB _ HI) as [B1 B2]. pose proof (Hle true). pose proof (Hle false). lia.
                  + exists st3, W. auto. }
              rewrite E3 in H. cbn [bind] in H.
              assert (RL : run D (fun Z => exists Y, Y <> [] /\ Permutation Z (Y ++ [s]) /\ forall y, In y Y -> ltD y s) alpha st1 st3 (map (fun w => (fst w ++ [s], snd w)) W)).
              { apply (lift_run ltD D D' s alpha st1 st2 st3 W (conj Irr Tra) Is eq_refl eq_refl eq_refl); auto.
                - cbn [st2 ss_cpruned]. lia.
                - cbn [st2 ss_cpruned]. intros E. apply C2. lia. }
              exists st3. eexists. split; [|exact H]. eapply run_scope; [|eapply run_app; [exact R1|exact RL|]].
              + intros Z HZ. split.
                * intros [P|(Y & _ & P & L)]; [exists []; split; [apply Permutation_sym; auto|intros y []]|exists Y; auto].
                * intros (Y & P & L). destruct Y as [|y Y]; [left; apply Permutation_sym; auto|right]. exists (y :: Y). split; [discriminate|auto].
              + intros Y Z P (Y0 & N0 & P0 & _) PYZ. assert (Q : Permutation [s] (Y0 ++ [s])) by (etransitivity; [exact P|etransitivity; [exact PYZ|exact P0]]).
                apply Permutation_length in Q. rewrite app_length in Q. destruct Y0; [contradiction|cbn in Q; lia].
            - (* pruned: nothing below *)
              exists st1, []. split; [|exact H].
              assert (Lp : ss_pruned st < ss_pruned st1 /\ exists o w, sc_oe c (cnt true D [s]) (cnt false D [s]) TP FP = Ok o /\ lt o w = true /\ (sane -> kinv st -> full st1 /\ bound w st1)).
              { destruct (r_complete _ _ _ _ _ _ R1 Ec1 [s] (Permutation_refl _) Hs) as [(v & [] & _)|(Lp & Z & IZ & HZ & o & w & Eo & Lw & Dm)].
                split; auto. exists o, w.
                assert (Permutation Z [s]).
                { destruct HZ as (NZ & NDZ & _). destruct Z as [|z Z]; [contradiction|]. assert (z = s) by (destruct (IZ z (or_introl eq_refl)) as [<-|[]]; auto). subst z.
                  destruct Z as [|z Z]; auto. exfalso. assert (z = s) by (destruct (IZ z (or_intror (or_introl eq_refl))) as [<-|[]]; auto). subst z.
                  inversion NDZ as [|? ? NI]. apply NI. left; auto. }
                rewrite !(cnt_perm _ D Z [s]) in Eo by auto. auto. }
              constructor; try apply R1.
              + intros v [].
              + intros _ Z (Y & P & L) HZ. right. split; [apply Lp|]. exists [s]. split; [|split; auto; apply Lp].
                intros x [<-|[]]. apply (Permutation_in s (Permutation_sym P)), in_or_app; right; left; auto. }
          destruct Br as (st2 & W1 & RW1 & E2).
          destruct (IHl st2 ND' ltac:(intros x Ix; apply I; right; auto) E2) as (W2 & RW2).
          eexists. eapply run_scope; [|eapply run_app; [exact RW1|exact RW2|]].
          + intros Z HZ. split.
            * intros [S1|(s' & Is' & S1)]; [exists s; split; [left; auto|auto]|exists s'; split; [right; auto|auto]].
            * intros (s' & [<-|Is'] & S1); [left; auto|right; eauto].
          + intros Y Z S1 (s' & Is' & S2). apply (Sdiff s s'); auto. intros ->. contradiction. }
      destruct (All ls st NDl Il H) as (W & R). exists W. eapply run_scope; [|exact R].
      intros Y HY. split; auto. intros _. destruct (max_of U ok ltD D Y G HY) as (s & Z & P & Is & L).
      exists s. split; [apply (Permutation_in s (Permutation_sym Pl)); auto|]. exists Z. auto.
  Qed.
End Limit.
