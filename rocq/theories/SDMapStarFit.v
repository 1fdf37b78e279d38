(** SDMapStar's fit with a limit, in terms of the dataset. *)
From Verif Require Export SDMapStarProofs.
From Verif Require Import OrderFacts VerticalProofs Properties_SDMap.
Open Scope string_scope.
Open Scope list_scope.
Open Scope Z_scope.

Section Fold.
  Context {V : Type}.
  Variable c : sd_config V.
  Variable tsel : selector.
  Variables TP FP : Z.
  (** The written lines for a list of handled results. *)
  Definition wlines (W : list (list selector * (Z * Z))) : list (record V) :=
    flat_map (fun v : list selector * (Z * Z) => match c_measure c (fst (snd v)) (snd (snd v)) TP FP with
                       | Ok q => if c_reaches c q then [Rec (SG (fst v) tsel) q (fst (snd v)) (snd (snd v)) TP FP] else []
                       | Err _ => [] end) W.
  Lemma handle_fold : forall W b b', fold_res (handle_individual_result c tsel TP FP) W b = Ok b' ->
    (forall v, In v W -> exists q, c_measure c (fst (snd v)) (snd (snd v)) TP FP = Ok q) /\
    st_selected b' = (st_selected b + length (wlines W))%nat /\
    (st_selected b' + st_unselected b' = st_selected b + st_unselected b + length W)%nat /\
    st_file b' = (if c_write c then match st_file b with Some l => Some (l ++ wlines W) | None => None end else st_file b).
  Proof.
    induction W as [|[X [tp fp]] W IH]; intros b b' H; cbn [fold_res] in H.
    - injection H as <-. split; [intros v []|]. cbn. rewrite Nat.add_0_r. split; auto. split; [lia|].
      destruct (c_write c); auto. destruct (st_file b); auto. rewrite app_nil_r. auto.
    - unfold handle_individual_result at 1 in H. destruct (c_measure c tp fp TP FP) as [q|] eqn:Eq; [|discriminate]. cbn [bind] in H.
      destruct (IH _ _ H) as (I1 & I2 & I3 & I4). split.
      + intros v [<-|Iv]; [exists q; exact Eq|auto].
      + assert (L : wlines ((X, (tp, fp)) :: W) = (if c_reaches c q then [Rec (SG X tsel) q tp fp TP FP] else []) ++ wlines W).
        { unfold wlines. cbn [flat_map fst snd]. rewrite Eq. reflexivity. }
        rewrite L, I2, I4. destruct (c_reaches c q); cbn [app length st_selected st_unselected st_file] in *; (split; [lia|split; [lia|]]); auto.
        destruct (c_write c); auto. destruct (st_file b) as [l|]; cbn [append_line]; auto. rewrite <- app_assoc. reflexivity.
  Qed.
  Lemma wlines_in : forall W r, In r (wlines W) <-> exists v q, In v W /\ c_measure c (fst (snd v)) (snd (snd v)) TP FP = Ok q /\ c_reaches c q = true /\
    r = Rec (SG (fst v) tsel) q (fst (snd v)) (snd (snd v)) TP FP.
  Proof.
    intros W r. unfold wlines. rewrite in_flat_map. split.
    - intros (v & I & J). destruct (c_measure c _ _ TP FP) as [q|] eqn:E; [|destruct J]. destruct (c_reaches c q) eqn:R; [|destruct J].
      destruct J as [<-|[]]. exists v, q. auto.
    - intros (v & q & I & E & R & ->). exists v. split; auto. assert (E2 : c_measure c (fst (snd v)) (snd (snd v)) TP FP = Ok q) by exact E. rewrite E2, R. left; reflexivity.
  Qed.
  Lemma wlines_nodup : forall W, NoDup (map fst W) -> NoDup (map r_subgroup (wlines W)).
  Proof.
    induction W as [|v W IH]; intros ND; [constructor|]. inversion ND as [|? ? N ND']; subst. cbn [wlines flat_map]. fold (wlines W). rewrite map_app.
    destruct (c_measure c _ _ TP FP) as [q|] eqn:E; cbn [map app]; auto. destruct (c_reaches c q); cbn [map app]; auto. constructor; auto.
    intros I. apply in_map_iff in I. destruct I as (r & E' & I). apply wlines_in in I. destruct I as (w & q' & IY & _ & _ & ->).
    cbn in E'. injection E' as E'. apply N. rewrite <- E'. apply in_map; auto.
  Qed.
End Fold.

(** The search part of fit. *)
Record limited {V} (c : star_config V) (df : dataframe) (tcol tval : string) (st st' : star_state V)
  (W : list (list selector * (Z * Z))) : Prop := {
  l_nodup : NoDup (map fst W);
  l_sound : forall X tp fp, In (X, (tp, fp)) W -> frequent df tcol tval (c_min_tp (sc_base c)) (c_min_fp (sc_base c)) (c_min_n (sc_base c)) X /\
     tp <= tp_of df (Sel tcol EQUAL (VStr tval)) X /\ fp <= fp_of df (Sel tcol EQUAL (VStr tval)) X /\
     supported (c_min_tp (sc_base c)) (c_min_fp (sc_base c)) (c_min_n (sc_base c)) tp fp;
  l_handled : fold_res (handle_individual_result (sc_base c) (Sel tcol EQUAL (VStr tval)) (TP_of df tcol tval) (FP_of df tcol tval)) W
     (if c_write (sc_base c) then SDS (st_selected (ss_base st)) (st_unselected (ss_base st)) (Some []) else ss_base st) = Ok (ss_base st');
  l_mono : (ss_pruned st <= ss_pruned st' /\ ss_cpruned st <= ss_cpruned st')%nat;
  l_exact : ss_cpruned st' = ss_cpruned st -> forall X tp fp, In (X, (tp, fp)) W ->
     tp = tp_of df (Sel tcol EQUAL (VStr tval)) X /\ fp = fp_of df (Sel tcol EQUAL (VStr tval)) X;
  l_complete : ss_cpruned st' = ss_cpruned st -> forall X, frequent df tcol tval (c_min_tp (sc_base c)) (c_min_fp (sc_base c)) (c_min_n (sc_base c)) X ->
     In X (map fst W) \/
     ((ss_pruned st < ss_pruned st')%nat /\ exists Y, incl Y X /\ frequent df tcol tval (c_min_tp (sc_base c)) (c_min_fp (sc_base c)) (c_min_n (sc_base c)) Y /\
        exists o w, quality (sc_oe c) df tcol tval Y = Ok o /\ sc_lt c o w = true /\
          (sane c (TP_of df tcol tval) (FP_of df tcol tval) -> kinv c st -> full c st' /\ bound c w st'));
  l_top : sane c (TP_of df tcol tval) (FP_of df tcol tval) -> kinv c st -> exists Qs R,
     Forall2 (fun v x => sc_kquality c (fst (snd v)) (snd (snd v)) (TP_of df tcol tval) (FP_of df tcol tval) = Ok x) W Qs /\
     Permutation (ss_k st' ++ R) (ss_k st ++ Qs) /\ kinv c st' }.

(** A description covers at most the rows that a part of it covers. *)
Lemma tp_fp_incl : forall df t X Y, incl Y X -> tp_of df t X <= tp_of df t Y /\ fp_of df t X <= fp_of df t Y.
Proof.
  intros df t X Y I. unfold tp_of, fp_of, pos_rows, neg_rows.
  assert (M : forall i, matches_all df X i = true -> matches_all df Y i = true) by (intros i; unfold matches_all; rewrite !forallb_forall; auto).
  induction (seq 0 (df_n df)) as [|i l IH]; cbn [filter]; [lia|]. specialize (M i).
  destruct (matches_all df X i); [rewrite M by auto|destruct (matches_all df Y i)]; destruct (row_matchesb df i t); cbn [andb negb length]; lia.
Qed.
Theorem star_fit_limit : forall V (c : star_config V) df tcol tval st st', 0 < sc_num c -> categorical df -> distinct_keys df tcol -> has_column df tcol ->
  star_fit c st df tcol tval = Ok st' ->
  (st' = st /\ forall X, ~ frequent df tcol tval (c_min_tp (sc_base c)) (c_min_fp (sc_base c)) (c_min_n (sc_base c)) X) \/
  exists W, limited c df tcol tval st st' W.
Proof.
  intros V c df tcol tval st st' Hn Hcat Hquo Hcol H. unfold star_fit in H. rewrite all_str_columns in H by auto. cbn [negb] in H.
  destruct (mask_spec df tcol tval Hcat Hcol) as (mask & Hm & _). rewrite Hm in H. cbn [bind] in H.
  rewrite (population_spec df tcol tval Hcat Hcol mask Hm) in H.
  destruct (generate_set_of_frequent_selectors _ _ _ _ _ _) as [d|] eqn:Ed; [|discriminate]. cbn [bind] in H.
  destruct (build_tree _ _ _ _ _) as [t|] eqn:Et; [|discriminate]. cbn [bind] in H.
  destruct (tree_facts _ _ _ _ _ _ _ _ Hcat Hquo Hcol (conj Ed Et)) as (ok & o & Hok & _ & Ho & T & G & IR & CR).
  destruct (thresholds_supported _ _ _ _ Hok) as [Hsup Hmono]. set (D := D0 df tcol tval ok o) in *. set (tsel := Sel tcol EQUAL (VStr tval)) in *.
  assert (FI : forall X, frequent df tcol tval (c_min_tp (sc_base c)) (c_min_fp (sc_base c)) (c_min_n (sc_base c)) X -> itemset ok D X).
  { intros X ((NX & SX & DX) & C & Sp). apply IR. split; auto.
    assert (HU : forall s, In s X -> U df tcol s) by (intros s Is; apply U_description; auto).
    assert (HN : Forall nominal X) by (apply Forall_forall; intros s Is; apply (U_nominal df tcol); auto).
    split; [apply sorted_nodup_nominal; auto|]. split; auto. split; auto. apply Hsup; auto. }
  assert (NY0 : forall Y, itemset ok D Y -> NoDup Y /\ Forall nominal Y).
  { intros Y HY. apply IR in HY. destruct HY as (_ & ND & HU & _). split; auto. apply Forall_forall; intros s Is; apply (U_nominal df tcol); auto. }
  assert (Ein : forall Y, itemset ok D Y -> forall s, In s Y <-> In s (pattern_init Y)).
  { intros Y HY s. destruct (NY0 Y HY) as [ND HN]. destruct (pattern_nominal Y ND HN) as [P S]. split; apply Permutation_in; [|apply Permutation_sym]; auto. }
  assert (CE : forall Y, itemset ok D Y -> cnt true D Y = tp_of df tsel (pattern_init Y) /\ cnt false D Y = fp_of df tsel (pattern_init Y)).
  { intros Y HY. rewrite !CR by auto. destruct (counts_perm df tsel Y (pattern_init Y) (Ein Y HY)) as (E1 & E2 & _). auto. }
  assert (IF : forall Y, itemset ok D Y -> frequent df tcol tval (c_min_tp (sc_base c)) (c_min_fp (sc_base c)) (c_min_n (sc_base c)) (pattern_init Y)).
  { intros Y HY. pose proof (CE Y HY) as [C1 C2]. pose proof (Ein Y HY) as E. destruct (NY0 Y HY) as [ND HN]. apply IR in HY. destruct HY as (NY & _ & HU & C & Ok).
    destruct (pattern_nominal Y ND HN) as [P S]. destruct (counts_perm df tsel Y (pattern_init Y) E) as (E1 & E2 & E3).
    split; [split; [|split; auto]|].
    - intros X. rewrite X in P. apply Permutation_sym, Permutation_nil in P. contradiction.
    - intros s Is. apply (U_description df tcol Hcat s), HU, E; auto.
    - fold tsel. rewrite <- E1, <- E2, <- E3. split; auto. apply Hsup; auto. }
  destruct (is_empty t) eqn:Ee.
  - left. injection H as <-. split; auto. intros X HX. apply FI in HX. pose proof (itemset_keys (Uk df tcol) ok _ D X G HX) as I.
    apply (is_empty_spec t D (proj1 T)) in Ee. rewrite Ee in I. destruct HX as (NX & _). destruct X as [|x X]; [contradiction|]. apply (I x); left; auto.
  - right. set (st0 := if c_write (sc_base c) then _ else st) in H.
    destruct (star_run (Uk df tcol) (Uk_nominal df tcol) (U_key df tcol Hquo) ok Hmono c tsel (TP_of df tcol tval) (FP_of df tcol tval) Hn Hok
                (S (length (t_header t))) _ t D [] st0 st' G T) as (W & R); auto.
    { destruct (proj1 T) as (_ & _ & _ & _ & ->). unfold header_of. rewrite map_length. lia. }
    { intros Y HY. destruct (CE Y HY) as [-> ->]. apply tp_fp_incl. intros x []. }
    assert (Ek : ss_k st0 = ss_k st) by (unfold st0; destruct (c_write _); reflexivity).
    assert (Ep : ss_pruned st0 = ss_pruned st) by (unfold st0; destruct (c_write _); reflexivity).
    assert (Ec : ss_cpruned st0 = ss_cpruned st) by (unfold st0; destruct (c_write _); reflexivity).
    assert (Eb : ss_base st0 = if c_write (sc_base c) then SDS (st_selected (ss_base st)) (st_unselected (ss_base st)) (Some []) else ss_base st) by (unfold st0; destruct (c_write _); reflexivity).
    clearbody st0. assert (Ki : kinv c st -> kinv c st0) by (unfold kinv; rewrite Ek; auto).
    exists (map (fun v => (pattern_init (fst v), snd v)) W). constructor.
    + rewrite map_map. cbn [fst]. pose proof (r_diff _ _ _ _ _ _ _ _ _ _ _ R) as F. pose proof (r_sound _ _ _ _ _ _ _ _ _ _ _ R) as Sd. clear R.
      induction F as [|v W F0 F IH]; cbn [map]; constructor; [|apply IH; intros; apply Sd; right; auto].
      intros I. apply in_map_iff in I. destruct I as (w & E & Iw). rewrite Forall_forall in F0. apply (F0 w Iw).
      destruct (Sd v (or_introl eq_refl)) as (_ & Hv & _). destruct (Sd w (or_intror Iw)) as (_ & Hw & _).
      apply NoDup_Permutation; [apply NY0; auto|apply NY0; auto|]. intros x. rewrite (Ein _ Hv), (Ein _ Hw), E. tauto.
    + intros X tp fp I. apply in_map_iff in I. destruct I as ([Y [a b]] & E & I). cbn [fst snd] in E. injection E as <- <- <-.
      destruct (r_sound _ _ _ _ _ _ _ _ _ _ _ R _ I) as (_ & HY & A1 & A2 & A3). cbn [fst snd] in *. destruct (CE Y HY) as [C1 C2]. fold tsel.
      split; [apply IF; auto|]. split; [lia|]. split; [lia|]. apply Hsup; auto.
    + pose proof (r_handled _ _ _ _ _ _ _ _ _ _ _ R) as Hh. unfold visits_of in Hh. rewrite fold_res_map, <- Eb, <- Hh. apply fold_res_ext.
      intros b v Iv. rewrite app_nil_r. reflexivity.
    + rewrite <- Ep, <- Ec. apply R.
    + intros E X tp fp I. apply in_map_iff in I. destruct I as ([Y [a b]] & E' & I). cbn [fst snd] in E'. injection E' as <- <- <-.
      pose proof (r_exact _ _ _ _ _ _ _ _ _ _ _ R ltac:(congruence) _ I) as X. destruct (r_sound _ _ _ _ _ _ _ _ _ _ _ R _ I) as (_ & HY & _). cbn [fst snd] in *. unfold counts in X. injection X as -> ->.
      apply CE; auto.
    + intros E X HX. assert (HI := FI X HX). assert (PX : pattern_init X = X).
      { destruct (NY0 X HI) as [ND HN]. destruct (pattern_nominal X ND HN) as [P S]. destruct HX as ((NX & SX & DX) & _). apply sorted_unique; auto.
        - apply Forall_forall. intros x Ix. apply (Ein X HI) in Ix. rewrite Forall_forall in HN; auto.
        - intros s. symmetry. apply Ein; auto. }
      destruct (r_complete _ _ _ _ _ _ _ _ _ _ _ R ltac:(congruence) X I HI) as [(v & Iv & P)|(L & Z & IZ & HZ & o' & w & Eo & Lw & Dm)].
      * left. rewrite map_map. cbn [fst]. apply in_map_iff. exists v. split; auto.
        destruct (r_sound _ _ _ _ _ _ _ _ _ _ _ R _ Iv) as (_ & Hv & _). destruct (NY0 _ Hv) as [ND HN]. destruct (pattern_nominal _ ND HN) as [P' S'].
        destruct HX as ((NX & SX & DX) & _). destruct (NY0 _ HI) as [NDX HNX]. apply sorted_unique; auto.
        -- apply Forall_forall. intros x Ix. apply (Ein _ Hv) in Ix. rewrite Forall_forall in HN; auto.
        -- intros s. rewrite <- (Ein _ Hv). split; apply Permutation_in; [apply Permutation_sym|]; auto.
      * right. split; [lia|]. exists (pattern_init Z). split; [intros x Ix; apply IZ, (Ein Z HZ); auto|]. split; [apply IF; auto|].
        exists o', w. destruct (CE Z HZ) as [C1 C2]. unfold quality. fold tsel. rewrite <- C1, <- C2. auto.
    + intros Sn K. destruct (r_top _ _ _ _ _ _ _ _ _ _ _ R Sn (Ki K)) as (Qs & X & F & P). exists Qs, X. rewrite <- Ek. split; [|split; auto].
      * clear -F. induction F; cbn [map]; constructor; auto.
      * apply (r_inv _ _ _ _ _ _ _ _ _ _ _ R Sn (Ki K)).
Qed.
