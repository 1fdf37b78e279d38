(** Theorems C29-C31 and C34 for VLSD. *)
From Verif Require Import VLSDProofs VLSDRel VLSDTrace OrderFacts VerticalProofs Properties_SDMap QualityModel QualitySpec QualityProofs Properties_Quality SDMapProofs MiningProofs Properties_SDMapStar.
From Coq Require Import Lqa.
Open Scope string_scope.
Open Scope list_scope.
Open Scope Z_scope.

(** * Vocabulary *)
(** The two vertical-list classes, with the row numbers that a stored sequence denotes: the
    elements of a set, the positions of the ones of a bitarray. *)
Inductive representation : forall Seq, vl_impl Seq -> (Seq -> nat -> Prop) -> Prop :=
| sets_of_rows : representation (list nat) with_sets (fun s i => In i s)
| bitsets_of_rows : representation (list bool) with_bitsets (fun b i => nth i b false = true).
(** The descriptions VLSD looks for: over the non-target columns, with a covered row. *)
Definition candidate (df : dataframe) (tcol : string) (X : list selector) : Prop :=
  description df tcol X /\ (1 <= coverage df X)%nat.
(** The line [r] reports the description [X]: its own counts and quality [q], the estimate
    of [X], and the rows of [X] with and without the target. *)
Definition reports {Seq V} (rows : Seq -> nat -> Prop) (c : vl_config V) (df : dataframe) (tcol tval : string)
  (X : list selector) (q : V) (r : vl_record Seq V) : Prop :=
  vr_line r = line_of df tcol tval X q /\ quality (vc_oe c) df tcol tval X = Ok (vr_oe r) /\
  (forall i, rows (vr_seq_tp r) i <-> In i (pos_rows df (Sel tcol EQUAL (VStr tval)) X)) /\
  (forall i, rows (vr_seq_fp r) i <-> In i (neg_rows df (Sel tcol EQUAL (VStr tval)) X)).
Definition value_reaches {V} (c : vl_config V) df tcol tval X : Prop :=
  exists q, quality (vc_measure c) df tcol tval X = Ok q /\ vc_reaches c q = true.
Definition estimate_reaches {V} (c : vl_config V) df tcol tval X : Prop :=
  exists o, quality (vc_oe c) df tcol tval X = Ok o /\ vc_oe_reaches c o = true.
(** No part of a description that reaches the quality threshold is below the threshold of the
    estimate. *)
Definition sound_estimate {V} (c : vl_config V) (df : dataframe) (tcol tval : string) : Prop :=
  forall X Y o, candidate df tcol X -> candidate df tcol Y -> incl Y X -> value_reaches c df tcol tval X ->
    quality (vc_oe c) df tcol tval Y = Ok o -> vc_oe_reaches c o = true.
(** The weaker condition: no part of a description that reaches both thresholds is below the
    threshold of the estimate. *)
Definition inherited_estimate {V} (c : vl_config V) (df : dataframe) (tcol tval : string) : Prop :=
  forall X Y o, candidate df tcol X -> candidate df tcol Y -> incl Y X -> value_reaches c df tcol tval X -> estimate_reaches c df tcol tval X ->
    quality (vc_oe c) df tcol tval Y = Ok o -> vc_oe_reaches c o = true.

(** * From selector sets to descriptions *)
Lemma as_description : forall df tcol X, categorical df -> X <> [] -> (forall s, In s X -> U df tcol s) ->
  description df tcol (pattern_init X) /\ (forall s, In s (pattern_init X) <-> In s X).
Proof.
  intros df tcol X Hcat NX HU. assert (HN : Forall nominal X) by (apply Forall_forall; intros s Is; apply (U_nominal df tcol s); auto).
  destruct (CoreOrder.pattern_init_spec X (nominal_homogeneous X HN)) as (S1 & I1 & M1).
  assert (HP : Forall nominal (pattern_init X)) by (apply Forall_forall; intros x Ix; rewrite Forall_forall in HN; auto).
  assert (E : forall s, In s (pattern_init X) <-> In s X).
  { intros s. split; [apply I1|]. intros Is. pose proof HN as HN'. rewrite Forall_forall in HN'. apply (member_nominal _ s HP (HN' s Is)), M1, member_nominal; auto. }
  split; auto. split; [|split].
  - destruct X as [|s X]; [congruence|]. intros E0. specialize (E s). rewrite E0 in E. apply E. left; auto.
  - apply CoreOrder.sorted_strictly_slt; auto using nominal_homogeneous.
  - intros s Is. apply (U_description df tcol Hcat s), HU, E; auto.
Qed.
Lemma covered_candidate : forall df tcol X, categorical df -> covered df tcol X -> candidate df tcol (pattern_init X) /\ (forall s, In s (pattern_init X) <-> In s X).
Proof.
  intros df tcol X Hcat (NX & ND & HU & C). destruct (as_description df tcol X Hcat NX HU) as [D E]. split; auto. split; auto.
  rewrite (coverage_same df tcol tcol _ X E). exact C.
Qed.
Lemma candidate_U : forall df tcol X, categorical df -> description df tcol X -> (forall s, In s X -> U df tcol s) /\ Forall nominal X.
Proof.
  intros df tcol X Hcat (NX & S & H). assert (HU : forall s, In s X -> U df tcol s) by (intros s Is; apply (U_description df tcol Hcat s); auto).
  split; auto. apply Forall_forall. intros s Is. apply (U_nominal df tcol s); auto.
Qed.
Lemma candidate_covered : forall df tcol X, categorical df -> candidate df tcol X -> covered df tcol X.
Proof.
  intros df tcol X Hcat (D & C). destruct (candidate_U df tcol X Hcat D) as [HU HN]. split; [apply D|]. split; [|auto].
  apply sorted_nodup_nominal; auto. apply D.
Qed.
Lemma description_eq : forall df tcol X Y, categorical df -> description df tcol X -> description df tcol Y -> (forall s, In s X <-> In s Y) -> X = Y.
Proof.
  intros df tcol X Y Hcat DX DY E. apply sorted_unique; auto; try (eapply candidate_U; eauto); [apply DX|apply DY].
Qed.
Lemma same_counts : forall df t X Y, (forall s, In s X <-> In s Y) -> tp_of df t X = tp_of df t Y /\ fp_of df t X = fp_of df t Y.
Proof. intros df t X Y E. destruct (counts_perm df t X Y E) as (E1 & E2 & _). auto. Qed.
Lemma same_members : forall df t X Y i, (forall s, In s X <-> In s Y) ->
  (In i (pos_rows df t X) <-> In i (pos_rows df t Y)) /\ (In i (neg_rows df t X) <-> In i (neg_rows df t Y)).
Proof.
  intros df t X Y i E. assert (M : matches_all df X i = matches_all df Y i).
  { apply Bool.eq_true_iff_eq. unfold matches_all. rewrite !forallb_forall. split; intros H s Is; apply H, E; auto. }
  unfold pos_rows, neg_rows. rewrite !filter_In, M. tauto.
Qed.

(** * One run *)
Definition good_value {V} (c : vl_config V) df tcol tval (X : list selector) : bool :=
  match quality (vc_measure c) df tcol tval X with Ok q => vc_reaches c q | Err _ => false end.
Definition run_of {Seq V} (rows : Seq -> nat -> Prop) (c : vl_config V) df tcol tval (st st' : vl_state Seq V) (P : list (list selector)) : Prop :=
  NoDup P /\
  (forall X, In X P -> candidate df tcol X /\ estimate_reaches c df tcol tval X /\ exists q, quality (vc_measure c) df tcol tval X = Ok q) /\
  (forall X, candidate df tcol X ->
     (forall Y o, candidate df tcol Y -> incl Y X -> quality (vc_oe c) df tcol tval Y = Ok o -> vc_oe_reaches c o = true) -> In X P) /\
  (vs_selected st' = vs_selected st + length (filter (good_value c df tcol tval) P))%nat /\
  (vs_unselected st' = vs_unselected st + length (filter (fun X => negb (good_value c df tcol tval X)) P))%nat /\
  (if vc_write c
   then exists ls, vs_file st' = Some ls /\
     Forall2 (fun X r => exists q, quality (vc_measure c) df tcol tval X = Ok q /\ reports rows c df tcol tval X q r) (filter (good_value c df tcol tval) P) ls
   else vs_file st' = vs_file st).
Lemma filter_map : forall {A B} (f : A -> B) g l, filter g (map f l) = map f (filter (fun x => g (f x)) l).
Proof. intros A B f g l. induction l as [|a l IH]; cbn [map filter]; auto. destruct (g (f a)); cbn [map]; congruence. Qed.
Lemma filter_ext_in' : forall {A} (f g : A -> bool) l, (forall a, In a l -> f a = g a) -> filter f l = filter g l.
Proof. intros A f g l H. apply filter_ext_in. auto. Qed.

Lemma sets_run : forall V (c : vl_config V) df tcol tval st st', categorical df -> has_column df tcol ->
  vlsd_fit with_sets c st df tcol tval = Ok st' -> exists P, run_of (fun s i => In i s) c df tcol tval st st' P.
Proof.
  intros V c df tcol tval st st' Hcat Hcol E. destruct (fit_out c df tcol tval Hcat Hcol) as (run & [(L & G & (D & Cp) & R)|(_ & R)] & Ef).
  2:{ rewrite Ef in E. destruct (R (if vc_write c then VS (vs_selected st) (vs_unselected st) (Some []) else st)) as (e & Er & _). congruence. }
  rewrite Ef, R in E. clear Ef R. apply handle_fold in E. destruct E as [Hq E]. rewrite Forall_forall in G.
  set (tsel := Sel tcol EQUAL (VStr tval)) in *.
  assert (Gd : forall v, In v L -> candidate df tcol (pattern_init (vl_sels v)) /\ (forall s, In s (pattern_init (vl_sels v)) <-> In s (vl_sels v)) /\
    Z.of_nat (vl_tp v) = tp_of df tsel (pattern_init (vl_sels v)) /\ Z.of_nat (vl_fp v) = fp_of df tsel (pattern_init (vl_sels v)) /\
    quality (vc_oe c) df tcol tval (pattern_init (vl_sels v)) = Ok (vl_quality v) /\ vc_oe_reaches c (vl_quality v) = true).
  { intros v Iv. destruct (G v Iv) as (B & C & Es & Er). destruct (covered_candidate df tcol _ Hcat C) as [K E1]. split; auto. split; auto.
    destruct (built_counts c df tcol tval v B) as [T1 T2]. destruct (same_counts df tsel _ _ E1) as [C1 C2]. rewrite T1, T2, C1, C2. split; auto. split; auto.
    split; auto. rewrite <- Es. apply quality_same. exact E1. }
  exists (map (fun v => pattern_init (vl_sels v)) L).
  assert (Gg : forall v, In v L -> vl_good c (TP_of df tcol tval) (FP_of df tcol tval) v = good_value c df tcol tval (pattern_init (vl_sels v))).
  { intros v Iv. destruct (Gd v Iv) as (_ & _ & T1 & T2 & _). unfold vl_good, good_value, quality. rewrite T1, T2. reflexivity. }
  split; [|split; [|split; [|split; [|split]]]].
  - clear -D G Gd Hcat. induction D as [|v L F D IH]; cbn [map]; constructor.
    + intros I. apply in_map_iff in I. destruct I as (w & Ew & Iw). rewrite Forall_forall in F. apply (F w Iw). intros s.
      destruct (Gd v (or_introl eq_refl)) as (_ & E1 & _), (Gd w (or_intror Iw)) as (_ & E2 & _). rewrite <- (E1 s), <- (E2 s), Ew. tauto.
    + apply IH; intros w Iw; [apply G|apply Gd]; right; auto.
  - intros X I. apply in_map_iff in I. destruct I as (v & <- & Iv). destruct (Gd v Iv) as (K & _ & T1 & T2 & Eo & Er).
    split; auto. split; [exists (vl_quality v); auto|]. destruct (Hq v Iv) as [q Q]. exists q. unfold quality. fold tsel. rewrite <- T1, <- T2. exact Q.
  - intros X K HX. assert (C := candidate_covered df tcol X Hcat K). destruct (Cp X C) as (v & Iv & SS).
    { intros Y o NY IY Eo. destruct (as_description df tcol Y Hcat NY) as [DY EY]; [intros s Is; apply C, IY; auto|].
      apply (HX (pattern_init Y) o).
      - split; auto. apply Nat.le_trans with (coverage df X); [exact (proj2 K)|]. apply (coverage_incl df tcol tval). intros s Is. apply IY, EY; auto.
      - intros s Is. apply IY, EY; auto.
      - rewrite <- Eo. apply quality_same. exact EY. }
    apply in_map_iff. exists v. split; auto. destruct (Gd v Iv) as (K' & E1 & _). apply (description_eq df tcol _ _ Hcat); [apply K'|apply K|].
    intros s. rewrite (E1 s). apply SS.
  - rewrite E. cbn [vs_selected]. rewrite filter_map, map_length. destruct (vc_write c); cbn [vs_selected]; rewrite (filter_ext_in' _ (fun v => good_value c df tcol tval (pattern_init (vl_sels v))) L Gg); reflexivity.
  - rewrite E. cbn [vs_unselected]. rewrite filter_map, map_length.
    assert (EE : filter (fun v => negb (vl_good c (TP_of df tcol tval) (FP_of df tcol tval) v)) L = filter (fun v => negb (good_value c df tcol tval (pattern_init (vl_sels v)))) L).
    { apply filter_ext_in'. intros v Iv. rewrite Gg; auto. }
    destruct (vc_write c); cbn [vs_unselected]; rewrite EE; reflexivity.
  - rewrite E. cbn [vs_file]. destruct (vc_write c); auto. cbn [vs_file app]. eexists. split; [reflexivity|].
    assert (BB : forall v, In v L -> built c df tcol tval v) by (intros v Iv; apply G; auto).
    clear -Gd BB. induction L as [|v L IH]; cbn [map filter vl_lines flat_map]; [constructor|]. fold (vl_lines c tsel (TP_of df tcol tval) (FP_of df tcol tval) L).
    assert (IH' := IH (fun w I => Gd w (or_intror I)) (fun w I => BB w (or_intror I))). clear IH.
    destruct (Gd v (or_introl eq_refl)) as (K & E1 & T1 & T2 & Eo & Er). 
    assert (EQ : quality (vc_measure c) df tcol tval (pattern_init (vl_sels v)) = vc_measure c (Z.of_nat (vl_tp v)) (Z.of_nat (vl_fp v)) (TP_of df tcol tval) (FP_of df tcol tval)).
    { unfold quality. fold tsel. rewrite T1, T2. reflexivity. }
    assert (EG : good_value c df tcol tval (pattern_init (vl_sels v)) = match vc_measure c (Z.of_nat (vl_tp v)) (Z.of_nat (vl_fp v)) (TP_of df tcol tval) (FP_of df tcol tval) with Ok q => vc_reaches c q | Err _ => false end).
    { unfold good_value. rewrite EQ. reflexivity. }
    rewrite EG.
    destruct (vc_measure c (Z.of_nat (vl_tp v)) (Z.of_nat (vl_fp v)) (TP_of df tcol tval) (FP_of df tcol tval)) as [q|e] eqn:Eq; cbn [app]; auto.
    destruct (vc_reaches c q); cbn [app]; auto. constructor; auto. exists q. split; [rewrite EQ; auto|].
    destruct (built_sets_exact df tsel _ v (BB v (or_introl eq_refl))) as ((_ & _ & X1 & X2) & _).
    unfold reports. cbn [vr_line vr_oe vr_seq_tp vr_seq_fp]. unfold line_of. fold tsel. rewrite <- T1, <- T2. split; auto. split; auto.
    split; intros i; [rewrite (X1 i)|rewrite (X2 i)]; destruct (same_members df tsel _ _ i E1) as [A B]; symmetry; [apply A|apply B].
Qed.
(** Every state with bitarrays has a counterpart with sets. *)
Definition rows_of (b : list bool) : list nat := filter (fun i => nth i b false) (seq 0 (length b)).
Lemma rows_of_same : forall b, same_rows (rows_of b) b.
Proof.
  intros b. split; [apply NoDup_filter, seq_NoDup|]. intros i. unfold rows_of. rewrite filter_In, in_seq. split; [tauto|].
  intros H. split; auto. split; [lia|]. destruct (Nat.lt_ge_cases i (length b)) as [L|L]; [lia|]. rewrite nth_overflow in H by auto. discriminate.
Qed.
Definition as_sets {V} (st : vl_state (list bool) V) : vl_state (list nat) V :=
  VS (vs_selected st) (vs_unselected st)
     (option_map (map (fun r => VRec (vr_line r) (rows_of (vr_seq_tp r)) (rows_of (vr_seq_fp r)) (vr_oe r))) (vs_file st)).
Lemma as_sets_same : forall V (st : vl_state (list bool) V), same_state (as_sets st) st.
Proof.
  intros V [s u f]. split; [reflexivity|]. split; [reflexivity|]. cbn [as_sets vs_file]. destruct f as [l|]; cbn [option_map]; [|exact I].
  cbn [same_file]. induction l as [|r l IH]; cbn [map]; constructor; auto. split; [reflexivity|]. split; [reflexivity|]. split; apply rows_of_same.
Qed.
Lemma same_line_reports : forall V (c : vl_config V) df tcol tval X q a b, same_line a b ->
  reports (fun s i => In i s) c df tcol tval X q a -> reports (fun s i => nth i s false = true) c df tcol tval X q b.
Proof.
  intros V c df tcol tval X q a b (E1 & E2 & (_ & S1) & (_ & S2)) (R1 & R2 & R3 & R4). split; [congruence|]. split; [congruence|].
  split; intros i; [rewrite <- S1|rewrite <- S2]; auto.
Qed.
Lemma fit_run : forall Seq impl rows, representation Seq impl rows ->
  forall V (c : vl_config V) df tcol tval st st', categorical df -> has_column df tcol ->
  vlsd_fit impl c st df tcol tval = Ok st' -> exists P, run_of rows c df tcol tval st st' P.
Proof.
  intros Seq impl rows R. destruct R; [apply sets_run|]. intros V c df tcol tval st st' Hcat Hcol E.
  pose proof (rel_fit c (as_sets st) st df tcol tval (proj1 Hcat) (as_sets_same V st)) as RR. rewrite E in RR.
  destruct (vlsd_fit with_sets c (as_sets st) df tcol tval) as [st0|] eqn:E0; cbn [rel_res] in RR; [|destruct RR].
  destruct (sets_run V c df tcol tval _ _ Hcat Hcol E0) as (P & A1 & A2 & A3 & A4 & A5 & A6). destruct RR as (B1 & B2 & B3).
  exists P. split; auto. split; auto. split; auto. split; [rewrite <- B1, A4; reflexivity|]. split; [rewrite <- B2, A5; reflexivity|].
  destruct (vc_write c) eqn:W.
  - destruct A6 as (ls & F & FF). rewrite F in B3. cbn [same_file] in B3. destruct (vs_file st') as [ls'|]; [|destruct B3]. exists ls'. split; auto.
    clear -FF B3. revert FF. generalize (filter (good_value c df tcol tval) P). intros Q FF. revert ls' B3. induction FF as [|X r Q' ls (q & Eq & Rp) FF IH]; intros ls' B3; inversion B3; subst; constructor; auto.
    exists q. split; auto. eapply same_line_reports; eauto.
  - (* nothing is written *)
    destruct (fit_trace with_bitsets c df tcol tval) as (t & TP & FP & L & r & H). rewrite H in E. unfold ended in E.
    destruct (fold_res _ L _) as [st1|] eqn:F in E; [|discriminate]. cbn [bind] in E. destruct r; [discriminate|]. injection E as ->.
    apply handle_fold in F. destruct F as [_ ->]. rewrite W. unfold cleared. rewrite W. reflexivity.
Qed.
Lemma fit_err : forall Seq impl rows, representation Seq impl rows ->
  forall V (c : vl_config V) df tcol tval st e, categorical df -> has_column df tcol ->
  vlsd_fit impl c st df tcol tval = Err e ->
  exists X, candidate df tcol X /\ (quality (vc_oe c) df tcol tval X = Err e \/ quality (vc_measure c) df tcol tval X = Err e).
Proof.
  assert (A : forall V (c : vl_config V) df tcol tval st e, categorical df -> has_column df tcol ->
    vlsd_fit with_sets c st df tcol tval = Err e ->
    exists X, candidate df tcol X /\ (quality (vc_oe c) df tcol tval X = Err e \/ quality (vc_measure c) df tcol tval X = Err e)).
  { intros V c df tcol tval st e Hcat Hcol E. destruct (fit_out c df tcol tval Hcat Hcol) as (run & O & Ef). rewrite Ef in E.
    assert (K : raises df tcol (estimate c df tcol tval) e \/ raises df tcol (VLSDProofs.value c df tcol tval) e).
    { destruct O as [(L & G & _ & R)|(_ & R)].
      - rewrite R in E. right. exact (handle_raises c df tcol tval L _ e G E).
      - destruct (R (if vc_write c then VS (vs_selected st) (vs_unselected st) (Some []) else st)) as (e' & Er & K). rewrite E in Er. injection Er as <-. exact K. }
    destruct K as [(X & C & Ex)|(X & C & Ex)]; destruct (covered_candidate df tcol X Hcat C) as [K EX]; exists (pattern_init X); (split; [exact K|]);
      [left|right]; rewrite <- Ex; apply quality_same; exact EX. }
  intros Seq impl rows R. destruct R; [exact A|]. intros V c df tcol tval st e Hcat Hcol E.
  pose proof (rel_fit c (as_sets st) st df tcol tval (proj1 Hcat) (as_sets_same V st)) as RR. rewrite E in RR.
  destruct (vlsd_fit with_sets c (as_sets st) df tcol tval) as [st0|e'] eqn:E0; cbn [rel_res] in RR; [destruct RR|]. subst e'. eapply A; eauto.
Qed.

(** * C29 *)
Lemma reports_subgroups : forall Seq V (rows : Seq -> nat -> Prop) (c : vl_config V) df tcol tval P ls,
  Forall2 (fun X r => exists q, quality (vc_measure c) df tcol tval X = Ok q /\ reports rows c df tcol tval X q r) P ls ->
  map (fun r => g_desc (r_subgroup (vr_line r))) ls = P.
Proof.
  intros Seq V rows c df tcol tval P ls F. induction F as [|X r P ls (q & Eq & Rp) F IH]; cbn [map]; auto. rewrite IH. destruct Rp as (-> & _). reflexivity.
Qed.
Lemma F2_in_r : forall {A B} (R : A -> B -> Prop) l m b, Forall2 R l m -> In b m -> exists a, In a l /\ R a b.
Proof. intros A B R l m b F. induction F as [|x y l m H F IH]; [intros []|]. intros [<-|I]; [exists x; cbn; auto|]. destruct (IH I) as (a & Ia & Ra). exists a. cbn; auto. Qed.
Lemma F2_in_l : forall {A B} (R : A -> B -> Prop) l m a, Forall2 R l m -> In a l -> exists b, In b m /\ R a b.
Proof. intros A B R l m a F. induction F as [|x y l m H F IH]; [intros []|]. intros [<-|I]; [exists y; cbn; auto|]. destruct (IH I) as (b & Ib & Rb). exists b. cbn; auto. Qed.
Lemma good_value_reaches : forall V (c : vl_config V) df tcol tval X q, quality (vc_measure c) df tcol tval X = Ok q ->
  (good_value c df tcol tval X = true <-> vc_reaches c q = true).
Proof. intros V c df tcol tval X q E. unfold good_value. rewrite E. tauto. Qed.

(** Whatever the estimate: each line reports a description with a covered row that reaches
    the quality threshold, with its true counts, quality, estimate and rows, and no subgroup
    is reported twice. *)
Theorem C29_sound : forall Seq impl rows, representation Seq impl rows ->
  forall V (c : vl_config V) df tcol tval st st', categorical df -> has_column df tcol -> vc_write c = true ->
  vlsd_fit impl c st df tcol tval = Ok st' ->
  exists ls, vs_file st' = Some ls /\ NoDup (map (fun r => r_subgroup (vr_line r)) ls) /\
    forall r, In r ls -> exists X q, candidate df tcol X /\ quality (vc_measure c) df tcol tval X = Ok q /\ vc_reaches c q = true /\
      reports rows c df tcol tval X q r.
Proof.
  intros Seq impl rows R V c df tcol tval st st' Hcat Hcol W E. destruct (fit_run _ _ _ R V c df tcol tval st st' Hcat Hcol E) as (P & NP & HP & CP & _ & _ & F).
  rewrite W in F. destruct F as (ls & F & FF). exists ls. split; auto. split.
  - apply (NoDup_map_inv g_desc). rewrite map_map. rewrite (reports_subgroups _ _ _ _ _ _ _ _ _ FF). apply NoDup_filter; auto.
  - intros r Ir. destruct (F2_in_r _ _ _ r FF Ir) as (X & IX & q & Eq & Rp). apply filter_In in IX. destruct IX as [IX G].
    exists X, q. split; [apply HP; auto|]. split; auto. split; auto. apply (good_value_reaches V c df tcol tval X q Eq); auto.
Qed.
(** With a sound estimate the lines are exactly those of the descriptions with a covered row
    that reach the quality threshold. *)
Theorem C29_sound_and_complete : forall Seq impl rows, representation Seq impl rows ->
  forall V (c : vl_config V) df tcol tval st st', categorical df -> has_column df tcol -> vc_write c = true ->
  sound_estimate c df tcol tval -> vlsd_fit impl c st df tcol tval = Ok st' ->
  exists ls, vs_file st' = Some ls /\ NoDup (map (fun r => r_subgroup (vr_line r)) ls) /\
    forall l, In l (map vr_line ls) <-> exists X q, candidate df tcol X /\
      quality (vc_measure c) df tcol tval X = Ok q /\ vc_reaches c q = true /\ l = line_of df tcol tval X q.
Proof.
  intros Seq impl rows R V c df tcol tval st st' Hcat Hcol W Hs E.
  destruct (C29_sound _ _ _ R V c df tcol tval st st' Hcat Hcol W E) as (ls & F & ND & So). exists ls. split; auto. split; auto. intros l. split.
  - intros I. apply in_map_iff in I. destruct I as (r & <- & Ir). destruct (So r Ir) as (X & q & H1 & H2 & H3 & H4). exists X, q. split; auto. split; auto. split; auto. apply H4.
  - intros (X & q & K & Eq & Rq & ->). destruct (fit_run _ _ _ R V c df tcol tval st st' Hcat Hcol E) as (P & NP & HP & CP & _ & _ & F').
    rewrite W in F'. destruct F' as (ls' & F' & FF). rewrite F in F'. injection F' as <-.
    assert (IX : In X P). { apply CP; auto. intros Y o KY IY Eo. apply (Hs X Y o K KY IY); auto. exists q; auto. }
    destruct (F2_in_l _ _ _ X FF) as (r & Ir & q' & Eq' & Rp).
    { apply filter_In. split; auto. apply (good_value_reaches V c df tcol tval X q Eq); auto. }
    rewrite Eq in Eq'. injection Eq' as <-. apply in_map_iff. exists r. split; auto. apply Rp.
Qed.
(** fit succeeds when the measure and the estimate are defined on all the descriptions with
    a covered row, and raises nothing but what they raise. *)
Theorem C29_errors : forall Seq impl rows, representation Seq impl rows ->
  forall V (c : vl_config V) df tcol tval st, categorical df -> has_column df tcol ->
  ((forall X, candidate df tcol X -> exists q o, quality (vc_measure c) df tcol tval X = Ok q /\ quality (vc_oe c) df tcol tval X = Ok o) ->
   exists st', vlsd_fit impl c st df tcol tval = Ok st') /\
  (forall e, vlsd_fit impl c st df tcol tval = Err e ->
   exists X, candidate df tcol X /\ (quality (vc_oe c) df tcol tval X = Err e \/ quality (vc_measure c) df tcol tval X = Err e)).
Proof.
  intros Seq impl rows R V c df tcol tval st Hcat Hcol. split; [|intros e E; eapply fit_err; eauto].
  intros H. destruct (vlsd_fit impl c st df tcol tval) as [st'|e] eqn:E; [eauto|]. exfalso.
  destruct (fit_err _ _ _ R V c df tcol tval st e Hcat Hcol E) as (X & K & Ex). destruct (H X K) as (q & o & H1 & H2). destruct Ex; congruence.
Qed.
Theorem C29_numeric_columns : forall Seq (impl : vl_impl Seq) V (c : vl_config V) df tcol tval st a col v,
  In (a, col) (df_cols df) -> In v col -> is_str v = false -> vlsd_fit impl c st df tcol tval = Err DatasetAttributeTypeError.
Proof.
  intros Seq impl V c df tcol tval st a col v I J H. unfold vlsd_fit. replace (all_nominal df) with false; [reflexivity|]. symmetry.
  apply not_true_iff_false. intros X. unfold all_nominal in X. rewrite forallb_forall in X. specialize (X _ I). cbn [snd] in X.
  rewrite forallb_forall in X. specialize (X _ J). congruence.
Qed.
(** The counters: one unit per description visited; the selected ones are those written. *)
Theorem C29_counters : forall Seq impl rows, representation Seq impl rows ->
  forall V (c : vl_config V) df tcol tval st', categorical df -> has_column df tcol ->
  vlsd_fit impl c vlsd_new df tcol tval = Ok st' ->
  exists visited, NoDup visited /\
    (forall X, In X visited -> candidate df tcol X /\ estimate_reaches c df tcol tval X) /\
    vl_visited st' = length visited /\
    (exists selected, NoDup selected /\ (forall X, In X selected <-> In X visited /\ value_reaches c df tcol tval X) /\ vs_selected st' = length selected) /\
    (forall ls, vc_write c = true -> vs_file st' = Some ls -> length ls = vs_selected st').
Proof.
  intros Seq impl rows R V c df tcol tval st' Hcat Hcol E.
  destruct (fit_run _ _ _ R V c df tcol tval _ _ Hcat Hcol E) as (P & NP & HP & CP & N1 & N2 & F). exists P. split; auto. cbn [vlsd_new vs_selected vs_unselected Nat.add] in N1, N2.
  split; [intros X I; destruct (HP X I) as (A & B & _); auto|]. split; [|split].
  - unfold vl_visited. rewrite N1, N2. clear. induction P as [|X P IH]; cbn [filter length]; auto. destruct (good_value c df tcol tval X); cbn [negb length]; lia.
  - exists (filter (good_value c df tcol tval) P). split; [apply NoDup_filter; auto|]. split; auto. intros X. rewrite filter_In. split; intros [I G]; split; auto.
    + destruct (HP X I) as (_ & _ & q & Eq). exists q. split; auto. apply (good_value_reaches V c df tcol tval X q Eq); auto.
    + destruct G as (q & Eq & Rq). apply (good_value_reaches V c df tcol tval X q Eq); auto.
  - intros ls W Fl. rewrite W in F. destruct F as (ls' & F & FF). rewrite F in Fl. injection Fl as <-. rewrite N1. symmetry. eapply F2_length; eauto.
Qed.
(** The hypothesis of completeness in terms of thresholds: the estimate bounds the quality of
    all the refinements and its threshold does not exceed that of the quality. *)
Theorem C29_bounding_estimate : forall V (c : vl_config V) (le : V -> V -> bool) qmin omin df tcol tval,
  (forall x y z, le x y = true -> le y z = true -> le x z = true) ->
  (forall q, vc_reaches c q = le qmin q) -> (forall o, vc_oe_reaches c o = le omin o) -> le omin qmin = true ->
  (forall X Y q o, candidate df tcol X -> candidate df tcol Y -> incl Y X ->
     quality (vc_measure c) df tcol tval X = Ok q -> quality (vc_oe c) df tcol tval Y = Ok o -> le q o = true) ->
  sound_estimate c df tcol tval.
Proof.
  intros V c le qmin omin df tcol tval Tr H1 H2 H3 HB X Y o KX KY I (q & Eq & Rq) Eo. rewrite H2. rewrite H1 in Rq.
  eapply Tr; [exact H3|]. eapply Tr; [exact Rq|]. exact (HB X Y q o KX KY I Eq Eo).
Qed.
(** The measures of the library. *)
Definition vlsd_config (m oe : measure) (qmin omin : Q) (s1 other : sort_criterion) (write : bool) : vl_config Q :=
  VC (on_counts m) (Qle_bool qmin) (on_counts oe) (Qle_bool omin) qlt s1 other write.
Lemma counts_incl : forall df t X Y, incl Y X -> 0 <= tp_of df t X <= tp_of df t Y /\ 0 <= fp_of df t X <= fp_of df t Y.
Proof.
  intros df t X Y I. unfold tp_of, fp_of.
  assert (M : forall i, matches_all df X i = true -> matches_all df Y i = true).
  { intros i. unfold matches_all. rewrite !forallb_forall. auto. }
  assert (A : (length (pos_rows df t X) <= length (pos_rows df t Y))%nat /\ (length (neg_rows df t X) <= length (neg_rows df t Y))%nat); [|lia].
  unfold pos_rows, neg_rows. induction (seq 0 (df_n df)) as [|i l [IH1 IH2]]; cbn [filter]; auto. specialize (M i).
  destruct (matches_all df X i); [rewrite M by auto|destruct (matches_all df Y i)]; destruct (row_matchesb df i t); cbn [andb negb length]; lia.
Qed.
Lemma candidate_counts : forall df tcol tval X, candidate df tcol X ->
  let t := Sel tcol EQUAL (VStr tval) in 1 <= tp_of df t X + fp_of df t X /\ 0 <= tp_of df t X <= TP_of df tcol tval /\ 0 <= fp_of df t X <= FP_of df tcol tval.
Proof.
  intros df tcol tval X [D C] t. destruct (counts_incl df t X []) as [A B]; [intros s []|]. split; [|split; auto].
  pose proof (pos_neg_cover df t X) as E. unfold tp_of, fp_of. lia.
Qed.
Lemma on_counts_defined : forall m tp fp TP FP, In m [PiatetskyShapiro; PSOptimisticEstimate1; PSOptimisticEstimate2; WRAcc; WRAccOptimisticEstimate1] ->
  1 <= tp + fp -> 0 <= tp <= TP -> 0 <= fp <= FP -> exists q, on_counts m tp fp TP FP = Ok q.
Proof.
  intros m tp fp TP FP Hm H1 H2 H3. unfold on_counts.
  destruct (compute_defined m (table (inject_Z tp) (inject_Z fp) (inject_Z TP) (inject_Z FP))) as [[(x & I & Z) _]|(_ & q & E & _)]; [| |eauto].
  - intros k Ik. repeat (destruct Hm as [<-|Hm]; [cbn in Ik; repeat (destruct Ik as [<-|Ik]; [discriminate|]); destruct Ik|]). destruct Hm.
  - exfalso. assert (A1 : (1 <= inject_Z tp + inject_Z fp)%Q) by (rewrite <- inject_Z_plus; change 1%Q with (inject_Z 1); rewrite <- Zle_Qle; lia).
    assert (A2 : (inject_Z tp <= inject_Z TP)%Q) by (rewrite <- Zle_Qle; lia).
    assert (A3 : (inject_Z fp <= inject_Z FP)%Q) by (rewrite <- Zle_Qle; lia).
    repeat (destruct Hm as [<-|Hm]; [cbn in I; repeat (destruct I as [<-|I]; [lra|]); destruct I|]). destruct Hm.
Qed.
(** PiatetskyShapiro with any of its estimates: for every dataset, thresholds, sort criteria
    and representation fit succeeds and finds exactly what it must find. *)
Theorem C29_piatetsky_shapiro : forall Seq impl rows, representation Seq impl rows ->
  forall oe, In PiatetskyShapiro (optimistic_estimate_of oe) -> forall qmin omin, (omin <= qmin)%Q ->
  forall s1 other df tcol tval st, categorical df -> has_column df tcol ->
  let c := vlsd_config PiatetskyShapiro oe qmin omin s1 other true in
  exists st' ls, vlsd_fit impl c st df tcol tval = Ok st' /\ vs_file st' = Some ls /\ NoDup (map (fun r => r_subgroup (vr_line r)) ls) /\
    forall l, In l (map vr_line ls) <-> exists X q, candidate df tcol X /\
      quality (on_counts PiatetskyShapiro) df tcol tval X = Ok q /\ (qmin <= q)%Q /\ l = line_of df tcol tval X q.
Proof.
  intros Seq impl rows R oe Hoe qmin omin Hq s1 other df tcol tval st Hcat Hcol c.
  destruct (proj1 (C29_errors _ _ _ R Q c df tcol tval st Hcat Hcol)) as [st' E].
  { intros X K. destruct (candidate_counts df tcol tval X K) as (A1 & A2 & A3). unfold quality. cbn [c vlsd_config vc_measure vc_oe].
    destruct (on_counts_defined PiatetskyShapiro _ _ _ _ ltac:(cbn; auto) A1 A2 A3) as [q Eq].
    destruct (on_counts_defined oe _ _ _ _ ltac:(destruct oe; cbn in Hoe |- *; intuition discriminate) A1 A2 A3) as [o Eo]. exists q, o. auto. }
  destruct (C29_sound_and_complete _ _ _ R Q c df tcol tval st st' Hcat Hcol eq_refl) as (ls & F & ND & H); auto.
  - apply (C29_bounding_estimate Q c Qle_bool qmin omin); auto.
    + intros x y z A B. apply Qle_bool_iff in A, B. apply Qle_bool_iff. lra.
    + apply Qle_bool_iff; auto.
    + intros X Y q o KX KY I Eq Eo. apply Qle_bool_iff. destruct (candidate_counts df tcol tval Y KY) as (A1 & A2 & A3).
      destruct (counts_incl df (Sel tcol EQUAL (VStr tval)) X Y I) as (B1 & B2).
      eapply (C17_ps_estimates_bound oe Hoe); try exact Eo; try exact Eq; try (repeat split; reflexivity).
      * repeat split; try (change 0%Q with (inject_Z 0)); rewrite <- Zle_Qle; [apply A2|apply A2|apply A3|apply A3].
      * split; try (change 0%Q with (inject_Z 0)); rewrite <- Zle_Qle; apply B1.
      * split; try (change 0%Q with (inject_Z 0)); rewrite <- Zle_Qle; apply B2.
  - exists st', ls. split; auto. split; auto. split; auto. intros l. rewrite H. cbn [c vlsd_config vc_measure vc_reaches].
    split; intros (X & q & K & Eq & Rq & El); exists X, q; repeat (split; auto); try apply K; apply Qle_bool_iff; auto.
Qed.
(** The same for WRAcc and its estimate. *)
Theorem C29_wracc : forall Seq impl rows, representation Seq impl rows ->
  forall oe, In WRAcc (optimistic_estimate_of oe) -> forall qmin omin, (omin <= qmin)%Q ->
  forall s1 other df tcol tval st, categorical df -> has_column df tcol ->
  let c := vlsd_config WRAcc oe qmin omin s1 other true in
  exists st' ls, vlsd_fit impl c st df tcol tval = Ok st' /\ vs_file st' = Some ls /\ NoDup (map (fun r => r_subgroup (vr_line r)) ls) /\
    forall l, In l (map vr_line ls) <-> exists X q, candidate df tcol X /\
      quality (on_counts WRAcc) df tcol tval X = Ok q /\ (qmin <= q)%Q /\ l = line_of df tcol tval X q.
Proof.
  intros Seq impl rows R oe Hoe qmin omin Hq s1 other df tcol tval st Hcat Hcol c.
  destruct (proj1 (C29_errors _ _ _ R Q c df tcol tval st Hcat Hcol)) as [st' E].
  { intros X K. destruct (candidate_counts df tcol tval X K) as (A1 & A2 & A3). unfold quality. cbn [c vlsd_config vc_measure vc_oe].
    destruct (on_counts_defined WRAcc _ _ _ _ ltac:(cbn; auto) A1 A2 A3) as [q Eq].
    destruct (on_counts_defined oe _ _ _ _ ltac:(destruct oe; cbn in Hoe |- *; intuition discriminate) A1 A2 A3) as [o Eo]. exists q, o. auto. }
  destruct (C29_sound_and_complete _ _ _ R Q c df tcol tval st st' Hcat Hcol eq_refl) as (ls & F & ND & H); auto.
  - apply (C29_bounding_estimate Q c Qle_bool qmin omin); auto.
    + intros x y z A B. apply Qle_bool_iff in A, B. apply Qle_bool_iff. lra.
    + apply Qle_bool_iff; auto.
    + intros X Y q o KX KY I Eq Eo. apply Qle_bool_iff. destruct (candidate_counts df tcol tval Y KY) as (A1 & A2 & A3).
      destruct (counts_incl df (Sel tcol EQUAL (VStr tval)) X Y I) as (B1 & B2).
      eapply (C18_wracc_estimate_bounds oe Hoe); try exact Eo; try exact Eq; try (repeat split; reflexivity); auto; [apply A2|apply A3].
  - exists st', ls. split; auto. split; auto. split; auto. intros l. rewrite H. cbn [c vlsd_config vc_measure vc_reaches].
    split; intros (X & q & K & Eq & Rq & El); exists X, q; repeat (split; auto); try apply K; apply Qle_bool_iff; auto.
Qed.
Print Assumptions C29_sound. Print Assumptions C29_sound_and_complete. Print Assumptions C29_errors. Print Assumptions C29_numeric_columns.
Print Assumptions C29_counters. Print Assumptions C29_bounding_estimate. Print Assumptions C29_piatetsky_shapiro. Print Assumptions C29_wracc.
Example C29_nonvacuous : exists st', let c := vlsd_config PiatetskyShapiro PSOptimisticEstimate2 0 0 QUALITY_DESCENDING QUALITY_ASCENDING true in
  vlsd_fit with_bitsets c vlsd_new toy "class" "p" = Ok st' /\ vs_selected st' = 3%nat /\ vl_visited st' = 7%nat /\
  option_map (map (fun r => (map s_attr (g_desc (r_subgroup (vr_line r))), vr_seq_tp r))) (vs_file st') =
    Some [(["a"], [true; true; false; false]); (["b"], [true; true; false; false]); (["a"; "b"], [true; true; false; false])].
Proof. eexists. cbn zeta. split; [vm_compute; reflexivity|]. split; [vm_compute; reflexivity|]. split; [vm_compute; reflexivity|]. vm_compute. reflexivity. Qed.
Example C29_hypotheses_nonvacuous : sound_estimate (vlsd_config PiatetskyShapiro PSOptimisticEstimate2 0 0 NO_ORDER NO_ORDER true) toy "class" "p" /\
  candidate toy "class" [Sel "a" EQUAL (VStr "x"); Sel "b" EQUAL (VStr "u")].
Proof.
  split.
  - intros X Y o KX KY I (q & Eq & Rq) Eo. cbn [vlsd_config vc_oe_reaches vc_reaches vc_measure vc_oe] in *. apply Qle_bool_iff in Rq. apply Qle_bool_iff.
    destruct (candidate_counts toy "class" "p" Y KY) as (A1 & A2 & A3). destruct (counts_incl toy (Sel "class" EQUAL (VStr "p")) X Y I) as (B1 & B2).
    unfold quality in Eo, Eq. pose proof (ps_bound (tp_of toy (Sel "class" EQUAL (VStr "p")) Y) (fp_of toy (Sel "class" EQUAL (VStr "p")) Y) (tp_of toy (Sel "class" EQUAL (VStr "p")) X) (fp_of toy (Sel "class" EQUAL (VStr "p")) X) (TP_of toy "class" "p") (FP_of toy "class" "p") o q B1 (proj1 B2) (Z.le_trans _ _ _ (proj1 A2) (proj2 A2)) (Z.le_trans _ _ _ (proj1 A3) (proj2 A3)) Eo Eq) as H.
    unfold qlt in H. apply negb_false_iff, Qle_bool_iff in H. lra.
  - split; [split; [discriminate|split; [vm_compute; repeat constructor|]]|vm_compute; lia].
    intros s [<-|[<-|[]]]; repeat split; try discriminate; eexists; reflexivity.
Qed.

(** * C30 *)
(** Sets and bitarrays, from related states: the same exception, or the same counters and the
    same lines in the same order, with sequences that denote the same rows. *)
Theorem C30_representation : forall V (c : vl_config V) st st' df tcol tval, wf_df df -> same_state st st' ->
  match vlsd_fit with_sets c st df tcol tval, vlsd_fit with_bitsets c st' df tcol tval with
  | Ok a, Ok b => same_state a b
  | Err e, Err e' => e = e'
  | _, _ => False
  end.
Proof. intros V c st st' df tcol tval Hw Hs. apply (rel_fit c st st' df tcol tval Hw Hs). Qed.
(** Any two sort criteria, any order on the values, any two representations: the same lines
    and the same number of selected subgroups, if no part of a description that reaches both
    thresholds is cut by the estimate. *)
Theorem C30_sort_criteria : forall Seq impl rows Seq' impl' rows', representation Seq impl rows -> representation Seq' impl' rows' ->
  forall V (c c' : vl_config V) df tcol tval a b, categorical df -> has_column df tcol ->
  vc_measure c' = vc_measure c -> vc_reaches c' = vc_reaches c -> vc_oe c' = vc_oe c -> vc_oe_reaches c' = vc_oe_reaches c ->
  vc_write c = true -> vc_write c' = true -> inherited_estimate c df tcol tval ->
  vlsd_fit impl c vlsd_new df tcol tval = Ok a -> vlsd_fit impl' c' vlsd_new df tcol tval = Ok b ->
  exists la lb, vs_file a = Some la /\ vs_file b = Some lb /\ Permutation (map vr_line la) (map vr_line lb) /\ vs_selected a = vs_selected b.
Proof.
  intros Seq impl rows Seq' impl' rows' R R' V c c' df tcol tval a b Hcat Hcol E1 E2 E3 E4 W W' Hi Ea Eb.
  destruct (fit_run _ _ _ R V c df tcol tval _ _ Hcat Hcol Ea) as (P & NP & HP & CP & N1 & _ & F).
  destruct (fit_run _ _ _ R' V c' df tcol tval _ _ Hcat Hcol Eb) as (P' & NP' & HP' & CP' & N1' & _ & F').
  rewrite W in F. rewrite W' in F'. destruct F as (la & Fa & FFa), F' as (lb & Fb & FFb). exists la, lb. split; auto. split; auto.
  assert (GE : forall X, good_value c' df tcol tval X = good_value c df tcol tval X) by (intros X; unfold good_value; rewrite E1, E2; reflexivity).
  assert (EE : forall X, estimate_reaches c' df tcol tval X <-> estimate_reaches c df tcol tval X) by (intros X; unfold estimate_reaches; rewrite E3, E4; tauto).
  assert (GV : forall X, good_value c df tcol tval X = true -> value_reaches c df tcol tval X).
  { intros X. unfold good_value, value_reaches. destruct (quality (vc_measure c) df tcol tval X) as [q|]; [eauto|discriminate]. }
  rewrite (filter_ext _ _ GE) in FFb. rewrite (filter_ext _ _ GE) in N1'.
  assert (PP : Permutation (filter (good_value c df tcol tval) P) (filter (good_value c df tcol tval) P')).
  { apply NoDup_Permutation; [apply NoDup_filter; auto|apply NoDup_filter; auto|]. intros X. rewrite !filter_In. split; intros [I G]; split; auto.
    - destruct (HP X I) as (K & Er & _). apply CP'; auto. intros Y o KY IY Eo. rewrite E3 in Eo. rewrite E4. apply (Hi X Y o); auto.
    - destruct (HP' X I) as (K & Er & _). apply CP; auto. intros Y o KY IY Eo. apply (Hi X Y o); auto. apply EE; auto. }
  split; [|rewrite N1, N1', (Permutation_length PP); reflexivity].
  assert (LA : forall S' (rw : S' -> nat -> Prop) (k : vl_config V) Q ls, vc_measure k = vc_measure c -> Forall2 (fun X r => exists q, quality (vc_measure k) df tcol tval X = Ok q /\ reports rw k df tcol tval X q r) Q ls ->
    map (@Ok (record V)) (map vr_line ls) = map (fun X => do q <- quality (vc_measure c) df tcol tval X; Ok (line_of df tcol tval X q)) Q).
  { intros S' rw k Q ls Em FF. induction FF as [|X r Q ls (q & Eq & (Rp & _)) FF IH]; cbn [map]; auto. rewrite IH, Rp, <- Em, Eq. reflexivity. }
  assert (PO : Permutation (map (@Ok (record V)) (map vr_line la)) (map (@Ok (record V)) (map vr_line lb))).
  { rewrite (LA _ rows c _ _ eq_refl FFa), (LA _ rows' c' _ _ E1 FFb). apply Permutation_map; auto. }
  apply (Permutation_map (fun r : res (record V) => match r with Ok x => [x] | Err _ => [] end)) in PO.
  rewrite !(map_map (@Ok (record V))) in PO.
  assert (CC : forall l : list (record V), concat (map (fun x => [x]) l) = l) by (intros l; induction l; cbn; congruence).
  rewrite <- (CC (map vr_line la)), <- (CC (map vr_line lb)). clear -PO. induction PO; cbn [concat]; auto.
  - apply Permutation_app_head; auto.
  - rewrite !app_assoc. apply Permutation_app_tail, Permutation_app_comm.
  - etransitivity; eauto.
Qed.
(** If the threshold of the estimate is inherited by all the parts of every description, the
    number of visited nodes does not depend on the sort criteria either. *)
Theorem C30_visited : forall Seq impl rows Seq' impl' rows', representation Seq impl rows -> representation Seq' impl' rows' ->
  forall V (c c' : vl_config V) df tcol tval a b, categorical df -> has_column df tcol ->
  vc_oe c' = vc_oe c -> vc_oe_reaches c' = vc_oe_reaches c ->
  (forall X Y o, candidate df tcol X -> candidate df tcol Y -> incl Y X -> estimate_reaches c df tcol tval X ->
     quality (vc_oe c) df tcol tval Y = Ok o -> vc_oe_reaches c o = true) ->
  vlsd_fit impl c vlsd_new df tcol tval = Ok a -> vlsd_fit impl' c' vlsd_new df tcol tval = Ok b -> vl_visited a = vl_visited b.
Proof.
  intros Seq impl rows Seq' impl' rows' R R' V c c' df tcol tval a b Hcat Hcol E3 E4 Hi Ea Eb.
  destruct (fit_run _ _ _ R V c df tcol tval _ _ Hcat Hcol Ea) as (P & NP & HP & CP & N1 & N2 & _).
  destruct (fit_run _ _ _ R' V c' df tcol tval _ _ Hcat Hcol Eb) as (P' & NP' & HP' & CP' & N1' & N2' & _).
  assert (EE : forall X, estimate_reaches c' df tcol tval X <-> estimate_reaches c df tcol tval X) by (intros X; unfold estimate_reaches; rewrite E3, E4; tauto).
  assert (PP : Permutation P P').
  { apply NoDup_Permutation; auto. intros X. split; intros I.
    - destruct (HP X I) as (K & Er & _). apply CP'; auto. intros Y o KY IY Eo. rewrite E3 in Eo. rewrite E4. apply (Hi X Y o); auto.
    - destruct (HP' X I) as (K & Er & _). apply CP; auto. intros Y o KY IY Eo. apply (Hi X Y o); auto. apply EE; auto. }
  assert (S1 : forall (g : list selector -> bool) l, (length (filter g l) + length (filter (fun x => negb (g x)) l) = length l)%nat).
  { intros g l. induction l as [|x l IH]; cbn [filter length]; auto. destruct (g x); cbn [negb length]; lia. }
  unfold vl_visited. cbn [vlsd_new vs_selected vs_unselected Nat.add] in N1, N2, N1', N2'. rewrite N1, N2, N1', N2', !S1. apply Permutation_length; auto.
Qed.
(** Without the condition the sort criterion changes what is found: here the four-selector
    description is found only when the lists are not sorted. *)
Definition rows4 : dataframe := DF 6
  [("a", map VStr ["1"; "1"; "1"; "1"; "1"; "0"]); ("b", map VStr ["1"; "0"; "0"; "0"; "0"; "0"]);
   ("c", map VStr ["1"; "1"; "1"; "1"; "0"; "1"]); ("d", map VStr ["1"; "1"; "0"; "0"; "1"; "1"]);
   ("class", map VStr ["p"; "n"; "p"; "p"; "p"; "p"])].
Definition all_ones : list selector := map (fun a => Sel a EQUAL (VStr "1")) ["a"; "b"; "c"; "d"].
Theorem C30_sort_criteria_counterexample : exists a b la lb, let c s := VC (fun tp fp _ _ => Ok (tp - fp)) (Z.leb 1) (fun tp fp _ _ => Ok (tp - fp)) (Z.leb 1) Z.ltb NO_ORDER s true in
  vlsd_fit with_sets (c NO_ORDER) vlsd_new rows4 "class" "p" = Ok a /\ vlsd_fit with_sets (c QUALITY_DESCENDING) vlsd_new rows4 "class" "p" = Ok b /\
  vs_file a = Some la /\ vs_file b = Some lb /\
  In all_ones (map (fun r => g_desc (r_subgroup (vr_line r))) la) /\ ~ In all_ones (map (fun r => g_desc (r_subgroup (vr_line r))) lb).
Proof.
  eexists _, _, _, _. cbn zeta. split; [vm_compute; reflexivity|]. split; [vm_compute; reflexivity|]. split; [reflexivity|]. split; [reflexivity|].
  split; vm_compute; [repeat (try (left; reflexivity); right)|]. intros H. repeat (destruct H as [H|H]; [discriminate|]). exact H.
Qed.
Print Assumptions C30_representation. Print Assumptions C30_sort_criteria. Print Assumptions C30_visited. Print Assumptions C30_sort_criteria_counterexample.
Example C30_nonvacuous : exists a b, let c s := vlsd_config PiatetskyShapiro PSOptimisticEstimate2 0 0 s s true in
  vlsd_fit with_sets (c QUALITY_ASCENDING) vlsd_new toy "class" "p" = Ok a /\ vlsd_fit with_bitsets (c QUALITY_DESCENDING) vlsd_new toy "class" "p" = Ok b /\
  vs_selected a = 3%nat /\ vs_selected b = 3%nat /\ inherited_estimate (c QUALITY_ASCENDING) toy "class" "p".
Proof.
  eexists _, _. cbn zeta. split; [vm_compute; reflexivity|]. split; [vm_compute; reflexivity|]. split; [reflexivity|]. split; [reflexivity|].
  intros X Y o KX KY I Vr _ Eo. exact (proj1 C29_hypotheses_nonvacuous X Y o KX KY I Vr Eo).
Qed.

(** * C31 *)
(** SDMap without effective support thresholds and VLSD with a sound estimate write the same
    lines. *)
Theorem C31_agreement : forall Seq impl rows, representation Seq impl rows ->
  forall V (s : sd_config V) (c : vl_config V) df tcol tval st1 st2 a b, categorical df -> distinct_keys df tcol -> has_column df tcol ->
  c_measure s = vc_measure c -> c_reaches s = vc_reaches c -> c_write s = true -> vc_write c = true ->
  (forall tp fp, 0 <= tp -> 0 <= fp -> 1 <= tp + fp -> supported (c_min_tp s) (c_min_fp s) (c_min_n s) tp fp) ->
  sound_estimate c df tcol tval -> (exists X, candidate df tcol X) ->
  sdmap_fit s st1 df tcol tval = Ok a -> vlsd_fit impl c st2 df tcol tval = Ok b ->
  exists la lb, st_file a = Some la /\ vs_file b = Some lb /\ Permutation la (map vr_line lb).
Proof.
  intros Seq impl rows R V s c df tcol tval st1 st2 a b Hcat Hquo Hcol E1 E2 W1 W2 Hsup Hs [X0 K0] Ea Eb.
  assert (FC : forall X, frequent df tcol tval (c_min_tp s) (c_min_fp s) (c_min_n s) X <-> candidate df tcol X).
  { intros X. split; [intros (D & C & _); split; auto|]. intros K. destruct (candidate_counts df tcol tval X K) as (A1 & A2 & A3). destruct K as [D C]. split; auto. split; auto.
    apply Hsup; [apply A2|apply A3|exact A1]. }
  destruct (C27_sound_and_complete V s df tcol tval st1 a Hcat Hquo Hcol W1 Ea) as (la & Fa & Na & Ha); [exists X0; apply FC; auto|].
  destruct (C29_sound_and_complete _ _ _ R V c df tcol tval st2 b Hcat Hcol W2 Hs Eb) as (lb & Fb & Nb & Hb).
  exists la, lb. split; auto. split; auto. apply NoDup_Permutation; [eapply NoDup_map_inv; eauto|rewrite <- (map_map vr_line r_subgroup) in Nb; eapply NoDup_map_inv; eauto|].
  intros l. rewrite Ha, Hb, E1, E2. split; intros (X & q & K & H); exists X, q; (split; [apply FC; auto|auto]).
Qed.
(** Both succeed when the measure and the estimate are defined wherever a row is covered. *)
Theorem C31_both_succeed : forall Seq impl rows, representation Seq impl rows ->
  forall V (s : sd_config V) (c : vl_config V) df tcol tval st0 st1 st2, categorical df -> distinct_keys df tcol -> has_column df tcol ->
  c_measure s = vc_measure c -> sdmap_new s = Ok st0 ->
  (forall X, candidate df tcol X -> exists q o, quality (vc_measure c) df tcol tval X = Ok q /\ quality (vc_oe c) df tcol tval X = Ok o) ->
  (exists a, sdmap_fit s st1 df tcol tval = Ok a) /\ (exists b, vlsd_fit impl c st2 df tcol tval = Ok b).
Proof.
  intros Seq impl rows R V s c df tcol tval st0 st1 st2 Hcat Hquo Hcol E1 Hn H. split; [|apply (C29_errors _ _ _ R V c df tcol tval st2 Hcat Hcol); auto].
  apply (C27_errors V s st0 df tcol tval st1 Hcat Hquo Hcol Hn). intros X (D & C & _). destruct (H X (conj D C)) as (q & o & Eq & _). exists q. rewrite E1. exact Eq.
Qed.
Print Assumptions C31_agreement. Print Assumptions C31_both_succeed.
Example C31_nonvacuous : exists a b, let s := SDC (on_counts PiatetskyShapiro) (Qle_bool 0) (Some 0) (Some 0) None true in
  let c := vlsd_config PiatetskyShapiro PSOptimisticEstimate2 0 0 NO_ORDER NO_ORDER true in
  sdmap_fit s (SDS 0 0 None) toy "class" "p" = Ok a /\ vlsd_fit with_sets c vlsd_new toy "class" "p" = Ok b /\ st_selected a = 3%nat /\ vs_selected b = 3%nat /\
  (forall tp fp, 0 <= tp -> 0 <= fp -> 1 <= tp + fp -> supported (c_min_tp s) (c_min_fp s) (c_min_n s) tp fp).
Proof. eexists _, _. cbn zeta. split; [vm_compute; reflexivity|]. split; [vm_compute; reflexivity|]. split; [reflexivity|]. split; [reflexivity|]. intros tp fp A B C. cbn. lia. Qed.

(** * C34 for VLSD: the second fit writes exactly the same file; the counters add up. *)
Theorem C34_vlsd_again : forall Seq (impl : vl_impl Seq) V (c : vl_config V) df tcol tval st st1,
  vlsd_fit impl c st df tcol tval = Ok st1 ->
  exists st2, vlsd_fit impl c st1 df tcol tval = Ok st2 /\ vs_file st2 = vs_file st1 /\
    (vs_selected st <= vs_selected st1)%nat /\ (vs_unselected st <= vs_unselected st1)%nat /\
    (vs_selected st2 - vs_selected st1 = vs_selected st1 - vs_selected st)%nat /\ (vs_unselected st2 - vs_unselected st1 = vs_unselected st1 - vs_unselected st)%nat.
Proof. intros Seq impl V c df tcol tval st st1. apply fit_again. Qed.
Theorem C34_vlsd_counters_counterexample : exists st1 st2, let c := vlsd_config PiatetskyShapiro PSOptimisticEstimate2 0 0 NO_ORDER NO_ORDER true in
  vlsd_fit with_sets c vlsd_new toy "class" "p" = Ok st1 /\ vlsd_fit with_sets c st1 toy "class" "p" = Ok st2 /\
  vs_selected st1 = 3%nat /\ vs_selected st2 = 6%nat /\ vl_visited st1 = 7%nat /\ vl_visited st2 = 14%nat.
Proof. eexists _, _. cbn zeta. split; [vm_compute; reflexivity|]. split; [vm_compute; reflexivity|]. repeat split; vm_compute; reflexivity. Qed.
Print Assumptions C34_vlsd_again. Print Assumptions C34_vlsd_counters_counterexample.
