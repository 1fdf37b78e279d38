(** Theorems C87: stricter parameters and further columns. *)
From Coq Require Import String.
From Verif Require Import CoreFrame SDMapProofs SDMapStarModel VerticalSpec VerticalModel VLSDModel BSDModel QualityModel MiningProofs ReorderProofs Properties_Quality Properties_SDMap Properties_SDMapStar Properties_VLSD Properties_BSD Properties_BSDBest.
From Verif Require Export MiningSpec.
From Coq Require Import Permutation Lia.
Open Scope string_scope.
Open Scope list_scope.
Open Scope nat_scope.

(** * Specification *)
(** [df'] has the rows of [df], and its columns with the same cells, and perhaps further columns. *)
Definition extends (df df' : dataframe) : Prop :=
  df_n df' = df_n df /\ forall a c, col_get (df_cols df) a = Some c -> col_get (df_cols df') a = Some c.
(** The description uses columns of [df] only. *)
Definition over (df : dataframe) (X : list selector) : Prop := forall s, In s X -> has_column df (s_attr s).
Definition lines_in {V} (st : sd_state V) : list (record V) := match st_file st with Some l => l | None => [] end.
(** The same measure; what the second configuration accepts the first one does too. *)
Definition stricter {V} (c c' : sd_config V) : Prop :=
  (forall tp fp TP FP, c_measure c' tp fp TP FP = c_measure c tp fp TP FP) /\
  (forall tp fp, supported (c_min_tp c') (c_min_fp c') (c_min_n c') tp fp -> supported (c_min_tp c) (c_min_fp c) (c_min_n c) tp fp) /\
  (forall q, c_reaches c' q = true -> c_reaches c q = true).

(** * Counts over the old columns *)
Section Extended.
  Variables (df df' : dataframe).
  Hypothesis HE : extends df df'.
  Lemma ext_row : forall i s, has_column df (s_attr s) -> row_matchesb df' i s = row_matchesb df i s.
  Proof. intros i s [c H]. unfold row_matchesb, cell. destruct HE as [_ G]. rewrite (G _ _ H), H. reflexivity. Qed.
  Lemma ext_all : forall i X, over df X -> forallb (row_matchesb df' i) X = forallb (row_matchesb df i) X.
  Proof.
    intros i X. induction X as [|s X IH]; intros H; [reflexivity|]. cbn [forallb]. rewrite IH by (intros t T; apply H; right; exact T). rewrite (ext_row i s); [reflexivity|]. apply H. left. reflexivity.
  Qed.
  Lemma ext_counts : forall t X, has_column df (s_attr t) -> over df X -> tp_of df' t X = tp_of df t X /\ fp_of df' t X = fp_of df t X /\ coverage df' X = coverage df X.
  Proof.
    intros t X Ht HX. unfold tp_of, fp_of, pos_rows, neg_rows, coverage, VerticalSpec.matches_all. destruct HE as [En _]. rewrite En.
    split; [|split]; repeat (apply f_equal); apply filter_ext; intros i; rewrite ?(ext_all i X HX), ?(ext_row i t Ht); reflexivity.
  Qed.
  Lemma ext_column : forall a, has_column df a -> has_column df' a.
  Proof. intros a [c H]. exists c. apply HE. exact H. Qed.
  Lemma ext_description : forall tcol X, description df tcol X <-> description df' tcol X /\ over df X.
  Proof.
    intros tcol X. unfold description, over. split.
    - intros (A & B & C). split; [split; [exact A|]; split; [exact B|]|]; intros s Is; destruct (C s Is) as (C1 & C2 & C3 & C4); auto. repeat (split; auto). apply ext_column. exact C4.
    - intros ((A & B & C) & O). split; [exact A|]. split; [exact B|]. intros s Is. destruct (C s Is) as (C1 & C2 & C3 & C4). repeat (split; auto).
  Qed.
  Variables (tcol tval : string).
  Hypothesis Hcol : has_column df tcol.
  Lemma ext_totals : TP_of df' tcol tval = TP_of df tcol tval /\ FP_of df' tcol tval = FP_of df tcol tval.
  Proof. unfold TP_of, FP_of. destruct (ext_counts (Sel tcol EQUAL (VStr tval)) []) as (-> & -> & _); auto. intros s []. Qed.
  Lemma ext_quality : forall V (m : Z -> Z -> Z -> Z -> res V) X, over df X -> quality m df' tcol tval X = quality m df tcol tval X.
  Proof. intros V m X H. unfold quality. destruct (ext_counts (Sel tcol EQUAL (VStr tval)) X) as (-> & -> & _); auto. destruct ext_totals as [-> ->]. reflexivity. Qed.
  Lemma ext_line : forall V X (q : V), over df X -> line_of df' tcol tval X q = line_of df tcol tval X q.
  Proof. intros V X q H. unfold line_of. destruct (ext_counts (Sel tcol EQUAL (VStr tval)) X) as (-> & -> & _); auto. destruct ext_totals as [-> ->]. reflexivity. Qed.
  Lemma ext_frequent : forall a b n X, frequent df tcol tval a b n X <-> frequent df' tcol tval a b n X /\ over df X.
  Proof.
    intros a b n X. unfold frequent. split.
    - intros (D & C & S). apply ext_description in D. destruct D as [D O]. destruct (ext_counts (Sel tcol EQUAL (VStr tval)) X) as (E1 & E2 & E3); auto. rewrite E1, E2, E3. auto.
    - intros ((D & C & S) & O). destruct (ext_counts (Sel tcol EQUAL (VStr tval)) X) as (E1 & E2 & E3); auto. rewrite E1, E2, E3 in *. split; [apply ext_description; auto|]. auto.
  Qed.
  Lemma ext_candidate : forall X, candidate df tcol X <-> candidate df' tcol X /\ over df X.
  Proof.
    intros X. unfold candidate. split.
    - intros (D & C). apply ext_description in D. destruct D as [D O]. destruct (ext_counts (Sel tcol EQUAL (VStr tval)) X) as (_ & _ & E); auto. rewrite E. auto.
    - intros ((D & C) & O). destruct (ext_counts (Sel tcol EQUAL (VStr tval)) X) as (_ & _ & E); auto. rewrite E in *. split; [apply ext_description; auto|]. auto.
  Qed.
End Extended.

(** * SDMap *)
Lemma sdmap_lines : forall V (c : sd_config V) st0 df tcol tval st, categorical df -> distinct_keys df tcol -> has_column df tcol -> c_write c = true ->
  sdmap_new c = Ok st0 -> sdmap_fit c st0 df tcol tval = Ok st ->
  NoDup (map r_subgroup (lines_in st)) /\
  forall r, In r (lines_in st) <-> exists X q, frequent df tcol tval (c_min_tp c) (c_min_fp c) (c_min_n c) X /\
    quality (c_measure c) df tcol tval X = Ok q /\ c_reaches c q = true /\ r = line_of df tcol tval X q.
Proof.
  intros V c st0 df tcol tval st H1 H2 H3 W N E. destruct (C28_counters V c st0 df tcol tval st H1 H2 H3 N E) as (all & good & _ & HA & _).
  destruct all as [|X all].
  - rewrite (C27_nothing_frequent V c st0 df tcol tval st0 H1 H2 H3 N) in E by (intros X HX; apply HA in HX; destruct HX). injection E as <-.
    unfold sdmap_new in N. destruct (thresholds _ _ _); [|discriminate]. injection N as <-. split; [constructor|]. intros r. split; [intros []|]. intros (X & q & HX & _). apply HA in HX. destruct HX.
  - destruct (C27_sound_and_complete V c df tcol tval st0 st H1 H2 H3 W E) as (ls & F & ND & L); [exists X; apply HA; left; reflexivity|]. unfold lines_in. rewrite F. split; [exact ND|exact L].
Qed.
(** Stricter minimum supports and a stricter quality threshold filter the report: the lines are exactly those of the looser run that meet
    them.  A run that succeeds also succeeds with stricter parameters. *)
Theorem C87_sdmap_thresholds : forall V (c c' : sd_config V) s0 s0' df tcol tval a, categorical df -> distinct_keys df tcol -> has_column df tcol ->
  c_write c = true -> c_write c' = true -> stricter c c' -> sdmap_new c = Ok s0 -> sdmap_new c' = Ok s0' ->
  sdmap_fit c s0 df tcol tval = Ok a ->
  exists b, sdmap_fit c' s0' df tcol tval = Ok b /\
    (forall r, In r (lines_in b) <-> In r (lines_in a) /\ supported (c_min_tp c') (c_min_fp c') (c_min_n c') (r_tp r) (r_fp r) /\ c_reaches c' (r_quality r) = true) /\
    st_selected b <= st_selected a /\ visited_nodes b <= visited_nodes a.
Proof.
  intros V c c' s0 s0' df tcol tval a H1 H2 H3 W W' (Sm & Ss & Sr) N N' E.
  assert (Q : forall X, quality (c_measure c') df tcol tval X = quality (c_measure c) df tcol tval X) by (intros X; unfold quality; apply Sm).
  assert (F : forall X, frequent df tcol tval (c_min_tp c') (c_min_fp c') (c_min_n c') X -> frequent df tcol tval (c_min_tp c) (c_min_fp c) (c_min_n c) X).
  { intros X (D & C & S). split; [exact D|]. split; [exact C|]. apply Ss. exact S. }
  destruct (proj2 (proj1 (C27_errors V c' s0' df tcol tval s0' H1 H2 H3 N'))) as [b Eb].
  { intros X HX. rewrite Q. apply (proj1 (proj1 (C27_errors V c s0 df tcol tval s0 H1 H2 H3 N)) (ex_intro _ a E)). apply F. exact HX. }
  exists b. split; [exact Eb|]. destruct (sdmap_lines V c s0 df tcol tval a H1 H2 H3 W N E) as [_ La]. destruct (sdmap_lines V c' s0' df tcol tval b H1 H2 H3 W' N' Eb) as [_ Lb].
  split; [|].
  - intros r. rewrite La, Lb. split.
    + intros (X & q & HX & Eq & R & ->). rewrite Q in Eq. split; [exists X, q; auto|]. split; [apply HX|exact R].
    + intros ((X & q & (D & C & S) & Eq & R & ->) & S' & R'). exists X, q. rewrite Q. split; [split; [exact D|]; split; [exact C|exact S']|]. auto.
  - destruct (C28_counters V c s0 df tcol tval a H1 H2 H3 N E) as (al & go & Na & HA & Ng & HG & -> & -> & _).
    destruct (C28_counters V c' s0' df tcol tval b H1 H2 H3 N' Eb) as (al' & go' & Na' & HA' & Ng' & HG' & -> & -> & _).
    split; apply NoDup_incl_length; auto; intros X HX.
    + apply HG' in HX. destruct HX as (HX & q & Eq & R). apply HG. rewrite Q in Eq. split; [apply HA, F, HA'; exact HX|]. exists q. auto.
    + apply HA, F, HA'. exact HX.
Qed.
(** Further columns only add lines: the lines of the old dataset are those of the new one over the old columns.  A run that succeeds on the
    dataset with more columns succeeds without them. *)
Theorem C87_sdmap_columns : forall V (c : sd_config V) s0 df df' tcol tval b, categorical df -> categorical df' -> distinct_keys df' tcol -> has_column df tcol ->
  c_write c = true -> extends df df' -> sdmap_new c = Ok s0 -> sdmap_fit c s0 df' tcol tval = Ok b ->
  exists a, sdmap_fit c s0 df tcol tval = Ok a /\
    (forall r, In r (lines_in a) <-> In r (lines_in b) /\ over df (g_desc (r_subgroup r))) /\
    st_selected a <= st_selected b /\ visited_nodes a <= visited_nodes b.
Proof.
  intros V c s0 df df' tcol tval b H1 H1' H2' H3 W HE N E. pose proof (ext_column df df' HE tcol H3) as H3'.
  assert (H2 : distinct_keys df tcol).
  { assert (G : forall a0 c0, In (a0, c0) (df_cols df) -> In (a0, c0) (df_cols df')).
    { intros a0 c0 I. assert (G : col_get (df_cols df) a0 = Some c0).
      { destruct H1 as (_ & ND & _). revert I ND. generalize (df_cols df) as cols. induction cols as [|[d e] cols IH]; intros I ND; [destruct I|]. cbn [map fst] in ND. apply NoDup_cons_iff in ND. destruct ND as [NI ND]. cbn [col_get]. destruct I as [I|I].
        - injection I as -> ->. rewrite String.eqb_refl. reflexivity.
        - destruct (String.eqb a0 d) eqn:X; [|auto]. apply String.eqb_eq in X. subst. exfalso. apply NI. apply in_map_iff. exists (d, c0). auto. }
      apply HE in G. revert G. generalize (df_cols df') as cols. induction cols as [|[d e] cols IH]; cbn [col_get]; [discriminate|]. destruct (String.eqb a0 d) eqn:X; [|right; auto].
      apply String.eqb_eq in X. intros G. injection G as ->. left. congruence. }
    intros a0 col v b0 col' w I J Na Nb Iv Iw. exact (H2' a0 col v b0 col' w (G _ _ I) (G _ _ J) Na Nb Iv Iw). }
  destruct (proj2 (proj1 (C27_errors V c s0 df tcol tval s0 H1 H2 H3 N))) as [a Ea].
  { intros X HX. apply (ext_frequent df df' HE tcol tval H3) in HX. destruct HX as [HX O]. rewrite <- (ext_quality df df' HE tcol tval H3 V _ X O).
    exact (proj1 (proj1 (C27_errors V c s0 df' tcol tval s0 H1' H2' H3' N)) (ex_intro _ b E) X HX). }
  exists a. split; [exact Ea|]. destruct (sdmap_lines V c s0 df tcol tval a H1 H2 H3 W N Ea) as [_ La]. destruct (sdmap_lines V c s0 df' tcol tval b H1' H2' H3' W N E) as [_ Lb]. split.
  - intros r. rewrite La, Lb. split.
    + intros (X & q & HX & Eq & R & ->). apply (ext_frequent df df' HE tcol tval H3) in HX. destruct HX as [HX O]. split; [|exact O]. exists X, q. rewrite (ext_quality df df' HE tcol tval H3 V _ X O).
      rewrite (ext_line df df' HE tcol tval H3 V X q O). auto.
    + intros ((X & q & HX & Eq & R & ->) & O). cbn [line_of r_subgroup g_desc] in O. exists X, q. rewrite <- (ext_quality df df' HE tcol tval H3 V _ X O).
      rewrite (ext_line df df' HE tcol tval H3 V X q O). split; [apply (ext_frequent df df' HE tcol tval H3); auto|]. auto.
  - destruct (C28_counters V c s0 df tcol tval a H1 H2 H3 N Ea) as (al & go & Na & HA & Ng & HG & -> & -> & _).
    destruct (C28_counters V c s0 df' tcol tval b H1' H2' H3' N E) as (al' & go' & Na' & HA' & Ng' & HG' & -> & -> & _).
    split; apply NoDup_incl_length; auto; intros X HX.
    + apply HG in HX. destruct HX as (HX & q & Eq & R). apply HA in HX. apply (ext_frequent df df' HE tcol tval H3) in HX. destruct HX as [HX O]. apply HG'. split; [apply HA'; exact HX|]. exists q. rewrite (ext_quality df df' HE tcol tval H3 V _ X O). auto.
    + apply HA in HX. apply (ext_frequent df df' HE tcol tval H3) in HX. apply HA'. apply HX.
Qed.
Print Assumptions C87_sdmap_thresholds. Print Assumptions C87_sdmap_columns.

(** * SDMapStar without limit *)
Lemma star_plain : forall V (c : star_config V) s0 df tcol tval, categorical df -> distinct_keys df tcol -> has_column df tcol -> star_new c = Ok s0 -> sc_num c = 0%Z ->
  sdmap_new (sc_base c) = Ok (ss_base s0) /\
  (forall a, star_fit c s0 df tcol tval = Ok a -> exists a0, sdmap_fit (sc_base c) (ss_base s0) df tcol tval = Ok a0 /\
    (forall r, In r (lines_in (ss_base a)) <-> In r (lines_in a0)) /\ st_selected (ss_base a) = st_selected a0 /\ visited_nodes (ss_base a) = visited_nodes a0) /\
  (forall a0, sdmap_fit (sc_base c) (ss_base s0) df tcol tval = Ok a0 -> exists a, star_fit c s0 df tcol tval = Ok a).
Proof.
  intros V c s0 df tcol tval H1 H2 H3 N Z0. pose proof (C32_same_results V c s0 df tcol tval s0 H1 H2 H3 N Z0) as S. split; [|split].
  - unfold star_new in N. destruct (sdmap_new (sc_base c)) as [s|]; cbn [bind] in N; [|discriminate]. injection N as <-. reflexivity.
  - intros a E. rewrite E in S. destruct (sdmap_fit (sc_base c) (ss_base s0) df tcol tval) as [a0|]; [|destruct S]. destruct S as (S1 & S2 & S3 & _). exists a0. split; [reflexivity|]. split; [|split].
    + intros r. unfold lines_in. destruct (st_file a0) as [la|], (st_file (ss_base a)) as [lb|]; try contradiction; [|tauto]. split; apply Permutation_in; [symmetry|]; exact S3.
    + exact S1.
    + unfold visited_nodes. rewrite S1, S2. reflexivity.
  - intros a0 E. rewrite E in S. destruct (star_fit c s0 df tcol tval) as [a|]; [exists a; reflexivity|destruct S].
Qed.
Theorem C87_sdmapstar_thresholds : forall V (c c' : star_config V) s0 s0' df tcol tval a, categorical df -> distinct_keys df tcol -> has_column df tcol ->
  sc_num c = 0%Z -> sc_num c' = 0%Z -> c_write (sc_base c) = true -> c_write (sc_base c') = true -> stricter (sc_base c) (sc_base c') ->
  star_new c = Ok s0 -> star_new c' = Ok s0' -> star_fit c s0 df tcol tval = Ok a ->
  exists b, star_fit c' s0' df tcol tval = Ok b /\
    (forall r, In r (lines_in (ss_base b)) <-> In r (lines_in (ss_base a)) /\
       supported (c_min_tp (sc_base c')) (c_min_fp (sc_base c')) (c_min_n (sc_base c')) (r_tp r) (r_fp r) /\ c_reaches (sc_base c') (r_quality r) = true) /\
    st_selected (ss_base b) <= st_selected (ss_base a) /\ visited_nodes (ss_base b) <= visited_nodes (ss_base a).
Proof.
  intros V c c' s0 s0' df tcol tval a H1 H2 H3 Z0 Z0' W W' S N N' E.
  destruct (star_plain V c s0 df tcol tval H1 H2 H3 N Z0) as (M & A & _). destruct (star_plain V c' s0' df tcol tval H1 H2 H3 N' Z0') as (M' & A' & B').
  destruct (A a E) as (a0 & Ea & La & Sa & Va). destruct (C87_sdmap_thresholds V _ _ _ _ df tcol tval a0 H1 H2 H3 W W' S M M' Ea) as (b0 & Eb & L & S1 & S2).
  destruct (B' b0 Eb) as [b Fb]. exists b. split; [exact Fb|]. destruct (A' b Fb) as (b1 & Eb1 & Lb & Sb & Vb). rewrite Eb in Eb1. injection Eb1 as <-. split.
  - intros r. rewrite La, Lb. apply L.
  - rewrite Sa, Sb, Va, Vb. auto.
Qed.
Theorem C87_sdmapstar_columns : forall V (c : star_config V) s0 df df' tcol tval b, categorical df -> categorical df' -> distinct_keys df tcol -> distinct_keys df' tcol -> has_column df tcol ->
  sc_num c = 0%Z -> c_write (sc_base c) = true -> extends df df' -> star_new c = Ok s0 -> star_fit c s0 df' tcol tval = Ok b ->
  exists a, star_fit c s0 df tcol tval = Ok a /\
    (forall r, In r (lines_in (ss_base a)) <-> In r (lines_in (ss_base b)) /\ over df (g_desc (r_subgroup r))) /\
    st_selected (ss_base a) <= st_selected (ss_base b) /\ visited_nodes (ss_base a) <= visited_nodes (ss_base b).
Proof.
  intros V c s0 df df' tcol tval b H1 H1' H2 H2' H3 Z0 W HE N E. pose proof (ext_column df df' HE tcol H3) as H3'.
  destruct (star_plain V c s0 df' tcol tval H1' H2' H3' N Z0) as (M & B & _). destruct (star_plain V c s0 df tcol tval H1 H2 H3 N Z0) as (_ & A & A').
  destruct (B b E) as (b0 & Eb & Lb & Sb & Vb). destruct (C87_sdmap_columns V _ _ df df' tcol tval b0 H1 H1' H2' H3 W HE M Eb) as (a0 & Ea & L & S1 & S2).
  destruct (A' a0 Ea) as [a Fa]. exists a. split; [exact Fa|]. destruct (A a Fa) as (a1 & Ea1 & La & Sa & Va). rewrite Ea in Ea1. injection Ea1 as <-. split.
  - intros r. rewrite La, Lb. apply L.
  - rewrite Sa, Sb, Va, Vb. auto.
Qed.
Print Assumptions C87_sdmapstar_thresholds. Print Assumptions C87_sdmapstar_columns.

(** * VLSD, in any representation *)
Theorem C87_vlsd_thresholds : forall Seq impl rows Seq' impl' rows', representation Seq impl rows -> representation Seq' impl' rows' ->
  forall V (c c' : vl_config V) df tcol tval a b, categorical df -> has_column df tcol -> vc_write c = true -> vc_write c' = true ->
  (forall tp fp TP FP, vc_measure c' tp fp TP FP = vc_measure c tp fp TP FP) -> (forall q, vc_reaches c' q = true -> vc_reaches c q = true) ->
  sound_estimate c df tcol tval -> sound_estimate c' df tcol tval ->
  vlsd_fit impl c vlsd_new df tcol tval = Ok a -> vlsd_fit impl' c' vlsd_new df tcol tval = Ok b ->
  exists la lb, vs_file a = Some la /\ vs_file b = Some lb /\
    forall l, In l (map vr_line lb) <-> In l (map vr_line la) /\ vc_reaches c' (r_quality l) = true.
Proof.
  intros Seq impl rows Seq' impl' rows' R R' V c c' df tcol tval a b H1 H3 W W' Sm Sr Se Se' Ea Eb.
  destruct (C29_sound_and_complete _ _ _ R V c df tcol tval _ a H1 H3 W Se Ea) as (la & Fa & _ & La).
  destruct (C29_sound_and_complete _ _ _ R' V c' df tcol tval _ b H1 H3 W' Se' Eb) as (lb & Fb & _ & Lb).
  exists la, lb. split; [exact Fa|]. split; [exact Fb|]. intros l. rewrite La, Lb.
  assert (Q : forall X, quality (vc_measure c') df tcol tval X = quality (vc_measure c) df tcol tval X) by (intros X; unfold quality; apply Sm). split.
  - intros (X & q & K & E & Rq & ->). rewrite Q in E. split; [exists X, q; auto|exact Rq].
  - intros ((X & q & K & E & Rq & ->) & Rq'). exists X, q. rewrite Q. auto.
Qed.
Theorem C87_vlsd_columns : forall Seq impl rows Seq' impl' rows', representation Seq impl rows -> representation Seq' impl' rows' ->
  forall V (c : vl_config V) df df' tcol tval a b, categorical df -> categorical df' -> has_column df tcol -> extends df df' -> vc_write c = true ->
  sound_estimate c df' tcol tval ->
  vlsd_fit impl c vlsd_new df tcol tval = Ok a -> vlsd_fit impl' c vlsd_new df' tcol tval = Ok b ->
  exists la lb, vs_file a = Some la /\ vs_file b = Some lb /\
    forall l, In l (map vr_line la) <-> In l (map vr_line lb) /\ over df (g_desc (r_subgroup l)).
Proof.
  intros Seq impl rows Seq' impl' rows' R R' V c df df' tcol tval a b H1 H1' H3 HE W Se Ea Eb. pose proof (ext_column df df' HE tcol H3) as H3'.
  assert (K : forall X, candidate df tcol X -> candidate df' tcol X /\ over df X) by (intros X; apply (ext_candidate df df' HE tcol tval H3)).
  assert (Q : forall (m : Z -> Z -> Z -> Z -> res V) X, over df X -> quality m df' tcol tval X = quality m df tcol tval X) by (intros m X; apply (ext_quality df df' HE tcol tval H3)).
  assert (Se0 : sound_estimate c df tcol tval).
  { intros X Y o KX KY I (q & Eq & Rq) Eo. destruct (K X KX) as [KX' OX], (K Y KY) as [KY' OY]. apply (Se X Y o KX' KY' I); [exists q; rewrite (Q _ X OX); auto|rewrite (Q _ Y OY); exact Eo]. }
  destruct (C29_sound_and_complete _ _ _ R V c df tcol tval _ a H1 H3 W Se0 Ea) as (la & Fa & _ & La).
  destruct (C29_sound_and_complete _ _ _ R' V c df' tcol tval _ b H1' H3' W Se Eb) as (lb & Fb & _ & Lb).
  exists la, lb. split; [exact Fa|]. split; [exact Fb|]. intros l. rewrite La, Lb. split.
  - intros (X & q & KX & E & Rq & ->). destruct (K X KX) as [KX' O]. split; [|exact O]. exists X, q. rewrite (Q _ X O), (ext_line df df' HE tcol tval H3 V X q O). auto.
  - intros ((X & q & KX & E & Rq & ->) & O). cbn [line_of r_subgroup g_desc] in O. exists X, q. rewrite (Q _ X O) in E. rewrite (ext_line df df' HE tcol tval H3 V X q O).
    split; [apply (ext_candidate df df' HE tcol tval H3); auto|]. auto.
Qed.
Print Assumptions C87_vlsd_thresholds. Print Assumptions C87_vlsd_columns.

(** * BSD, CBSD and CPBSD with WRAcc: the best quality *)
(** More columns, a lower minimum support, a larger depth, another length of the list or another of the three algorithms: the best quality
    does not get worse. *)
Theorem C87_bsd_best : forall cl cl' ms ms' num num' depth depth' df df' tcol tval st st' e, categorical df -> categorical df' -> distinct_texts df tcol -> distinct_texts df' tcol ->
  has_column df tcol -> (1 <= num)%Z -> (1 <= num')%Z -> extends df df' -> (ms' <= ms)%Z -> (depth <= depth')%Z ->
  let c := wracc_config cl ms num depth in let c' := wracc_config cl' ms' num' depth' in
  bsd_fit c (bsd_new c) df tcol tval = Ok st -> bsd_fit c' (bsd_new c') df' tcol tval = Ok st' ->
  In e (bs_k st) -> e <> dummy_entry c -> exists e', In e' (bs_k st') /\ true_entry c' df' tcol tval e' /\ (e_quality e <= e_quality e')%Q.
Proof.
  intros cl cl' ms ms' num num' depth depth' df df' tcol tval st st' e H1 H1' H2 H2' H3 Hn Hn' HE Lm Ld c c' Ea Eb Ie Nd. pose proof (ext_column df df' HE tcol H3) as H3'.
  pose proof (wracc_input cl ms num depth df tcol tval H1 H2 H3 Hn) as HB. fold c in HB.
  assert (T : true_entry c df tcol tval e).
  { destruct (C35_best_list c df tcol tval st (bs_k st) HB Ea (or_introl eq_refl)) as [E|(_ & _ & _ & F)].
    - rewrite E in Ie. destruct Ie as [Ie|[]]. congruence.
    - rewrite Forall_forall in F. auto. }
  destruct T as (K & _ & _ & _ & Q & _). assert (K' := K). apply (ext_candidate df df' HE tcol tval H3) in K'. destruct K' as [K' O].
  apply (C56_best_wracc cl' ms' num' depth' df' tcol tval st' (e_pattern e) (e_quality e) H1' H2' H3' Hn' Eb); [|rewrite (ext_quality df df' HE tcol tval H3 _ _ _ O); exact Q].
  split; [exact K'|]. split.
  - intros s Is. assert (Os : over df [s]) by (intros x [<-|[]]; apply O; exact Is).
    rewrite (proj1 (ext_counts df df' HE (Sel tcol EQUAL (VStr tval)) [s] H3 Os)).
    pose proof (C55_selectors c df tcol tval st (bs_k st) e s HB Ea (or_introl eq_refl) Ie Is) as M. unfold c, c' in *. cbn [wracc_config bc_min_support] in *. lia.
  - pose proof (proj2 (C36_depth c df tcol tval st HB Ea) e Ie) as D. unfold c, c' in *. cbn [wracc_config bc_max_depth] in *. lia.
Qed.
Print Assumptions C87_bsd_best.

(** The list itself is not monotone: with a larger depth BSD drops two subgroups that it reports with depth 0, although the list (of at
    most 3) is not full in either run: a longer description makes them irrelevant. *)
Theorem C87_bsd_list_refuted : exists df, let c d := wracc_config BSD 1 3 d in bsd_input (c 0%Z) df "class" "p" /\ bsd_input (c 1%Z) df "class" "p" /\
  brief (bsd_fit (c 0%Z) (bsd_new (c 0%Z)) df "class" "p") = Ok [([is "a" "x"], 2%Z, 1%Z); ([is "c" "y"], 2%Z, 1%Z)] /\
  brief (bsd_fit (c 1%Z) (bsd_new (c 1%Z)) df "class" "p") = Ok [([is "a" "x"; is "c" "y"], 2%Z, 0%Z)].
Proof.
  exists (rows3 rows_b). cbn zeta. destruct (rows3_ok rows_b) as (H1 & H2 & H3). split; [|split].
  1,2: apply wracc_input; auto; [|lia]; apply no_quotes_texts; [exact H1|apply rows3_no_quotes].
  split; vm_compute; reflexivity.
Qed.
Print Assumptions C87_bsd_list_refuted.

(** * Concrete cases *)
Definition toy_wide : dataframe := DF (df_n toy) (("d", [VStr "k"; VStr "l"; VStr "k"; VStr "k"]) :: df_cols toy).
Lemma toy_wide_ok : categorical toy_wide /\ distinct_keys toy_wide "class" /\ extends toy toy_wide.
Proof.
  assert (C : categorical toy_wide).
  { split; [|split].
    - intros a c H. cbn in H. destruct H as [H|[H|[H|[H|[]]]]]; injection H as <- <-; reflexivity.
    - repeat constructor; cbn; intuition discriminate.
    - intros a c v H I. cbn in H. destruct H as [H|[H|[H|[H|[]]]]]; injection H as <- <-; cbn in I; repeat (destruct I as [<-|I]; [reflexivity|]); destruct I. }
  split; [exact C|]. split.
  - apply no_quotes_keys; [exact C|]. intros a c H. cbn in H. destruct H as [H|[H|[H|[H|[]]]]]; injection H as <- <-; split; reflexivity.
  - split; [reflexivity|]. intros a c H. unfold toy_wide. cbn [df_cols col_get]. destruct (String.eqb a "d") eqn:E; [|exact H]. apply String.eqb_eq in E. subst. discriminate H.
Qed.
Definition toy_strict : sd_config Z := SDC (fun tp fp _ _ => Ok (tp - fp)%Z) (fun q => (2 <=? q)%Z) (Some 1%Z) (Some 0%Z) None true.
(** Another kind of support, on tp and fp, is stricter than n >= 1 here. *)
Lemma toy_stricter : stricter toy_config toy_strict.
Proof.
  split; [reflexivity|]. split.
  - intros tp fp H. cbn in *. lia.
  - intros q H. cbn in *. apply Z.leb_le in H. apply Z.leb_le. lia.
Qed.
Example C87_nonvacuous : exists a b d, sdmap_fit toy_config (SDS 0 0 None) toy "class" "p" = Ok a /\ length (lines_in a) = 3 /\
  sdmap_fit toy_strict (SDS 0 0 None) toy "class" "p" = Ok b /\ length (lines_in b) = 1 /\
  sdmap_fit toy_config (SDS 0 0 None) toy_wide "class" "p" = Ok d /\ length (lines_in d) = 8 /\
  sdmap_new toy_config = Ok (SDS 0 0 None) /\ sdmap_new toy_strict = Ok (SDS 0 0 None).
Proof. eexists _, _, _. split; [vm_compute; reflexivity|]. split; [reflexivity|]. split; [vm_compute; reflexivity|]. split; [reflexivity|]. split; [vm_compute; reflexivity|]. split; [reflexivity|]. split; reflexivity. Qed.
