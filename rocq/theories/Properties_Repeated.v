(** Theorems C90: every row repeated. *)
From Coq Require Import String.
From Verif Require Import CoreFrame FPTreeProofs SDMapProofs SDMapStarModel VerticalSpec VerticalModel VLSDModel BSDModel QualityModel MiningProofs Properties_Quality Properties_SDMap Properties_SDMapStar Properties_VLSD Properties_BSD Properties_BSDBest.
From Verif Require Export Properties_Columns.
From Coq Require Import Permutation Lia Setoid QArith.
Open Scope string_scope.
Open Scope list_scope.
Open Scope nat_scope.

(** * Specification *)
(** The dataset [k] times over. *)
Definition repeat_rows (k : nat) (df : dataframe) : dataframe :=
  DF (k * df_n df) (map (fun c => (fst c, concat (repeat (snd c) k))) (df_cols df)).
(** [c'] asks of [k] times the counts what [c] asks of the counts: the minimum supports are multiplied, and the measures agree (up to [E],
    on which the quality threshold does not depend). *)
Definition scaled {V} (E : V -> V -> Prop) (k : nat) (c c' : sd_config V) : Prop :=
  (forall tp fp, (0 <= tp)%Z -> (0 <= fp)%Z ->
     (supported (c_min_tp c') (c_min_fp c') (c_min_n c') (Z.of_nat k * tp) (Z.of_nat k * fp) <-> supported (c_min_tp c) (c_min_fp c) (c_min_n c) tp fp)) /\
  (forall tp fp TP FP, (0 <= tp <= TP)%Z -> (0 <= fp <= FP)%Z ->
     match c_measure c tp fp TP FP, c_measure c' (Z.of_nat k * tp) (Z.of_nat k * fp) (Z.of_nat k * TP) (Z.of_nat k * FP) with
     | Ok q, Ok q' => E q q' | Err _, Err _ => True | _, _ => False end) /\
  (forall q q', E q q' -> c_reaches c' q' = c_reaches c q).
(** The same description with [k] times the counts. *)
Definition multiplied {V} (E : V -> V -> Prop) (k : nat) (r r' : record V) : Prop :=
  r_subgroup r' = r_subgroup r /\ E (r_quality r) (r_quality r') /\
  r_tp r' = (Z.of_nat k * r_tp r)%Z /\ r_fp r' = (Z.of_nat k * r_fp r)%Z /\ r_TP r' = (Z.of_nat k * r_TP r)%Z /\ r_FP r' = (Z.of_nat k * r_FP r)%Z.

Lemma seq_from : forall m n, seq n m = map (Nat.add n) (seq 0 m).
Proof. induction m as [|m IH]; intros n; [reflexivity|]. rewrite !seq_S, map_app, IH. cbn [map Nat.add]. rewrite <- IH. reflexivity. Qed.
Lemma filter_map_count : forall A B (f : A -> B) p l, length (filter p (map f l)) = length (filter (fun x => p (f x)) l).
Proof. intros A B f p l. induction l as [|x l IH]; [reflexivity|]. cbn [map filter]. destruct (p (f x)); cbn [length]; congruence. Qed.
Lemma count_repeated : forall n (q : nat -> bool) k p, (forall j i, j < k -> i < n -> p (j * n + i) = q i) -> length (filter p (seq 0 (k * n))) = k * length (filter q (seq 0 n)).
Proof.
  intros n q k. induction k as [|k IH]; intros p H; [reflexivity|]. change (S k * n) with (n + k * n). rewrite seq_app, filter_app, app_length. cbn [Nat.add].
  rewrite (seq_from (k * n) n), filter_map_count, (IH (fun x => p (n + x))).
  - replace (filter p (seq 0 n)) with (filter q (seq 0 n)); [lia|]. apply filter_ext_in. intros i I. apply in_seq in I. symmetry. apply (H 0 i); lia.
  - intros j i Hj Hi. replace (n + (j * n + i)) with (S j * n + i) by lia. apply H; lia.
Qed.
Lemma nth_repeated : forall A (l : list A) k j i, j < k -> i < length l -> nth_error (concat (repeat l k)) (j * length l + i) = nth_error l i.
Proof.
  intros A l k. induction k as [|k IH]; intros j i Hj Hi; [lia|]. cbn [repeat concat]. destruct j as [|j].
  - cbn [Nat.mul Nat.add]. apply nth_error_app1. exact Hi.
  - rewrite nth_error_app2 by lia. rewrite <- (IH j i) by lia. f_equal. lia.
Qed.

Section Repeated.
  Variables (k : nat) (df : dataframe) (tcol tval : string).
  Hypotheses (Hk : 1 <= k) (Hcat : categorical df).
  Let df' := repeat_rows k df.
  Let t := Sel tcol EQUAL (VStr tval).
  Lemma repeat_get : forall a, col_get (df_cols df') a = option_map (fun c => concat (repeat c k)) (col_get (df_cols df) a).
  Proof.
    intros a. unfold df', repeat_rows. cbn [df_cols]. induction (df_cols df) as [|[b c] cols IH]; [reflexivity|]. cbn [map col_get fst snd]. destruct (String.eqb a b); [reflexivity|exact IH].
  Qed.
  Lemma repeat_column : forall a, has_column df' a <-> has_column df a.
  Proof. intros a. unfold has_column. rewrite repeat_get. destruct (col_get (df_cols df) a) as [c|]; cbn [option_map]; split; intros [x H]; try discriminate; eexists; reflexivity. Qed.
  Lemma repeat_cell : forall a j i, j < k -> i < df_n df -> cell df' (j * df_n df + i) a = cell df i a.
  Proof.
    intros a j i Hj Hi. unfold cell. rewrite repeat_get. destruct (col_get (df_cols df) a) as [c|] eqn:G; [|reflexivity]. cbn [option_map].
    assert (L : length c = df_n df). { apply MiningProofs.col_get_in in G; [|apply Hcat]. apply (proj1 Hcat a c G). }
    rewrite <- L in *. apply nth_repeated; auto.
  Qed.
  Lemma repeat_row : forall s j i, j < k -> i < df_n df -> row_matchesb df' (j * df_n df + i) s = row_matchesb df i s.
  Proof. intros s j i Hj Hi. unfold row_matchesb. rewrite (repeat_cell _ j i Hj Hi). reflexivity. Qed.
  Lemma repeat_all : forall X j i, j < k -> i < df_n df -> forallb (row_matchesb df' (j * df_n df + i)) X = forallb (row_matchesb df i) X.
  Proof. intros X j i Hj Hi. induction X as [|s X IH]; [reflexivity|]. cbn [forallb]. rewrite (repeat_row s j i Hj Hi), IH. reflexivity. Qed.
  Lemma repeat_counts : forall X, tp_of df' t X = (Z.of_nat k * tp_of df t X)%Z /\ fp_of df' t X = (Z.of_nat k * fp_of df t X)%Z /\ coverage df' X = k * coverage df X.
  Proof.
    intros X. unfold tp_of, fp_of, pos_rows, neg_rows, coverage, VerticalSpec.matches_all. change (df_n df') with (k * df_n df).
    split; [|split].
    - rewrite <- Nat2Z.inj_mul. f_equal. apply count_repeated. intros j i Hj Hi. rewrite (repeat_row t j i Hj Hi), (repeat_all X j i Hj Hi). reflexivity.
    - rewrite <- Nat2Z.inj_mul. f_equal. apply count_repeated. intros j i Hj Hi. rewrite (repeat_row t j i Hj Hi), (repeat_all X j i Hj Hi). reflexivity.
    - apply count_repeated. intros j i Hj Hi. apply (repeat_all X j i Hj Hi).
  Qed.
  Lemma repeat_categorical : categorical df'.
  Proof.
    destruct Hcat as (W & N & S). split; [|split].
    - intros a c I. unfold df', repeat_rows in I. cbn [df_cols] in I. apply in_map_iff in I. destruct I as ([b d] & E & I). injection E as <- <-. cbn [snd]. change (df_n df') with (k * df_n df). rewrite <- (W b d I).
      clear. induction k as [|m IH]; [reflexivity|]. cbn [repeat concat Nat.mul]. rewrite app_length, IH. reflexivity.
    - unfold df', repeat_rows. cbn [df_cols]. rewrite map_map. cbn [fst]. exact N.
    - intros a c v I J. unfold df', repeat_rows in I. cbn [df_cols] in I. apply in_map_iff in I. destruct I as ([b d] & E & I). injection E as <- <-. cbn [snd] in J. apply in_concat in J. destruct J as (l & Il & J).
      apply repeat_spec in Il. subst l. exact (S b d v I J).
  Qed.
  Lemma repeat_quotes : no_quotes df -> no_quotes df'.
  Proof. intros Q a c I. unfold df', repeat_rows in I. cbn [df_cols] in I. apply in_map_iff in I. destruct I as ([b d] & E & I). injection E as <- _. exact (Q b d I). Qed.
  Lemma repeat_description : forall X, description df' tcol X <-> description df tcol X.
  Proof. intros X. unfold description. split; intros (A & B & C); (split; [exact A|]; split; [exact B|]; intros s Is; destruct (C s Is) as (C1 & C2 & C3 & C4); repeat (split; auto); apply repeat_column; exact C4). Qed.
  Variables (V : Type) (E : V -> V -> Prop) (c c' : sd_config V).
  Hypothesis HS : scaled E k c c'.
  Lemma repeat_frequent : forall X, frequent df' tcol tval (c_min_tp c') (c_min_fp c') (c_min_n c') X <-> frequent df tcol tval (c_min_tp c) (c_min_fp c) (c_min_n c) X.
  Proof.
    intros X. unfold frequent. rewrite repeat_description. destruct (repeat_counts X) as (A & B & C). fold t. rewrite A, B, C. rewrite (proj1 HS) by (unfold tp_of, fp_of; lia).
    split; intros (D & G & S); (split; [exact D|split; [nia|exact S]]).
  Qed.
  Lemma counts_within : forall X, (0 <= tp_of df t X <= TP_of df tcol tval)%Z /\ (0 <= fp_of df t X <= FP_of df tcol tval)%Z.
  Proof. intros X. unfold TP_of, FP_of. fold t. apply counts_incl. intros s []. Qed.
  Lemma repeat_quality : forall X, match quality (c_measure c) df tcol tval X, quality (c_measure c') df' tcol tval X with
    | Ok q, Ok q' => E q q' | Err _, Err _ => True | _, _ => False end.
  Proof.
    intros X. unfold quality, TP_of, FP_of. fold t. destruct (repeat_counts X) as (-> & -> & _). destruct (repeat_counts []) as (-> & -> & _). destruct (counts_within X) as [H1 H2]. apply (proj1 (proj2 HS)); auto.
  Qed.
  Lemma repeat_line : forall X q q', E q q' -> multiplied E k (line_of df tcol tval X q) (line_of df' tcol tval X q').
  Proof.
    intros X q q' H. unfold line_of, TP_of, FP_of. fold t. destruct (repeat_counts X) as (-> & -> & _). destruct (repeat_counts []) as (-> & -> & _). split; [reflexivity|]. split; [exact H|]. repeat split.
  Qed.
End Repeated.

(** * SDMap *)
Theorem C90_sdmap : forall V (E : V -> V -> Prop) k (c c' : sd_config V) s0 s0' df tcol tval, 1 <= k -> categorical df -> no_quotes df -> has_column df tcol -> c_write c = true -> c_write c' = true ->
  scaled E k c c' -> sdmap_new c = Ok s0 -> sdmap_new c' = Ok s0' ->
  ((exists a, sdmap_fit c s0 df tcol tval = Ok a) <-> (exists b, sdmap_fit c' s0' (repeat_rows k df) tcol tval = Ok b)) /\
  forall a b, sdmap_fit c s0 df tcol tval = Ok a -> sdmap_fit c' s0' (repeat_rows k df) tcol tval = Ok b ->
    st_selected b = st_selected a /\ visited_nodes b = visited_nodes a /\
    (forall r, In r (lines_in a) -> exists r', In r' (lines_in b) /\ multiplied E k r r') /\
    (forall r', In r' (lines_in b) -> exists r, In r (lines_in a) /\ multiplied E k r r').
Proof.
  intros V E k c c' s0 s0' df tcol tval Hk H1 HQ H3 W W' HS N N'. pose proof (no_quotes_keys df tcol H1 HQ) as H2.
  pose proof (repeat_categorical k df H1) as H1'. pose proof (no_quotes_keys _ tcol H1' (repeat_quotes k df HQ)) as H2'. assert (H3' : has_column (repeat_rows k df) tcol) by (apply repeat_column; exact H3).
  pose proof (repeat_frequent k df tcol tval Hk H1 V E c c' HS) as HF. pose proof (repeat_quality k df tcol tval H1 V E c c' HS) as HQ2.
  split; [split|].
  - intros X. apply (proj1 (C27_errors V c' s0' _ tcol tval s0' H1' H2' H3' N')). intros Y HY. apply HF in HY. destruct (proj1 (proj1 (C27_errors V c s0 df tcol tval s0 H1 H2 H3 N)) X Y HY) as [q Eq].
    specialize (HQ2 Y). rewrite Eq in HQ2. destruct (quality (c_measure c') _ _ _ Y) as [q'|e]; [eauto|destruct HQ2].
  - intros X. apply (proj1 (C27_errors V c s0 df tcol tval s0 H1 H2 H3 N)). intros Y HY. apply HF in HY. destruct (proj1 (proj1 (C27_errors V c' s0' _ tcol tval s0' H1' H2' H3' N')) X Y HY) as [q Eq].
    specialize (HQ2 Y). rewrite Eq in HQ2. destruct (quality (c_measure c) _ _ _ Y) as [q'|e]; [eauto|destruct HQ2].
  - intros a b Ea Eb. destruct (sdmap_lines V c s0 df tcol tval a H1 H2 H3 W N Ea) as [_ La]. destruct (sdmap_lines V c' s0' _ tcol tval b H1' H2' H3' W' N' Eb) as [_ Lb].
    destruct (C28_counters V c s0 df tcol tval a H1 H2 H3 N Ea) as (al & go & Na & HA & Ng & HG & -> & -> & _).
    destruct (C28_counters V c' s0' _ tcol tval b H1' H2' H3' N' Eb) as (al' & go' & Na' & HA' & Ng' & HG' & -> & -> & _).
    assert (SA : forall X, In X al' <-> In X al) by (intros X; rewrite HA, HA'; apply HF).
    split; [|split; [|split]].
    + apply Nat.le_antisymm; apply NoDup_incl_length; auto; intros X HX.
      * apply HG' in HX. destruct HX as (HX & q' & Eq & Rq). apply HG. split; [apply SA; exact HX|]. specialize (HQ2 X). rewrite Eq in HQ2. destruct (quality (c_measure c) df tcol tval X) as [q|e]; [|destruct HQ2].
        exists q. split; [reflexivity|]. rewrite <- (proj2 (proj2 HS) q q' HQ2). exact Rq.
      * apply HG in HX. destruct HX as (HX & q & Eq & Rq). apply HG'. split; [apply SA; exact HX|]. specialize (HQ2 X). rewrite Eq in HQ2. destruct (quality (c_measure c') _ tcol tval X) as [q'|e]; [|destruct HQ2].
        exists q'. split; [reflexivity|]. rewrite (proj2 (proj2 HS) q q' HQ2). exact Rq.
    + apply Nat.le_antisymm; apply NoDup_incl_length; auto; intros X HX; apply SA; exact HX.
    + intros r Ir. apply La in Ir. destruct Ir as (X & q & HX & Eq & Rq & ->). specialize (HQ2 X). rewrite Eq in HQ2. destruct (quality (c_measure c') (repeat_rows k df) tcol tval X) as [q'|e] eqn:Eq'; [|destruct HQ2].
      exists (line_of (repeat_rows k df) tcol tval X q'). split; [|apply (repeat_line k df tcol tval H1 V E X q q' HQ2)]. apply Lb. exists X, q'. split; [apply HF; exact HX|]. split; [exact Eq'|]. split; [rewrite (proj2 (proj2 HS) q q' HQ2); exact Rq|reflexivity].
    + intros r Ir. apply Lb in Ir. destruct Ir as (X & q' & HX & Eq' & Rq & ->). specialize (HQ2 X). rewrite Eq' in HQ2. destruct (quality (c_measure c) df tcol tval X) as [q|e] eqn:Eq; [|destruct HQ2].
      exists (line_of df tcol tval X q). split; [|apply (repeat_line k df tcol tval H1 V E X q q' HQ2)]. apply La. exists X, q. split; [apply HF; exact HX|]. split; [exact Eq|]. split; [rewrite <- (proj2 (proj2 HS) q q' HQ2); exact Rq|reflexivity].
Qed.
Print Assumptions C90_sdmap.
(** SDMapStar without limit. *)
Theorem C90_sdmapstar : forall V (E : V -> V -> Prop) k (c c' : star_config V) s0 s0' df tcol tval, 1 <= k -> categorical df -> no_quotes df -> has_column df tcol ->
  sc_num c = 0%Z -> sc_num c' = 0%Z -> c_write (sc_base c) = true -> c_write (sc_base c') = true -> scaled E k (sc_base c) (sc_base c') -> star_new c = Ok s0 -> star_new c' = Ok s0' ->
  ((exists a, star_fit c s0 df tcol tval = Ok a) <-> (exists b, star_fit c' s0' (repeat_rows k df) tcol tval = Ok b)) /\
  forall a b, star_fit c s0 df tcol tval = Ok a -> star_fit c' s0' (repeat_rows k df) tcol tval = Ok b ->
    st_selected (ss_base b) = st_selected (ss_base a) /\ visited_nodes (ss_base b) = visited_nodes (ss_base a) /\
    (forall r, In r (lines_in (ss_base a)) -> exists r', In r' (lines_in (ss_base b)) /\ multiplied E k r r') /\
    (forall r', In r' (lines_in (ss_base b)) -> exists r, In r (lines_in (ss_base a)) /\ multiplied E k r r').
Proof.
  intros V E k c c' s0 s0' df tcol tval Hk H1 HQ H3 Z0 Z0' W W' HS N N'. pose proof (no_quotes_keys df tcol H1 HQ) as H2.
  pose proof (repeat_categorical k df H1) as H1'. pose proof (no_quotes_keys _ tcol H1' (repeat_quotes k df HQ)) as H2'. assert (H3' : has_column (repeat_rows k df) tcol) by (apply repeat_column; exact H3).
  destruct (star_plain V c s0 df tcol tval H1 H2 H3 N Z0) as (M & A & A'). destruct (star_plain V c' s0' _ tcol tval H1' H2' H3' N' Z0') as (M' & B & B').
  destruct (C90_sdmap V E k _ _ _ _ df tcol tval Hk H1 HQ H3 W W' HS M M') as [F G]. split; [split|].
  - intros [a X]. destruct (A a X) as (a0 & Ea & _). destruct (proj1 F (ex_intro _ a0 Ea)) as [b0 Eb]. exact (B' b0 Eb).
  - intros [b X]. destruct (B b X) as (b0 & Eb & _). destruct (proj2 F (ex_intro _ b0 Eb)) as [a0 Ea]. exact (A' a0 Ea).
  - intros a b Ea Eb. destruct (A a Ea) as (a0 & Ea0 & La & Sa & Va). destruct (B b Eb) as (b0 & Eb0 & Lb & Sb & Vb). destruct (G a0 b0 Ea0 Eb0) as (S & X & L & L'). rewrite Sa, Sb, Va, Vb.
    split; [exact S|]. split; [exact X|]. split; intros r I.
    + apply La in I. destruct (L r I) as (r' & I' & T). exists r'. split; [apply Lb; exact I'|exact T].
    + apply Lb in I. destruct (L' r I) as (r' & I' & T). exists r'. split; [apply La; exact I'|exact T].
Qed.
(** VLSD, in any representation. *)
Definition vl_scaled {V} (E : V -> V -> Prop) (k : nat) (c c' : vl_config V) : Prop :=
  (forall tp fp TP FP, (0 <= tp <= TP)%Z -> (0 <= fp <= FP)%Z ->
     match vc_measure c tp fp TP FP, vc_measure c' (Z.of_nat k * tp) (Z.of_nat k * fp) (Z.of_nat k * TP) (Z.of_nat k * FP) with
     | Ok q, Ok q' => E q q' | Err _, Err _ => True | _, _ => False end) /\
  (forall q q', E q q' -> vc_reaches c' q' = vc_reaches c q).
Theorem C90_vlsd : forall Seq impl rows Seq' impl' rows', representation Seq impl rows -> representation Seq' impl' rows' ->
  forall V (E : V -> V -> Prop) k (c c' : vl_config V) df tcol tval a b, 1 <= k -> categorical df -> has_column df tcol -> vc_write c = true -> vc_write c' = true -> vl_scaled E k c c' ->
  sound_estimate c df tcol tval -> sound_estimate c' (repeat_rows k df) tcol tval ->
  vlsd_fit impl c vlsd_new df tcol tval = Ok a -> vlsd_fit impl' c' vlsd_new (repeat_rows k df) tcol tval = Ok b ->
  exists la lb, vs_file a = Some la /\ vs_file b = Some lb /\
    (forall l, In l (map vr_line la) -> exists l', In l' (map vr_line lb) /\ multiplied E k l l') /\
    (forall l', In l' (map vr_line lb) -> exists l, In l (map vr_line la) /\ multiplied E k l l').
Proof.
  intros Seq impl rows Seq' impl' rows' P P' V E k c c' df tcol tval a b Hk H1 H3 W W' [Sm Sr] Se Se' Ea Eb.
  pose proof (repeat_categorical k df H1) as H1'. assert (H3' : has_column (repeat_rows k df) tcol) by (apply repeat_column; exact H3).
  destruct (C29_sound_and_complete _ _ _ P V c df tcol tval _ a H1 H3 W Se Ea) as (la & Fa & _ & La).
  destruct (C29_sound_and_complete _ _ _ P' V c' (repeat_rows k df) tcol tval _ b H1' H3' W' Se' Eb) as (lb & Fb & _ & Lb).
  assert (HC : forall X, candidate (repeat_rows k df) tcol X <-> candidate df tcol X).
  { intros X. unfold candidate. rewrite (repeat_description k df tcol). destruct (repeat_counts k df tcol tval H1 X) as (_ & _ & G). rewrite G. split; intros [D C]; (split; [exact D|nia]). }
  assert (HQ : forall X, match quality (vc_measure c) df tcol tval X, quality (vc_measure c') (repeat_rows k df) tcol tval X with Ok q, Ok q' => E q q' | Err _, Err _ => True | _, _ => False end).
  { intros X. unfold quality, TP_of, FP_of. destruct (repeat_counts k df tcol tval H1 X) as (-> & -> & _). destruct (repeat_counts k df tcol tval H1 []) as (-> & -> & _). destruct (counts_within df tcol tval X) as [G1 G2]. apply Sm; auto. }
  exists la, lb. split; [exact Fa|]. split; [exact Fb|]. split; intros l I.
  - apply La in I. destruct I as (X & q & K & Eq & Rq & ->). specialize (HQ X). rewrite Eq in HQ. destruct (quality (vc_measure c') _ _ _ X) as [q'|e] eqn:Eq'; [|destruct HQ].
    exists (line_of (repeat_rows k df) tcol tval X q'). split; [|apply (repeat_line k df tcol tval H1 V E X q q' HQ)]. apply Lb. exists X, q'. split; [apply HC; exact K|]. split; [exact Eq'|]. split; [rewrite (Sr q q' HQ); exact Rq|reflexivity].
  - apply Lb in I. destruct I as (X & q' & K & Eq' & Rq & ->). specialize (HQ X). rewrite Eq' in HQ. destruct (quality (vc_measure c) _ _ _ X) as [q|e] eqn:Eq; [|destruct HQ].
    exists (line_of df tcol tval X q). split; [|apply (repeat_line k df tcol tval H1 V E X q q' HQ)]. apply La. exists X, q. split; [apply HC; exact K|]. split; [exact Eq|]. split; [rewrite <- (Sr q q' HQ); exact Rq|reflexivity].
Qed.
Print Assumptions C90_sdmapstar. Print Assumptions C90_vlsd.

(** * Measures *)
Definition agree (E : Q -> Q -> Prop) (x y : res Q) : Prop := match x, y with Ok q, Ok q' => E q q' | Err _, Err _ => True | _, _ => False end.
Lemma agree_bind : forall (x y : res Q) (f g : Q -> res Q) E E', agree E x y -> (forall a b, E a b -> agree E' (f a) (g b)) -> agree E' (bind x f) (bind y g).
Proof. intros [a|e] [b|e'] f g E E' H F; cbn in *; auto; contradiction. Qed.
Lemma agree_qdiv : forall K a b c d, ~ (K == 0)%Q -> (c == K * a)%Q -> (d == K * b)%Q -> agree Qeq (qdiv a b) (qdiv c d).
Proof.
  intros K a b c d NK Hc Hd. unfold qdiv. destruct (Qeq_bool b 0) eqn:B, (Qeq_bool d 0) eqn:D; cbn [agree]; auto.
  - apply Qeq_bool_iff in B. apply Qeq_bool_neq in D. apply D. rewrite Hd, B. ring.
  - apply Qeq_bool_iff in D. apply Qeq_bool_neq in B. apply B. rewrite Hd in D. apply Qmult_integral in D. destruct D as [D|D]; [contradiction|exact D].
  - apply Qeq_bool_neq in B. rewrite Hc, Hd. field. split; assumption.
Qed.
(** ... with one factor more in the numerator. *)
Lemma agree_qdiv2 : forall K a b c d, ~ (K == 0)%Q -> (c == K * K * a)%Q -> (d == K * b)%Q -> agree (fun q q' => q' == K * q)%Q (qdiv a b) (qdiv c d).
Proof.
  intros K a b c d NK Hc Hd. unfold qdiv. destruct (Qeq_bool b 0) eqn:B, (Qeq_bool d 0) eqn:D; cbn [agree]; auto.
  - apply Qeq_bool_iff in B. apply Qeq_bool_neq in D. apply D. rewrite Hd, B. ring.
  - apply Qeq_bool_iff in D. apply Qeq_bool_neq in B. apply B. rewrite Hd in D. apply Qmult_integral in D. destruct D as [D|D]; [contradiction|exact D].
  - apply Qeq_bool_neq in B. rewrite Hc, Hd. field. split; assumption.
Qed.
Definition ratios : list measure := [Coverage; Support; PPV; NPV; Sensitivity; Specificity; F1Score; IRR; Youden; WRAcc; AbsoluteWRAcc].
Definition amounts : list measure := [PiatetskyShapiro; PSOptimisticEstimate1; PSOptimisticEstimate2; WRAccOptimisticEstimate1].
Lemma times_q : forall k z, (inject_Z (Z.of_nat k * z) == inject_Z (Z.of_nat k) * inject_Z z)%Q.
Proof. intros k z. rewrite inject_Z_mult. reflexivity. Qed.
Ltac start_measure := unfold on_counts, compute, table;
  unfold coverage_m, support_m, ppv_m, npv_m, sensitivity_m, specificity_m, f1_m, irr_m, youden_m, absolute_wracc_m, wracc_m, ps_m, ps_oe1_m, ps_oe2_m, wracc_oe1_m, QualityModel.pget;
  cbn [QualityModel.lookup String.eqb Ascii.eqb Bool.eqb bind].
Ltac ratio NK := eapply agree_qdiv; [exact NK| |]; rewrite !times_q; ring.
(** Ratios of counts are the same for [k] times the counts, the others are multiplied. *)
Theorem C90_measures : forall k, 1 <= k -> forall tp fp TP FP,
  (forall m, In m ratios -> agree Qeq (on_counts m tp fp TP FP) (on_counts m (Z.of_nat k * tp) (Z.of_nat k * fp) (Z.of_nat k * TP) (Z.of_nat k * FP))) /\
  (forall m, In m amounts -> agree (fun q q' => q' == inject_Z (Z.of_nat k) * q)%Q (on_counts m tp fp TP FP) (on_counts m (Z.of_nat k * tp) (Z.of_nat k * fp) (Z.of_nat k * TP) (Z.of_nat k * FP))).
Proof.
  intros k Hk tp fp TP FP. assert (NK : ~ (inject_Z (Z.of_nat k) == 0)%Q) by (unfold Qeq; cbn; lia).
  assert (W : agree Qeq (on_counts WRAcc tp fp TP FP) (on_counts WRAcc (Z.of_nat k * tp) (Z.of_nat k * fp) (Z.of_nat k * TP) (Z.of_nat k * FP))).
  { start_measure. eapply agree_bind; [ratio NK|]. intros a a' Ha. eapply agree_bind; [ratio NK|]. intros b b' Hb. eapply agree_bind; [ratio NK|]. intros c c' Hc. cbn [agree]. rewrite Ha, Hb, Hc. reflexivity. }
  split; intros m H; repeat (destruct H as [<-|H]); try destruct H.
  - start_measure. ratio NK.
  - start_measure. ratio NK.
  - start_measure. ratio NK.
  - start_measure. ratio NK.
  - start_measure. ratio NK.
  - start_measure. ratio NK.
  - start_measure. ratio NK.
  - start_measure. eapply agree_bind; [ratio NK|]. intros a a' Ha. eapply agree_bind; [ratio NK|]. intros b b' Hb. cbn [agree]. rewrite Ha, Hb. reflexivity.
  - start_measure. eapply agree_bind; [ratio NK|]. intros a a' Ha. eapply agree_bind; [ratio NK|]. intros b b' Hb. cbn [agree]. rewrite Ha, Hb. reflexivity.
  - exact W.
  - change (agree Qeq (do w <- on_counts WRAcc tp fp TP FP; Ok (Qabs w)) (do w <- on_counts WRAcc (Z.of_nat k * tp) (Z.of_nat k * fp) (Z.of_nat k * TP) (Z.of_nat k * FP); Ok (Qabs w))).
    eapply agree_bind; [exact W|]. intros a b Hab. cbn [agree]. rewrite Hab. reflexivity.
  - start_measure. eapply agree_bind; [ratio NK|]. intros b b' Hb. eapply agree_bind; [ratio NK|]. intros c c' Hc. cbn [agree]. rewrite <- Hb, <- Hc, !times_q. ring.
  - start_measure. eapply agree_bind; [ratio NK|]. intros c c' Hc. cbn [agree]. rewrite <- Hc, !times_q. ring.
  - start_measure. eapply agree_bind; [ratio NK|]. intros c c' Hc. cbn [agree]. rewrite <- Hc, !times_q. ring.
  - start_measure. eapply agree_bind; [eapply (agree_qdiv2 (inject_Z (Z.of_nat k))); [exact NK| |]; rewrite !times_q; ring|]. intros a a' Ha. eapply agree_bind; [ratio NK|]. intros c c' Hc. cbn [agree]. rewrite Ha, <- Hc. ring.
Qed.
(** SDMap with one of these measures. *)
Definition threshold_config (m : measure) (qmin : Q) (mt mf mn : option Z) : sd_config Q := SDC (on_counts m) (Qle_bool qmin) mt mf mn true.
Definition times (k : nat) (o : option Z) : option Z := option_map (Z.mul (Z.of_nat k)) o.
Lemma supported_times : forall k mt mf mn tp fp, 1 <= k ->
  (supported (times k mt) (times k mf) (times k mn) (Z.of_nat k * tp) (Z.of_nat k * fp) <-> supported mt mf mn tp fp).
Proof.
  intros k mt mf mn tp fp Hk. unfold supported, times. assert (M : forall a b, (Z.of_nat k * a <= Z.of_nat k * b)%Z <-> (a <= b)%Z) by (intros a b; symmetry; apply Z.mul_le_mono_pos_l; lia).
  destruct mt, mf, mn; cbn [option_map]; try rewrite <- Z.mul_add_distr_l; rewrite ?M; tauto.
Qed.
Theorem C90_scaled : forall k, 1 <= k -> forall qmin mt mf mn,
  (forall m, In m ratios -> scaled Qeq k (threshold_config m qmin mt mf mn) (threshold_config m qmin (times k mt) (times k mf) (times k mn))) /\
  (forall m, In m amounts -> scaled (fun q q' => q' == inject_Z (Z.of_nat k) * q)%Q k (threshold_config m qmin mt mf mn)
     (threshold_config m (inject_Z (Z.of_nat k) * qmin) (times k mt) (times k mf) (times k mn))).
Proof.
  intros k Hk qmin mt mf mn. assert (PK : (0 < inject_Z (Z.of_nat k))%Q) by (unfold Qlt; cbn; lia).
  assert (B : forall x y u v, ((x <= y)%Q <-> (u <= v)%Q) -> Qle_bool x y = Qle_bool u v).
  { intros x y u v H. apply bool_iff. rewrite !Qle_bool_iff. exact H. }
  split; intros m H; (split; [intros tp fp _ _; apply supported_times; exact Hk|split]).
  - intros tp fp TP FP _ _. exact (proj1 (C90_measures k Hk tp fp TP FP) m H).
  - intros q q' Eq. apply B. rewrite Eq. reflexivity.
  - intros tp fp TP FP _ _. exact (proj2 (C90_measures k Hk tp fp TP FP) m H).
  - intros q q' Eq. apply B. rewrite Eq. apply Qmult_le_l. exact PK.
Qed.
Theorem C90_vl_scaled : forall k, 1 <= k -> forall qmin oe oe' omin omin' s1 s1' other other' write write',
  (forall m, In m ratios -> vl_scaled Qeq k (vlsd_config m oe qmin omin s1 other write) (vlsd_config m oe' qmin omin' s1' other' write')) /\
  (forall m, In m amounts -> vl_scaled (fun q q' => q' == inject_Z (Z.of_nat k) * q)%Q k (vlsd_config m oe qmin omin s1 other write)
     (vlsd_config m oe' (inject_Z (Z.of_nat k) * qmin) omin' s1' other' write')).
Proof.
  intros k Hk qmin oe oe' omin omin' s1 s1' other other' write write'. destruct (C90_scaled k Hk qmin None None None) as [A B].
  split; intros m H; [destruct (A m H) as (_ & M & R)|destruct (B m H) as (_ & M & R)]; split; [exact M|exact R|exact M|exact R].
Qed.
Print Assumptions C90_measures. Print Assumptions C90_scaled. Print Assumptions C90_vl_scaled.

(** BSD, CBSD, CPBSD with WRAcc: the best quality is the same. *)
Theorem C90_bsd_best : forall cl k ms num depth df tcol tval st st', 1 <= k -> categorical df -> no_quotes df -> has_column df tcol -> (1 <= num)%Z ->
  let c := wracc_config cl ms num depth in let c' := wracc_config cl (Z.of_nat k * ms) num depth in let df' := repeat_rows k df in
  bsd_fit c (bsd_new c) df tcol tval = Ok st -> bsd_fit c' (bsd_new c') df' tcol tval = Ok st' ->
  (forall e, In e (bs_k st) -> e <> dummy_entry c -> exists e', In e' (bs_k st') /\ true_entry c' df' tcol tval e' /\ (e_quality e <= e_quality e')%Q) /\
  (forall e, In e (bs_k st') -> e <> dummy_entry c' -> exists e', In e' (bs_k st) /\ true_entry c df tcol tval e' /\ (e_quality e <= e_quality e')%Q).
Proof.
  intros cl k ms num depth df tcol tval st st' Hk H1 HQ H3 Hn c c' df' Ea Eb. pose proof (no_quotes_texts df tcol H1 HQ) as H2.
  pose proof (repeat_categorical k df H1) as H1'. pose proof (no_quotes_texts df' tcol H1' (repeat_quotes k df HQ)) as H2'. assert (H3' : has_column df' tcol) by (apply repeat_column; exact H3).
  pose proof (wracc_input cl ms num depth df tcol tval H1 H2 H3 Hn) as HB. fold c in HB. pose proof (wracc_input cl (Z.of_nat k * ms) num depth df' tcol tval H1' H2' H3' Hn) as HB'. fold c' in HB'.
  assert (True_of : forall c df st e, bsd_input c df tcol tval -> bsd_fit c (bsd_new c) df tcol tval = Ok st -> In e (bs_k st) -> e <> dummy_entry c -> true_entry (V := Q) c df tcol tval e).
  { intros c0 df0 st0 e HB0 E0 Ie Nd. destruct (C35_best_list c0 df0 tcol tval st0 (bs_k st0) HB0 E0 (or_introl eq_refl)) as [E|(_ & _ & _ & F)].
    - rewrite E in Ie. destruct Ie as [Ie|[]]. congruence.
    - rewrite Forall_forall in F. auto. }
  assert (Cand : forall X, candidate df' tcol X <-> candidate df tcol X).
  { intros X. unfold candidate, df'. rewrite (repeat_description k df tcol). destruct (repeat_counts k df tcol tval H1 X) as (_ & _ & G). rewrite G. split; intros [D C]; (split; [exact D|nia]). }
  assert (Qual : forall X, agree Qeq (quality (on_counts WRAcc) df tcol tval X) (quality (on_counts WRAcc) df' tcol tval X)).
  { intros X. unfold quality, TP_of, FP_of, df'. destruct (repeat_counts k df tcol tval H1 X) as (-> & -> & _). destruct (repeat_counts k df tcol tval H1 []) as (-> & -> & _). apply (C90_measures k Hk). unfold ratios. cbn [In]. tauto. }
  split; intros e Ie Nd.
  - destruct (True_of c df st e HB Ea Ie Nd) as (K & _ & _ & _ & Q & _). change (bc_measure c) with (on_counts WRAcc) in Q. specialize (Qual (e_pattern e)). rewrite Q in Qual. destruct (quality (on_counts WRAcc) df' tcol tval (e_pattern e)) as [q|x] eqn:Eq; [|destruct Qual]. cbn [agree] in Qual.
    destruct (C56_best_wracc cl (Z.of_nat k * ms) num depth df' tcol tval st' (e_pattern e) q H1' H2' H3' Hn Eb) as (e' & I' & T' & L'); [|exact Eq|exists e'; rewrite Qual; auto].
    split; [apply Cand; exact K|]. split.
    + intros s Is. destruct (repeat_counts k df tcol tval H1 [s]) as (G & _). unfold df'. rewrite G. pose proof (C55_selectors c df tcol tval st (bs_k st) e s HB Ea (or_introl eq_refl) Ie Is) as M. cbn [c wracc_config bc_min_support] in M |- *. nia.
    + exact (proj2 (C36_depth c df tcol tval st HB Ea) e Ie).
  - destruct (True_of c' df' st' e HB' Eb Ie Nd) as (K & _ & _ & _ & Q & _). change (bc_measure c') with (on_counts WRAcc) in Q. specialize (Qual (e_pattern e)). rewrite Q in Qual. destruct (quality (on_counts WRAcc) df tcol tval (e_pattern e)) as [q|x] eqn:Eq; [|destruct Qual]. cbn [agree] in Qual.
    destruct (C56_best_wracc cl ms num depth df tcol tval st (e_pattern e) q H1 H2 H3 Hn Ea) as (e' & I' & T' & L'); [|exact Eq|exists e'; rewrite <- Qual; auto].
    split; [apply Cand; exact K|]. split.
    + intros s Is. destruct (repeat_counts k df tcol tval H1 [s]) as (G & _). pose proof (C55_selectors c' df' tcol tval st' (bs_k st') e s HB' Eb (or_introl eq_refl) Ie Is) as M. unfold df' in M. rewrite G in M. cbn [c' wracc_config bc_min_support] in M |- *. nia.
    + exact (proj2 (C36_depth c' df' tcol tval st' HB' Eb) e Ie).
Qed.
Print Assumptions C90_bsd_best.

(** * Concrete cases *)
(** Three copies of the toy dataset: the same three descriptions with three times the counts. *)
Example C90_nonvacuous : let c := threshold_config WRAcc (1 # 100) None None (Some 1%Z) in let c' := threshold_config WRAcc (1 # 100) None None (Some 3%Z) in
  scaled Qeq 3 c c' /\ exists a b, sdmap_fit c (SDS 0 0 None) toy "class" "p" = Ok a /\ sdmap_fit c' (SDS 0 0 None) (repeat_rows 3 toy) "class" "p" = Ok b /\
  map (fun r => (g_desc (r_subgroup r), r_tp r, r_fp r)) (lines_in a) = [([is "a" "x"], 2%Z, 1%Z); ([is "b" "u"], 2%Z, 1%Z); ([is "a" "x"; is "b" "u"], 2%Z, 0%Z)] /\
  map (fun r => (g_desc (r_subgroup r), r_tp r, r_fp r)) (lines_in b) = [([is "a" "x"], 6%Z, 3%Z); ([is "b" "u"], 6%Z, 3%Z); ([is "a" "x"; is "b" "u"], 6%Z, 0%Z)].
Proof.
  cbv zeta. split; [exact (proj1 (C90_scaled 3 ltac:(lia) (1 # 100) None None (Some 1%Z)) WRAcc ltac:(cbn; tauto))|].
  eexists _, _. split; [vm_compute; reflexivity|]. split; [vm_compute; reflexivity|]. split; reflexivity.
Qed.
Print Assumptions C90_nonvacuous.
