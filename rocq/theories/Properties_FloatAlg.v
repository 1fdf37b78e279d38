(** Theorems C70: the algorithms with qualities computed in binary64. *)
From Coq Require Import Reals Qreals Lia Lqa Lra Psatz.
From Verif Require Import QualitySpec QualityProofs FloatModel FloatProofs Properties_Float SDMapStarFit OrderFacts Properties_SDMap Properties_SDMapStar.
From Verif Require Import VLSDModel VLSDProofs BSDModel BSDProofs VerticalProofs Properties_VLSD Properties_BSD Properties_BSDBest.
Open Scope string_scope.
Open Scope list_scope.
Open Scope Z_scope.
Notation rows df := (Z.of_nat (df_n df)).

Definition rlt (x y : R) : bool := if Rlt_dec x y then true else false.
Definition rle (x y : R) : bool := if Rle_dec x y then true else false.
Lemma rlt_true : forall x y, rlt x y = true <-> (x < y)%R.
Proof. intros x y. unfold rlt. destruct (Rlt_dec x y); split; intros; auto; discriminate. Qed.
Lemma rlt_false : forall x y, rlt x y = false <-> (y <= x)%R.
Proof. intros x y. unfold rlt. destruct (Rlt_dec x y); split; intros; auto; try discriminate; lra. Qed.
Lemma rle_true : forall x y, rle x y = true <-> (x <= y)%R.
Proof. intros x y. unfold rle. destruct (Rle_dec x y); split; intros; auto; discriminate. Qed.
Lemma rlt_weak : strict_weak_order rlt.
Proof.
  split; [|split].
  - intros x. apply rlt_false. lra.
  - intros x y H. apply rlt_true in H. apply rlt_false. lra.
  - intros x y z A B. apply rlt_false in A, B. apply rlt_false. lra.
Qed.
(** The counts of a description and of one that extends it. *)
Lemma table_counts : forall df tcol tval X, let t := Sel tcol EQUAL (VStr tval) in
  0 <= tp_of df t X <= TP_of df tcol tval /\ 0 <= fp_of df t X <= FP_of df tcol tval /\ TP_of df tcol tval + FP_of df tcol tval = rows df.
Proof.
  intros df tcol tval X t. destruct (counts_incl df t X []) as [A B]; [intros s []|]. split; [exact A|]. split; [exact B|].
  unfold TP_of, FP_of, tp_of, fp_of. fold t. pose proof (pos_neg_cover df t []) as E. assert (C : coverage df [] = df_n df); [|lia].
  unfold coverage. rewrite <- (seq_length (df_n df) 0) at 2. generalize (seq 0 (df_n df)). induction l as [|i l IH]; cbn [filter forallb length]; auto.
Qed.

(** * C70: SDMapStar *)
(** The quality measure and its estimate in binary64. *)
Definition float_star (m oe : measure) (qmin : R) (mtp mfp mn : option Z) (num : Z) : star_config R :=
  StarC (SDC (fl_measure m) (rle qmin) mtp mfp mn true) (fl_measure oe) (fl_measure m) rlt (fun x y => negb (rlt x y) && negb (rlt y x)) num.
Theorem C70_top_k : forall m oe qmin mtp mfp mn num df tcol tval st0 st', In m (optimistic_estimate_of oe) -> rows df <= 2 ^ 25 ->
  0 < num -> categorical df -> distinct_keys df tcol -> has_column df tcol ->
  let c := float_star m oe qmin mtp mfp mn num in
  star_new c = Ok st0 -> star_fit c st0 df tcol tval = Ok st' -> ss_cpruned st' = 0%nat ->
  forall X q, frequent_for c df tcol tval X -> quality (fl_measure m) df tcol tval X = Ok q -> (qmin <= q)%R ->
  exists ls, st_file (ss_base st') = Some ls /\
    (In (line_of df tcol tval X q) ls \/
     exists better, NoDup better /\ incl better ls /\ Z.of_nat (length better) = num /\ forall r, In r better -> (q < r_quality r)%R).
Proof.
  intros m oe qmin mtp mfp mn num df tcol tval st0 st' Hm HN Hn Hcat Hquo Hcol c Hnew H Hc X q HX Eq Rq.
  destruct (C33_top_k R c df tcol tval st0 st' Hn Hcat Hquo Hcol eq_refl Hnew H Hc) with (X := X) (q := q) as (ls & F & Re); auto.
  - apply rlt_weak.
  - cbn [c float_star sc_base sc_oe c_measure sc_lt]. intros tp fp q' o' A B E1 E2. apply rlt_false. destruct (table_counts df tcol tval []) as (_ & _ & T).
    apply (C69_estimates_bound oe m tp fp tp fp (TP_of df tcol tval) (FP_of df tcol tval) o' q'); auto; try lia. unfold counted. lia.
  - cbn [c float_star sc_base sc_oe c_measure sc_lt]. intros X' Y' o' q' I HY HX' E1 E2. apply rlt_false. destruct (table_counts df tcol tval Y') as (T1 & T2 & T). destruct (counts_incl df (Sel tcol EQUAL (VStr tval)) X' Y' I) as [C1 C2].
    unfold quality in E1, E2. eapply (C69_estimates_bound oe m); [exact Hm| | | | |exact E1|exact E2]; auto; try lia. unfold counted. lia.
  - cbn [c float_star sc_base sc_lt c_reaches]. intros a b A B. apply rlt_true in A. apply rle_true in B. apply rle_true. lra.
  - cbn. apply rle_true; auto.
  - exists ls. split; auto. destruct Re as [Re|(l & A & B & C & D)]; auto. right. exists l. split; auto. split; auto. split; auto.
    intros r I. apply rlt_true. apply (D r I).
Qed.
Print Assumptions C70_top_k.

(** * C70: VLSD *)
Definition float_vlsd (m oe : measure) (qmin omin : R) (s1 other : sort_criterion) : vl_config R :=
  VC (fl_measure m) (rle qmin) (fl_measure oe) (rle omin) rlt s1 other true.
Theorem C70_vlsd_sound_and_complete : forall Seq impl rows', representation Seq impl rows' ->
  forall m oe qmin omin s1 other df tcol tval st st', In m (optimistic_estimate_of oe) -> (omin <= qmin)%R -> rows df <= 2 ^ 25 -> categorical df -> has_column df tcol ->
  vlsd_fit impl (float_vlsd m oe qmin omin s1 other) st df tcol tval = Ok st' ->
  exists ls, vs_file st' = Some ls /\ NoDup (map (fun r => r_subgroup (vr_line r)) ls) /\
    forall l, In l (map vr_line ls) <-> exists X q, candidate df tcol X /\
      quality (fl_measure m) df tcol tval X = Ok q /\ (qmin <= q)%R /\ l = line_of df tcol tval X q.
Proof.
  intros Seq impl rows' HR m oe qmin omin s1 other df tcol tval st st' Hm Ho HN Hcat Hcol E.
  destruct (C29_sound_and_complete Seq impl rows' HR R (float_vlsd m oe qmin omin s1 other) df tcol tval st st' Hcat Hcol eq_refl) as (ls & F & ND & Hl); auto.
  - apply (C29_bounding_estimate R (float_vlsd m oe qmin omin s1 other) rle qmin omin df tcol tval); auto.
    + intros x y z A B. apply rle_true in A, B. apply rle_true. lra.
    + apply rle_true; auto.
    + intros X Y q o KX KY I E1 E2. apply rle_true. cbn [float_vlsd vc_measure vc_oe] in E1, E2. destruct (table_counts df tcol tval Y) as (T1 & T2 & T). destruct (counts_incl df (Sel tcol EQUAL (VStr tval)) X Y I) as [C1 C2].
      unfold quality in E1, E2. eapply (C69_estimates_bound oe m); [exact Hm| | | | |exact E2|exact E1]; auto; try lia. unfold counted. lia.
  - exists ls. split; auto. split; auto. intros l. rewrite Hl. split; intros (X & q & A & B & C & D); exists X, q; (split; [auto|]; split; [exact B|]; split; [|auto]); apply rle_true; auto.
Qed.
Print Assumptions C70_vlsd_sound_and_complete.

(** * C70: BSD, CBSD and CPBSD *)
Definition float_bsd (cl : bsd_class) (ms num depth : Z) : bsd_config R :=
  BC cl (fl_measure WRAcc) (fl_measure WRAccOptimisticEstimate1) rlt (-99999)%R (fun _ => true) ms num depth true.
(** More positives and fewer negatives: not a smaller computed value. *)
Theorem C68_monotone : forall m tp fp tp' fp' TP FP q r, In m [WRAcc; PiatetskyShapiro] -> counted tp fp TP FP -> counted tp' fp' TP FP -> TP + FP <= 2 ^ 23 ->
  tp' <= tp -> fp <= fp' -> fl_measure m tp' fp' TP FP = Ok q -> fl_measure m tp fp TP FP = Ok r -> (q <= r)%R.
Proof.
  intros m tp fp tp' fp' TP FP q r Hm HC HC' HN Ht Hf Eq Er. assert (Ho : In m orderly) by (destruct Hm as [<-|[<-|[]]]; cbn; auto 20).
  assert (NQ : m <> Qg) by (destruct Hm as [<-|[<-|[]]]; discriminate).
  assert (X := C68_error m tp fp TP FP NQ HC). assert (X' := C68_error m tp' fp' TP FP NQ HC'). rewrite Er in X. rewrite Eq in X'.
  destruct (compute m (int_table tp fp TP FP)) as [v|] eqn:E1; [|contradiction]. destruct (compute m (int_table tp' fp' TP FP)) as [v'|] eqn:E2; [|contradiction]. clear X X'.
  destruct (Qlt_le_dec v' v) as [L|L].
  - left. apply (C68_order m tp' fp' tp fp TP FP q r v' v); auto.
  - destruct HC as (A1 & A2 & A3), HC' as (B1 & B2 & B3). destruct (exact_quotient m tp fp TP FP v Ho A1 A2 E1) as [P V]. destruct (exact_quotient m tp' fp' TP FP v' Ho B1 B2 E2) as [P' V'].
    assert (NE : num m tp fp TP FP = tp * FP - fp * TP) by (destruct Hm as [<-|[<-|[]]]; reflexivity).
    assert (NE' : num m tp' fp' TP FP = tp' * FP - fp' * TP) by (destruct Hm as [<-|[<-|[]]]; reflexivity).
    assert (DE : den m tp' fp' TP FP = den m tp fp TP FP) by (destruct Hm as [<-|[<-|[]]]; reflexivity).
    apply Qle_Rle in L. rewrite V, V', NE, NE', DE in L. apply (Rmult_le_compat_r (IZR (den m tp fp TP FP))) in L; [|apply IZR_le; lia]. assert (DP : IZR (den m tp fp TP FP) <> 0%R) by (apply not_0_IZR; lia).
    unfold Rdiv in L. rewrite !Rmult_assoc, Rinv_l, !Rmult_1_r in L by auto. apply le_IZR in L.
    assert (K1 : tp' * FP <= tp * FP) by (apply Z.mul_le_mono_nonneg_r; lia). assert (K2 : fp * TP <= fp' * TP) by (apply Z.mul_le_mono_nonneg_r; lia).
    destruct (Z.eq_dec TP 0) as [T0|T0]; [|destruct (Z.eq_dec FP 0) as [F0|F0]].
    + assert (Z1 : (v == 0)%Q) by (apply eqR_Qeq; rewrite V, NE, RMicromega.Q2R_0; replace (tp * FP - fp * TP) with 0 by nia; unfold Rdiv; ring).
      assert (Z2 : (v' == 0)%Q) by (apply eqR_Qeq; rewrite V', NE', RMicromega.Q2R_0; replace (tp' * FP - fp' * TP) with 0 by nia; unfold Rdiv; ring).
      apply (C68_sign m tp fp TP FP r v) in Z1; auto; [|repeat split; lia|lia]. apply (C68_sign m tp' fp' TP FP q v') in Z2; auto; [|repeat split; lia|lia]. lra.
    + assert (Z1 : (v == 0)%Q) by (apply eqR_Qeq; rewrite V, NE, RMicromega.Q2R_0; replace (tp * FP - fp * TP) with 0 by nia; unfold Rdiv; ring).
      assert (Z2 : (v' == 0)%Q) by (apply eqR_Qeq; rewrite V', NE', RMicromega.Q2R_0; replace (tp' * FP - fp' * TP) with 0 by nia; unfold Rdiv; ring).
      apply (C68_sign m tp fp TP FP r v) in Z1; auto; [|repeat split; lia|lia]. apply (C68_sign m tp' fp' TP FP q v') in Z2; auto; [|repeat split; lia|lia]. lra.
    + assert (tp' = tp) by nia. assert (fp' = fp) by nia. subst tp' fp'. rewrite Er in Eq. injection Eq as ->. lra.
Qed.
Lemma float_low : forall df tcol tval X q, rows df <= 2 ^ 23 -> quality (fl_measure WRAcc) df tcol tval X = Ok q -> (-99999 < q)%R.
Proof.
  intros df tcol tval X0 q0 HN E0. destruct (table_counts df tcol tval X0) as (T1 & T2 & T).
  destruct (C68_ranges WRAcc (tp_of df (Sel tcol EQUAL (VStr tval)) X0) (fp_of df (Sel tcol EQUAL (VStr tval)) X0) (TP_of df tcol tval) (FP_of df tcol tval) q0) as [L _]; auto; [repeat split; lia|cbn [range_limit]; lia|].
  cbn [lower] in L. rewrite Q2R_opp in L. unfold Q2R in L. cbn in L. lra.
Qed.
Lemma float_input : forall cl ms num depth df tcol tval, rows df <= 2 ^ 23 -> categorical df -> distinct_texts df tcol -> has_column df tcol -> 1 <= num -> bsd_input (float_bsd cl ms num depth) df tcol tval.
Proof.
  intros cl ms num depth df tcol tval HN H1 H2 H3 H4. split; auto. split; auto. split; auto. split; [apply rlt_weak|]. split; auto. intros X0 q0 K E0. cbn [float_bsd bc_lt bc_dummy bc_measure] in *. apply rlt_false. left. eapply float_low; eauto.
Qed.
Theorem C70_bsd_best : forall cl ms num depth df tcol tval st X q, rows df <= 2 ^ 23 -> categorical df -> distinct_texts df tcol -> has_column df tcol -> 1 <= num ->
  let c := float_bsd cl ms num depth in
  bsd_fit c (bsd_new c) df tcol tval = Ok st -> within_limits c df tcol tval X -> quality (fl_measure WRAcc) df tcol tval X = Ok q ->
  exists e, In e (bs_k st) /\ true_entry c df tcol tval e /\ (q <= e_quality e)%R.
Proof.
  intros cl ms num depth df tcol tval st X q HN H1 H2 H3 H4 c E W Eq.
  assert (HB := float_input cl ms num depth df tcol tval HN H1 H2 H3 H4).
  destruct (C56_best_quality c df tcol tval st X q HB) as (e & A & B & C); auto.
  - intros X0 Y o q0 KX KY I Eo E0. cbn [c float_bsd bc_lt bc_oe bc_measure] in *. apply rlt_false. destruct (table_counts df tcol tval Y) as (T1 & T2 & T). destruct (counts_incl df (Sel tcol EQUAL (VStr tval)) X0 Y I) as [C1 C2].
    unfold quality in Eo, E0. eapply (C69_estimates_bound WRAccOptimisticEstimate1 WRAcc); [left; reflexivity| | | | |exact Eo|exact E0]; auto; try lia. unfold counted. lia.
  - intros _ X0 Y q0 r KX KY [I1 I2] E0 Er. cbn [c float_bsd bc_lt bc_measure] in *. apply rlt_false. destruct (table_counts df tcol tval Y) as (T1 & T2 & T). destruct (table_counts df tcol tval X0) as (T3 & T4 & _). set (t := Sel tcol EQUAL (VStr tval)) in *.
    assert (L1 : tp_of df t X0 <= tp_of df t Y) by (unfold tp_of; apply inj_le, length_incl; auto; apply NoDup_filter, seq_NoDup).
    assert (L2 : fp_of df t Y <= fp_of df t X0) by (unfold fp_of; apply inj_le, length_incl; auto; apply NoDup_filter, seq_NoDup).
    unfold quality in E0, Er. fold t in E0, Er. eapply (C68_monotone WRAcc); [left; reflexivity| | | | | |exact E0|exact Er]; auto; unfold counted; lia.
  - cbn [c float_bsd bc_lt bc_dummy]. apply rlt_true. eapply float_low; eauto.
  - exists e. split; auto. split; auto. apply rlt_false in C. exact C.
Qed.
Print Assumptions C68_monotone. Print Assumptions C70_bsd_best.
(** * The hypotheses are satisfiable *)
Lemma toy_rows : rows toy <= 2 ^ 23.
Proof. vm_compute. discriminate. Qed.
Lemma fl_defined : forall m tp fp TP FP, In m [PiatetskyShapiro; PSOptimisticEstimate1; PSOptimisticEstimate2; WRAcc; WRAccOptimisticEstimate1] -> 1 <= tp + fp -> 0 <= tp <= TP -> 0 <= fp <= FP ->
  exists q, fl_measure m tp fp TP FP = Ok q.
Proof.
  intros m tp fp TP FP Hm H1 H2 H3. destruct Hm as [<-|[<-|[<-|[<-|[<-|[]]]]]]; cbn [fl_measure]; rewrite !fl_div_ok by lia; cbn [bind]; eauto.
Qed.
Example C68_nonvacuous : exists r q, counted 3 1 4 6 /\ fl_measure WRAcc 3 1 4 6 = Ok r /\ compute WRAcc (int_table 3 1 4 6) = Ok q /\ (q == 14 # 100)%Q.
Proof. do 2 eexists. split; [unfold counted; lia|]. split; [reflexivity|]. split; reflexivity. Qed.
Example C69_nonvacuous : exists oe r, In WRAcc (optimistic_estimate_of WRAccOptimisticEstimate1) /\ counted 3 1 4 6 /\ fl_measure WRAccOptimisticEstimate1 3 1 4 6 = Ok oe /\ fl_measure WRAcc 2 1 4 6 = Ok r.
Proof. do 2 eexists. split; [left; reflexivity|]. split; [unfold counted; lia|]. split; reflexivity. Qed.
Example C70_vlsd_nonvacuous : forall Seq impl rows', representation Seq impl rows' -> forall s1 other, exists st',
  vlsd_fit impl (float_vlsd WRAcc WRAccOptimisticEstimate1 (1 / 10) (1 / 10) s1 other) vlsd_new toy "class" "p" = Ok st' /\ rows toy <= 2 ^ 25.
Proof.
  intros Seq impl rows' HR s1 other. destruct (C29_errors Seq impl rows' HR R (float_vlsd WRAcc WRAccOptimisticEstimate1 (1 / 10) (1 / 10) s1 other) toy "class" "p" vlsd_new (proj1 toy_ok) (proj2 (proj2 toy_ok))) as [H _].
  destruct H as (st' & E); [|exists st'; split; [exact E|vm_compute; discriminate]].
  intros X K. destruct (candidate_counts toy "class" "p" X K) as (A1 & A2 & A3). cbn [float_vlsd vc_measure vc_oe]. unfold quality.
  destruct (fl_defined WRAcc _ _ _ _ ltac:(cbn; auto 10) A1 A2 A3) as (q & Eq). destruct (fl_defined WRAccOptimisticEstimate1 _ _ _ _ ltac:(cbn; auto 10) A1 A2 A3) as (o & Eo). eauto.
Qed.
Example C70_bsd_nonvacuous : exists st q, let c := float_bsd BSD 0 3 1 in
  bsd_fit c (bsd_new c) toy "class" "p" = Ok st /\ within_limits c toy "class" "p" [is "a" "x"; is "b" "u"] /\ quality (fl_measure WRAcc) toy "class" "p" [is "a" "x"; is "b" "u"] = Ok q.
Proof.
  assert (W : within_limits (float_bsd BSD 0 3 1) toy "class" "p" [is "a" "x"; is "b" "u"]).
  { split; [split; [split; [discriminate|split]|]|split].
    - repeat constructor; vm_compute; reflexivity.
    - intros s [<-|[<-|[]]]; cbn; repeat split; eauto; vm_compute; try discriminate; eauto.
    - vm_compute. lia.
    - intros s [<-|[<-|[]]]; vm_compute; discriminate.
    - vm_compute. discriminate. }
  assert (DF : forall m X, In m [PiatetskyShapiro; PSOptimisticEstimate1; PSOptimisticEstimate2; WRAcc; WRAccOptimisticEstimate1] -> candidate toy "class" X -> exists q, quality (fl_measure m) toy "class" "p" X = Ok q).
  { intros m X Hm K. destruct (candidate_counts toy "class" "p" X K) as (A1 & A2 & A3). apply fl_defined; auto. }
  destruct (C38_accepts (float_bsd BSD 0 3 1) toy "class" "p") as (st & E).
  - apply float_input; [apply toy_rows|apply toy_ok|apply no_quotes_texts; [apply toy_ok|exact toy_no_quotes]|apply toy_ok|lia].
  - intros X K. destruct (DF WRAcc X ltac:(cbn; auto 10) K) as (q & Eq). destruct (DF WRAccOptimisticEstimate1 X ltac:(cbn; auto 10) K) as (o & Eo). exists q, o. auto.
  - intros _. left. vm_compute. discriminate.
  - destruct (DF WRAcc _ ltac:(cbn; auto 10) (proj1 W)) as (q & Eq). exists st, q. auto.
Qed.
Definition three_rows : dataframe := DF 3 [("a", [VStr "x"; VStr "x"; VStr "y"]); ("class", [VStr "p"; VStr "p"; VStr "n"])].
Lemma star_three : forall (f g : Z -> Z -> Z -> Z -> res R) (h : R -> bool) (k : R -> R -> bool) a b, f 2 0 2 1 = Ok a -> g 2 0 2 1 = Ok b ->
  exists st', star_fit (StarC (SDC f h None None (Some 2) true) g f k (fun x y => negb (k x y) && negb (k y x)) 5) (StarS (SDS 0 0 None) [] 0 0) three_rows "class" "p" = Ok st' /\ ss_cpruned st' = 0%nat.
Proof.
  intros f g h k a b E1 E2. vm_compute. rewrite E1, E2. destruct (k b a); [eexists; split; reflexivity|]. destruct (h a); eexists; split; reflexivity.
Qed.
Lemma one_frequent : forall (f g : Z -> Z -> Z -> Z -> res R) (h : R -> bool) (k e : R -> R -> bool), frequent_for (StarC (SDC f h None None (Some 2) true) g f k e 5) three_rows "class" "p" [Sel "a" EQUAL (VStr "x")].
Proof.
  intros f g h k e. split; [split; [discriminate|split]|].
  - vm_compute. repeat constructor.
  - intros s [<-|[]]; repeat split; try discriminate; eexists; reflexivity.
  - split; vm_compute; [lia|discriminate].
Qed.
Example C70_top_k_nonvacuous : exists st0 st', let c := float_star PiatetskyShapiro PSOptimisticEstimate2 0 None None (Some 2) 5 in
  star_new c = Ok st0 /\ star_fit c st0 three_rows "class" "p" = Ok st' /\ ss_cpruned st' = 0%nat /\ frequent_for c three_rows "class" "p" [Sel "a" EQUAL (VStr "x")].
Proof.
  destruct (fl_defined PiatetskyShapiro 2 0 2 1 ltac:(cbn; auto 10) ltac:(lia) ltac:(lia) ltac:(lia)) as (a & E1). destruct (fl_defined PSOptimisticEstimate2 2 0 2 1 ltac:(cbn; auto 10) ltac:(lia) ltac:(lia) ltac:(lia)) as (b & E2).
  exists (StarS (SDS 0 0 None) [] 0 0). cbv zeta.
  destruct (star_three _ _ (rle 0) rlt a b E1 E2) as (st' & G1 & G2). exists st'. split; [reflexivity|]. split; [exact G1|]. split; [exact G2|]. apply one_frequent.
Qed.
