(** C56: the best quality found by BSD, CBSD and CPBSD. *)
From Verif Require Export BSDBest Properties_BSD.
From Verif Require Import QualityModel QualitySpec QualityProofs Properties_Quality MiningProofs Properties_SDMap Properties_SDMapStar Properties_VLSD.
From Coq Require Import Lra Lqa.
Open Scope string_scope.
Open Scope list_scope.
Open Scope Z_scope.

(** * Specification *)
(** The estimate of a description is at least the quality of each description that extends it. *)
Definition upper_estimate {V} (c : bsd_config V) (df : dataframe) (tcol tval : string) : Prop :=
  forall X Y o q, candidate df tcol X -> candidate df tcol Y -> incl Y X ->
    quality (bc_oe c) df tcol tval Y = Ok o -> quality (bc_measure c) df tcol tval X = Ok q -> bc_lt c o q = false.
(** A description is not better than one that makes it irrelevant. *)
Definition respects_relevance {V} (c : bsd_config V) (df : dataframe) (tcol tval : string) : Prop :=
  forall X Y q r, candidate df tcol X -> candidate df tcol Y -> irrelevant_by df (Sel tcol EQUAL (VStr tval)) X Y ->
    quality (bc_measure c) df tcol tval X = Ok q -> quality (bc_measure c) df tcol tval Y = Ok r -> bc_lt c r q = false.
(** The descriptions within the limits of the algorithm. *)
Definition within_limits {V} (c : bsd_config V) (df : dataframe) (tcol tval : string) (X : list selector) : Prop :=
  candidate df tcol X /\ (forall s, In s X -> bc_min_support c <= tp_of df (Sel tcol EQUAL (VStr tval)) [s]) /\
  Z.of_nat (length X) <= Z.max 0 (bc_max_depth c) + 1.

Lemma candidate_selector : forall df tcol X s, categorical df -> candidate df tcol X -> In s X -> In s (map fst (column_selectors df tcol)).
Proof.
  intros df tcol X s Hcat [D C] Is. apply (Permutation_in _ (column_selectors_perm df tcol Hcat)).
  destruct (candidate_U df tcol X Hcat D) as [HU _]. destruct (HU s Is) as [Ns (col & Ic)].
  apply (all_sels_in df tcol "" Hcat (fun _ _ => true)); [apply incl_refl|]. exists (s_attr s), col, (s_val s). split; auto. split; [|destruct s as [a o v]; destruct Ns as [Ho _]; cbn in *; subst; reflexivity].
  assert (R : exists i, row_matchesb df i s = true).
  { unfold coverage in C. destruct (filter (fun i => forallb (row_matchesb df i) X) (seq 0 (df_n df))) as [|i l] eqn:Ef; [cbn [length] in C; lia|].
    assert (I : In i (filter (fun i => forallb (row_matchesb df i) X) (seq 0 (df_n df)))) by (rewrite Ef; left; auto). apply filter_In in I. destruct I as [_ I]. rewrite forallb_forall in I. exists i. auto. }
  destruct R as [i M]. apply (row_match_cell df Hcat i s Ns) in M. unfold cell in M. apply cols_in in Ic. destruct Ic as [Ic _].
  rewrite (proj2 (col_get_in _ _ col (proj1 (proj2 Hcat))) Ic) in M. eapply nth_error_In; eauto.
Qed.
(** No description within the limits is better than the best stored one. *)
Theorem C56_best_quality : forall {V} (c : bsd_config V) df tcol tval st X q, bsd_input c df tcol tval ->
  upper_estimate c df tcol tval -> (bc_class c = BSD -> respects_relevance c df tcol tval) ->
  bsd_fit c (bsd_new c) df tcol tval = Ok st ->
  within_limits c df tcol tval X -> quality (bc_measure c) df tcol tval X = Ok q -> bc_lt c (bc_dummy c) q = true ->
  exists e, In e (bs_k st) /\ true_entry c df tcol tval e /\ bc_lt c (e_quality e) q = false.
Proof.
  intros V c df tcol tval st X q HB Hs Hr E (K & Hm & Hl) Eq Hd. assert (HB' := HB). destruct HB as (H1 & H2 & H3 & H4 & H5 & H6).
  destruct (mask_spec df tcol tval H1 H3) as (mask & Hk & _).
  assert (I : incl X (L df tcol mask (bc_min_support c))).
  { intros s Is. apply (L_in df tcol tval H1 H3 mask Hk). split; auto. apply (candidate_selector df tcol X); auto. }
  assert (Mono : bc_class c = BSD -> forall X Y q r, candidate df tcol X -> candidate df tcol Y -> dominated df tcol tval X Y = true ->
    quality (bc_measure c) df tcol tval X = Ok q -> quality (bc_measure c) df tcol tval Y = Ok r -> bc_lt c r q = false).
  { intros Hc X' Y' q' r' KX KY D EX EY. apply (Hr Hc X' Y' q' r'); auto. unfold dominated in D. apply andb_true_iff in D. split; [apply pos_within; tauto|apply neg_within; tauto]. }
  destruct (fit_best c df tcol tval H1 H2 H3 mask Hk H4 H5 H6 Hs Mono st E X q K I Hl Eq) as (e & Ie & He). exists e. split; auto. split; auto.
  destruct (best_lists c df tcol tval HB' st (bs_k st) E (or_introl eq_refl)) as [Ed|(_ & _ & _ & F)].
  - rewrite Ed in Ie. destruct Ie as [<-|[]]. cbn [dummy_entry e_quality] in He. congruence.
  - rewrite Forall_forall in F. auto.
Qed.
Print Assumptions C56_best_quality.

(** * WRAcc *)
Lemma wracc_value : forall tp fp TP FP q, on_counts WRAcc tp fp TP FP = Ok q ->
  (q == (inject_Z tp - (inject_Z tp + inject_Z fp) * (inject_Z TP / (inject_Z TP + inject_Z FP))) / (inject_Z TP + inject_Z FP))%Q.
Proof.
  intros tp fp TP FP q H. unfold on_counts in H. cbn [compute wracc_m table QualityModel.pget lookup String.eqb Ascii.eqb Bool.eqb bind] in H.
  unfold qdiv in H. destruct (Qeq_bool (inject_Z TP + inject_Z FP) 0) eqn:E1; [discriminate|]. cbn [bind] in H. destruct (Qeq_bool (inject_Z tp + inject_Z fp) 0) eqn:E2 in H; [discriminate|]. cbn [bind] in H.
  injection H as <-. apply Qeq_bool_neq in E1. apply Qeq_bool_neq in E2. field. auto.
Qed.
Lemma wracc_mono : forall tp fp tp' fp' TP FP q r, 0 <= tp' <= tp -> 0 <= fp <= fp' -> 0 <= TP -> 0 <= FP -> 1 <= TP + FP ->
  on_counts WRAcc tp' fp' TP FP = Ok q -> on_counts WRAcc tp fp TP FP = Ok r -> (q <= r)%Q.
Proof.
  intros tp fp tp' fp' TP FP q r A B C D E Hq Hr. apply wracc_value in Hq, Hr. rewrite Hq, Hr.
  assert (P : (0 < inject_Z TP + inject_Z FP)%Q) by (rewrite <- inject_Z_plus; change 0%Q with (inject_Z 0); rewrite <- Zlt_Qlt; lia).
  assert (A1 : (inject_Z tp' <= inject_Z tp)%Q) by (rewrite <- Zle_Qle; lia).
  assert (A2 : (inject_Z fp <= inject_Z fp')%Q) by (rewrite <- Zle_Qle; lia).
  assert (A3 : (0 <= inject_Z TP)%Q) by (change 0%Q with (inject_Z 0); rewrite <- Zle_Qle; lia).
  assert (A4 : (0 <= inject_Z FP)%Q) by (change 0%Q with (inject_Z 0); rewrite <- Zle_Qle; lia).
  assert (Bp : (0 <= inject_Z TP / (inject_Z TP + inject_Z FP) <= 1)%Q).
  { split; [apply Qle_shift_div_l; auto; lra|apply Qle_shift_div_r; auto; lra]. }
  revert Bp. generalize (inject_Z TP / (inject_Z TP + inject_Z FP))%Q. intros p Bp. unfold Qdiv. apply Qmult_le_compat_r; [nra|]. apply Qlt_le_weak, Qinv_lt_0_compat. auto.
Qed.
Lemma wracc_upper : forall cl ms num depth df tcol tval, upper_estimate (wracc_config cl ms num depth) df tcol tval.
Proof.
  intros cl ms num depth df tcol tval X Y o q KX KY I Eo Eq. cbn [wracc_config bc_lt bc_oe bc_measure] in *. apply qlt_false.
  destruct (candidate_counts df tcol tval X KX) as (A1 & A2 & A3). destruct (candidate_counts df tcol tval Y KY) as (B1 & B2 & B3).
  destruct (counts_incl df (Sel tcol EQUAL (VStr tval)) X Y I) as [C1 C2].
  apply (C18_wracc_estimate_bounds WRAccOptimisticEstimate1 (or_introl eq_refl)
    (table (inject_Z (tp_of df (Sel tcol EQUAL (VStr tval)) Y)) (inject_Z (fp_of df (Sel tcol EQUAL (VStr tval)) Y)) (inject_Z (TP_of df tcol tval)) (inject_Z (FP_of df tcol tval)))
    (table (inject_Z (tp_of df (Sel tcol EQUAL (VStr tval)) X)) (inject_Z (fp_of df (Sel tcol EQUAL (VStr tval)) X)) (inject_Z (TP_of df tcol tval)) (inject_Z (FP_of df tcol tval)))
    (tp_of df (Sel tcol EQUAL (VStr tval)) Y) (fp_of df (Sel tcol EQUAL (VStr tval)) Y)
    (tp_of df (Sel tcol EQUAL (VStr tval)) X) (fp_of df (Sel tcol EQUAL (VStr tval)) X) (TP_of df tcol tval) (FP_of df tcol tval) o q); auto; try lia.
  - repeat split; reflexivity.
  - repeat split; reflexivity.
Qed.
Lemma length_incl : forall (l m : list nat), NoDup l -> incl l m -> (length l <= length m)%nat.
Proof. intros l m N I. apply NoDup_incl_length; auto. Qed.
Lemma wracc_relevance : forall cl ms num depth df tcol tval, respects_relevance (wracc_config cl ms num depth) df tcol tval.
Proof.
  intros cl ms num depth df tcol tval X Y q r KX KY [I1 I2] Eq Er. cbn [wracc_config bc_lt bc_measure] in *. apply qlt_false.
  destruct (candidate_counts df tcol tval X KX) as (A1 & A2 & A3). destruct (candidate_counts df tcol tval Y KY) as (B1 & B2 & B3).
  set (t := Sel tcol EQUAL (VStr tval)) in *.
  assert (T1 : tp_of df t X <= tp_of df t Y) by (unfold tp_of; apply inj_le, length_incl; auto; apply NoDup_filter, seq_NoDup).
  assert (T2 : fp_of df t Y <= fp_of df t X) by (unfold fp_of; apply inj_le, length_incl; auto; apply NoDup_filter, seq_NoDup).
  apply (wracc_mono (tp_of df t Y) (fp_of df t Y) (tp_of df t X) (fp_of df t X) (TP_of df tcol tval) (FP_of df tcol tval)); auto; lia.
Qed.
(** Weighted relative accuracy with its estimate, every class and every dataset. *)
Theorem C56_best_wracc : forall cl ms num depth df tcol tval st X q, categorical df -> distinct_texts df tcol -> has_column df tcol -> 1 <= num ->
  let c := wracc_config cl ms num depth in
  bsd_fit c (bsd_new c) df tcol tval = Ok st -> within_limits c df tcol tval X -> quality (on_counts WRAcc) df tcol tval X = Ok q ->
  exists e, In e (bs_k st) /\ true_entry c df tcol tval e /\ (q <= e_quality e)%Q.
Proof.
  intros cl ms num depth df tcol tval st X q H1 H2 H3 H4 c E W Eq. assert (HB := wracc_input cl ms num depth df tcol tval H1 H2 H3 H4).
  assert (Hd : bc_lt c (bc_dummy c) q = true).
  { destruct HB as (_ & _ & _ & _ & _ & HB). assert (Hx := HB X q (proj1 W) Eq). unfold c. cbn [wracc_config bc_lt bc_dummy bc_measure] in *. apply qlt_false in Hx. apply qlt_true.
    destruct (candidate_counts df tcol tval X (proj1 W)) as (A1 & A2 & A3). set (t := Sel tcol EQUAL (VStr tval)) in *.
    assert (D : describes (table (inject_Z (tp_of df t X)) (inject_Z (fp_of df t X)) (inject_Z (TP_of df tcol tval)) (inject_Z (FP_of df tcol tval)))
      (inject_Z (tp_of df t X)) (inject_Z (fp_of df t X)) (inject_Z (TP_of df tcol tval)) (inject_Z (FP_of df tcol tval))) by (repeat split; reflexivity).
    assert (Cs : consistent (inject_Z (tp_of df t X)) (inject_Z (fp_of df t X)) (inject_Z (TP_of df tcol tval)) (inject_Z (FP_of df tcol tval))).
    { unfold consistent. change 0%Q with (inject_Z 0). rewrite <- ?inject_Z_plus, <- ?Zle_Qle, <- ?Zlt_Qlt. lia. }
    destruct (C14_ranges WRAcc _ _ _ _ _ q D Cs (fun H => ltac:(discriminate)) Eq) as [Lo _]. cbn [lower] in Lo. lra. }
  destruct (C56_best_quality c df tcol tval st X q HB (wracc_upper cl ms num depth df tcol tval) (fun _ => wracc_relevance cl ms num depth df tcol tval) E W Eq Hd) as (e & A & B & C).
  exists e. split; auto. split; auto. apply qlt_false in C. exact C.
Qed.
Print Assumptions C56_best_wracc.
Example C56_nonvacuous : exists st q, let c := wracc_config CBSD 0 3 1 in
  bsd_fit c (bsd_new c) toy "class" "p" = Ok st /\ within_limits c toy "class" "p" [is "a" "x"; is "b" "u"] /\
  quality (on_counts WRAcc) toy "class" "p" [is "a" "x"; is "b" "u"] = Ok q /\ (q == 1 # 4)%Q.
Proof.
  eexists _, _. cbn zeta. split; [vm_compute; reflexivity|]. split; [|split; vm_compute; reflexivity].
  split; [split; [split; [discriminate|split]|]|split].
  - repeat constructor; vm_compute; reflexivity.
  - intros s [<-|[<-|[]]]; cbn; repeat split; eauto; vm_compute; try discriminate; eauto.
  - vm_compute. lia.
  - intros s [<-|[<-|[]]]; vm_compute; discriminate.
  - vm_compute. discriminate.
Qed.
Definition ps_bsd (cl : bsd_class) (ms num depth : Z) : bsd_config Q :=
  BC cl (on_counts PiatetskyShapiro) (on_counts PSOptimisticEstimate2) qlt (-99999 # 1) (fun _ => true) ms num depth true.
Definition pfit (cl : bsd_class) (ms num depth : Z) (df : dataframe) : res (bsd_state Q) :=
  bsd_fit (ps_bsd cl ms num depth) (bsd_new (ps_bsd cl ms num depth)) df "class" "p".
Definition freed : dataframe := rows3 [("1","1","0","p"); ("1","1","0","p"); ("1","1","0","p"); ("1","0","0","n"); ("0","1","0","n"); ("0","0","1","p"); ("0","0","0","n")].
(** Only the best one is guaranteed. Here BSD ends with one entry although two were asked for; [c = 1], with one positive row and no
    negative row, is within the limits, has positive quality and no description makes it irrelevant (its only positive row is row 5,
    and every description that covers row 5 and no negative row is a specialization of it with the same rows): it was rejected while
    the list was full, and the two entries that kept it out were later removed by a better one. *)
Theorem C56_top_k_counterexample : exists st q, let c := ps_bsd BSD 1 2 5 in
  bsd_fit c (bsd_new c) freed "class" "p" = Ok st /\ within_limits c freed "class" "p" [is "c" "1"] /\
  brief (Ok st) = Ok [([is "a" "1"; is "b" "1"; is "c" "0"], 3, 0)] /\
  quality (on_counts PiatetskyShapiro) freed "class" "p" [is "c" "1"] = Ok q /\ (q == 3 # 7)%Q /\
  pos_rows freed (Sel "class" EQUAL (VStr "p")) [is "c" "1"] = [5%nat] /\ neg_rows freed (Sel "class" EQUAL (VStr "p")) [is "c" "1"] = [].
Proof.
  eexists _, _. cbn zeta. split; [vm_compute; reflexivity|]. split; [|repeat split; vm_compute; reflexivity].
  split; [split; [split; [discriminate|split]|]|split].
  - repeat constructor; vm_compute; reflexivity.
  - intros s [<-|[]]; cbn; repeat split; eauto; vm_compute; try discriminate; eauto.
  - vm_compute. lia.
  - intros s [<-|[]]; vm_compute; discriminate.
  - vm_compute. discriminate.
Qed.
Print Assumptions C56_top_k_counterexample.
