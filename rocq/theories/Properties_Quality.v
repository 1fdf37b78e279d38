(** Theorems C14-C20: quality measures. *)
From Verif Require Import QualitySpec QualityProofs BinomialModel BinomialProofs.
From Coq Require Import Lra Lqa.
Open Scope string_scope.
Open Scope Q_scope.

Definition table (tp fp TP FP : Q) : params := [("tp", tp); ("fp", fp); ("TP", TP); ("FP", FP)].

(** * C14 *)
Theorem C14_ranges : forall m d tp fp TP FP q,
  describes d tp fp TP FP -> consistent tp fp TP FP ->
  (m = Qg -> forall g, lookup d "g" = Some g -> 0 <= g) ->
  compute m d = Ok q ->
  lower m TP FP <= q /\ (forall u, upper m TP FP = Some u -> q <= u).
Proof. exact ranges. Qed.
Print Assumptions C14_ranges.
Example C14_nonvacuous : describes (table 3 1 4 6) 3 1 4 6 /\ consistent 3 1 4 6 /\
  compute WRAcc (table 3 1 4 6) = Ok ((4 / 10) * (3 / 4 - 4 / 10)).
Proof. repeat split; vm_compute; discriminate || reflexivity. Qed.

(** * C15 *)
Theorem C15_missing_parameter : forall m d,
  (exists k, In k (needed m) /\ lookup d k = None) <->
  (compute m d = Err SubgroupParameterNotFoundError \/ compute m d = Err ParameterNotFoundError).
Proof. exact compute_missing. Qed.
Print Assumptions C15_missing_parameter.
Theorem C15_missing_g : forall m d,
  compute m d = Err ParameterNotFoundError <->
  m = Qg /\ lookup d "tp" <> None /\ lookup d "fp" <> None /\ lookup d "g" = None.
Proof. exact compute_parameter_not_found. Qed.
Print Assumptions C15_missing_g.
Theorem C15_value_or_zero_division : forall m d, (forall k, In k (needed m) -> lookup d k <> None) ->
  let v := value_or d in
  let dens := denominators m (v "tp") (v "fp") (v "TP") (v "FP") (v "g") in
  ((exists x, In x dens /\ x == 0) /\ compute m d = Err ZeroDivisionError) \/
  ((forall x, In x dens -> ~ x == 0) /\
   exists q, compute m d = Ok q /\ q == formula m (v "tp") (v "fp") (v "TP") (v "FP") (v "g")).
Proof. exact compute_defined. Qed.
Print Assumptions C15_value_or_zero_division.
Theorem C15_other_keys_irrelevant : forall m d d',
  (forall k, In k (needed m) -> lookup d k = lookup d' k) -> compute m d = compute m d'.
Proof. exact compute_ext. Qed.
Print Assumptions C15_other_keys_irrelevant.
Example C15_nonvacuous :
  compute Qg [("tp", 1); ("fp", 0)] = Err ParameterNotFoundError /\
  compute PPV [("x", 9); ("fp", 0); ("tp", 0)] = Err ZeroDivisionError /\
  compute PPV [("x", 9); ("fp", 1); ("tp", 1)] = Ok (1 / 2) /\
  compute NPV (table 0 0 1 1) = Ok (1 / 2).
Proof. repeat split. Qed.
Theorem C15_binomial_value : forall d tp fp TP FP, describes d tp fp TP FP -> consistent tp fp TP FP ->
  0 < tp + fp -> tp + fp < TP + FP -> 0 < TP -> 0 < FP ->
  let n := Q2R (tp + fp) in let N := Q2R (TP + FP) in let p := (Q2R tp / n)%R in let p0 := (Q2R TP / N)%R in
  binomial_test_m d = Ok ((p - p0) * sqrt n / sqrt (p0 * (1 - p0)) * sqrt (N / (N - n)))%R.
Proof. exact binomial_value. Qed.
Print Assumptions C15_binomial_value.
(** Outside that region the binomial test raises ZeroDivisionError. *)
Theorem C15_binomial_error : forall d tp fp TP FP, describes d tp fp TP FP -> consistent tp fp TP FP ->
  (tp + fp == 0 \/ tp + fp == TP + FP \/ TP == 0 \/ FP == 0) ->
  binomial_test_m d = Err ZeroDivisionError.
Proof.
  intros d tp fp TP FP (H1 & H2 & H3 & H4) (HC1 & HC2) H.
  unfold binomial_test_m, pget. rewrite H1, H2, H3, H4. cbn [bind].
  destruct (qdiv_spec tp (tp + fp)) as [[E ->]|[E ->]]; [reflexivity|cbn [bind]].
  destruct (qdiv_spec TP (TP + FP)) as [[F ->]|[F ->]]; [reflexivity|cbn [bind]].
  assert (PN : 0 < TP + FP) by (apply pos_nz; [lra|assumption]).
  assert (G1 : 0 <= TP / (TP + FP)) by (apply div_nonneg; lra).
  assert (G2 : TP / (TP + FP) <= 1) by (apply div_le_1; lra).
  rewrite py_sqrt_ok by lra. cbn [bind].
  rewrite py_sqrt_ok by (apply Qmult_le_0_compat; lra). cbn [bind].
  destruct (qdiv_spec 1 (TP / (TP + FP) * (1 - TP / (TP + FP)))) as [[K ->]|[K ->]]; [reflexivity|cbn [bind]].
  destruct (qdiv_spec (TP + FP) (TP + FP - (tp + fp))) as [[L ->]|[L ->]]; [reflexivity|cbn [bind]].
  exfalso. destruct H as [H|[H|[H|H]]]; [contradiction|apply L; lra| |]; apply K.
  - rewrite H. field. lra.
  - assert (X : TP + FP == TP) by lra. rewrite X. field. lra.
Qed.
Print Assumptions C15_binomial_error.

(** * C16 *)
Section Identities.
  Variables (d : params) (tp fp TP FP : Q).
  Hypothesis Hd : describes d tp fp TP FP.
  Lemma all_present : forall m k, In k (needed m) -> m <> Qg -> lookup d k <> None.
  Proof.
    destruct Hd as (H1 & H2 & H3 & H4). intros m k Hk Hm.
    destruct m; simpl in Hk; try congruence; repeat (destruct Hk as [<-|Hk]; [congruence|]); destruct Hk.
  Qed.
  Lemma value_of : forall m q, compute m d = Ok q -> m <> Qg ->
    q == formula m tp fp TP FP 0 /\ forall x, In x (denominators m tp fp TP FP 0) -> ~ x == 0.
  Proof.
    intros m q Hq Hm. destruct (compute_defined m d) as [[_ X]|(Hx & q' & X & E)].
    - intros k Hk. apply (all_present m); auto.
    - congruence.
    - assert (q' = q) by congruence. subst q'. destruct Hd as (H1 & H2 & H3 & H4).
      unfold the_formula, all_dens, value_or in *. rewrite H1, H2, H3, H4 in *. split.
      + rewrite E. destruct m; try congruence; reflexivity.
      + intros x Hin. apply Hx. destruct m; try congruence; exact Hin.
  Qed.
End Identities.

Theorem C16_ps_is_scaled_wracc : forall d tp fp TP FP ps w, describes d tp fp TP FP ->
  compute PiatetskyShapiro d = Ok ps -> compute WRAcc d = Ok w -> ps == (TP + FP) * w.
Proof.
  intros d tp fp TP FP ps w Hd H1 H2.
  destruct (value_of _ _ _ _ _ Hd _ _ H1 ltac:(discriminate)) as (-> & D1).
  destruct (value_of _ _ _ _ _ Hd _ _ H2 ltac:(discriminate)) as (-> & D2). simpl in *. field. split; auto.
Qed.
Print Assumptions C16_ps_is_scaled_wracc.
Theorem C16_absolute_wracc : forall d a w, compute AbsoluteWRAcc d = Ok a -> compute WRAcc d = Ok w -> a == Qabs w.
Proof. intros d a w Ha Hw. simpl in *. unfold absolute_wracc_m in Ha. rewrite Hw in Ha. injection Ha as <-. reflexivity. Qed.
Print Assumptions C16_absolute_wracc.
Theorem C16_f1_harmonic_mean : forall d tp fp TP FP f p s, describes d tp fp TP FP ->
  compute F1Score d = Ok f -> compute PPV d = Ok p -> compute Sensitivity d = Ok s -> ~ tp == 0 ->
  f == 2 * p * s / (p + s).
Proof.
  intros d tp fp TP FP f p s Hd H1 H2 H3 Ht.
  destruct (value_of _ _ _ _ _ Hd _ _ H1 ltac:(discriminate)) as (-> & D1).
  destruct (value_of _ _ _ _ _ Hd _ _ H2 ltac:(discriminate)) as (-> & D2).
  destruct (value_of _ _ _ _ _ Hd _ _ H3 ltac:(discriminate)) as (-> & D3). simpl in *.
  assert (A : ~ tp + fp + TP == 0) by auto. assert (B : ~ tp + fp == 0) by auto. assert (C : ~ TP == 0) by auto.
  assert (E : tp / (tp + fp) + tp / TP == tp * (tp + fp + TP) / ((tp + fp) * TP)) by (field; auto).
  rewrite E. field. repeat split; auto.
Qed.
Print Assumptions C16_f1_harmonic_mean.
Theorem C16_youden : forall d tp fp TP FP y s sp, describes d tp fp TP FP ->
  compute Youden d = Ok y -> compute Sensitivity d = Ok s -> compute Specificity d = Ok sp -> y == s + sp - 1.
Proof.
  intros d tp fp TP FP y s sp Hd H1 H2 H3.
  destruct (value_of _ _ _ _ _ Hd _ _ H1 ltac:(discriminate)) as (-> & D1).
  destruct (value_of _ _ _ _ _ Hd _ _ H2 ltac:(discriminate)) as (-> & D2).
  destruct (value_of _ _ _ _ _ Hd _ _ H3 ltac:(discriminate)) as (-> & D3). simpl. ring.
Qed.
Print Assumptions C16_youden.
Theorem C16_irr : forall d tp fp TP FP i p sp, describes d tp fp TP FP ->
  compute IRR d = Ok i -> compute PPV d = Ok p -> compute Specificity d = Ok sp -> i == p + sp - 1.
Proof.
  intros d tp fp TP FP i p sp Hd H1 H2 H3.
  destruct (value_of _ _ _ _ _ Hd _ _ H1 ltac:(discriminate)) as (-> & D1).
  destruct (value_of _ _ _ _ _ Hd _ _ H2 ltac:(discriminate)) as (-> & D2).
  destruct (value_of _ _ _ _ _ Hd _ _ H3 ltac:(discriminate)) as (-> & D3). simpl. ring.
Qed.
Print Assumptions C16_irr.
Theorem C16_coverage_ppv_support : forall d tp fp TP FP c p s, describes d tp fp TP FP ->
  compute Coverage d = Ok c -> compute PPV d = Ok p -> compute Support d = Ok s -> c * p == s.
Proof.
  intros d tp fp TP FP c p s Hd H1 H2 H3.
  destruct (value_of _ _ _ _ _ Hd _ _ H1 ltac:(discriminate)) as (-> & D1).
  destruct (value_of _ _ _ _ _ Hd _ _ H2 ltac:(discriminate)) as (-> & D2).
  destruct (value_of _ _ _ _ _ Hd _ _ H3 ltac:(discriminate)) as (-> & D3). simpl in *. field. split; auto.
Qed.
Print Assumptions C16_coverage_ppv_support.
Theorem C16_wracc_youden : forall d tp fp TP FP w y, describes d tp fp TP FP ->
  compute WRAcc d = Ok w -> compute Youden d = Ok y ->
  w == TP * FP / ((TP + FP) * (TP + FP)) * y.
Proof.
  intros d tp fp TP FP w y Hd H1 H2.
  destruct (value_of _ _ _ _ _ Hd _ _ H1 ltac:(discriminate)) as (-> & D1).
  destruct (value_of _ _ _ _ _ Hd _ _ H2 ltac:(discriminate)) as (-> & D2). simpl in *. field. repeat split; auto.
Qed.
Print Assumptions C16_wracc_youden.
Example C16_nonvacuous : Forall (fun m => exists q, compute m (("g", 1) :: table 3 1 4 6) = Ok q)
  [Coverage; Support; PPV; NPV; Sensitivity; Specificity; F1Score; IRR; Youden; Qg; WRAcc; AbsoluteWRAcc; PiatetskyShapiro].
Proof. repeat constructor; eexists; vm_compute; reflexivity. Qed.

(** * C17 *)
Theorem C17_ps_estimates_bound : forall m, In PiatetskyShapiro (optimistic_estimate_of m) ->
  forall d d' tp fp tp' fp' TP FP oe q,
  describes d tp fp TP FP -> describes d' tp' fp' TP FP -> consistent tp fp TP FP ->
  0 <= tp' <= tp -> 0 <= fp' <= fp ->
  compute m d = Ok oe -> compute PiatetskyShapiro d' = Ok q -> q <= oe.
Proof.
  intros m Hm. apply ps_oe_bounds. destruct m; simpl in Hm; intuition discriminate.
Qed.
Print Assumptions C17_ps_estimates_bound.
Example C17_nonvacuous : exists oe q, compute PSOptimisticEstimate2 (table 3 2 4 6) = Ok oe /\
  compute PiatetskyShapiro (table 2 1 4 6) = Ok q /\ q < oe.
Proof. eexists. eexists. repeat split; vm_compute; reflexivity. Qed.

(** * C18 *)
Theorem C18_wracc_estimate_bounds : forall m, In WRAcc (optimistic_estimate_of m) ->
  forall d d' (tp fp tp' fp' TP FP : Z) oe q,
  describes d (inject_Z tp) (inject_Z fp) (inject_Z TP) (inject_Z FP) ->
  describes d' (inject_Z tp') (inject_Z fp') (inject_Z TP) (inject_Z FP) ->
  (tp <= TP)%Z -> (fp <= FP)%Z -> (0 <= tp' <= tp)%Z -> (0 <= fp' <= fp)%Z ->
  compute m d = Ok oe -> compute WRAcc d' = Ok q -> q <= oe.
Proof.
  intros m Hm. assert (m = WRAccOptimisticEstimate1) as -> by (destruct m; simpl in Hm; intuition discriminate).
  exact wracc_oe_bounds.
Qed.
Print Assumptions C18_wracc_estimate_bounds.
Example C18_nonvacuous : exists oe q, compute WRAccOptimisticEstimate1 (table 3 2 4 6) = Ok oe /\
  compute WRAcc (table 3 0 4 6) = Ok q /\ q < oe.
Proof. eexists. eexists. repeat split; vm_compute; reflexivity. Qed.

(** * C19: false, even for the subgroup itself *)
Theorem C19_binomial_estimate_refuted : exists oe q,
  binomial_oe1_m (table 1 0 1 1) = Ok oe /\ binomial_test_m (table 1 0 1 1) = Ok q /\ (oe < q)%R.
Proof.
  assert (Hd : describes (table 1 0 1 1) 1 0 1 1) by (repeat split).
  assert (HC : consistent 1 0 1 1) by (unfold consistent; lra).
  do 2 eexists. split; [apply (binomial_oe_value _ _ _ _ _ Hd HC); lra|].
  split; [apply (binomial_value _ _ _ _ _ Hd HC); lra|].
  assert (E1 : Q2R 1 = 1%R) by apply RMicromega.Q2R_1.
  assert (E2 : Q2R (1 + 1) = 2%R) by (rewrite Q2R_plus, E1; Lra.lra).
  assert (E3 : Q2R (1 + 0) = 1%R) by (rewrite Q2R_plus, E1, RMicromega.Q2R_0; Lra.lra).
  rewrite E2, E3, E1. rewrite sqrt_1.
  replace (1 / 2 * (1 - 1 / 2))%R with ((1 / 2) * (1 / 2))%R by Lra.lra.
  rewrite sqrt_square by Lra.lra. replace (2 / (2 - 1))%R with 2%R by Lra.lra.
  assert (1 < sqrt 2)%R by (rewrite <- sqrt_1; apply sqrt_lt_1_alt; Lra.lra). Lra.lra.
Qed.
Print Assumptions C19_binomial_estimate_refuted.
(** ... and not only on that table: on every subgroup without false positives the statistic is more than twice its estimate. *)
Theorem C19_pure_refuted : forall d tp TP FP oe q, describes d tp 0 TP FP -> consistent tp 0 TP FP -> 0 < tp -> 0 < FP ->
  binomial_oe1_m d = Ok oe -> binomial_test_m d = Ok q -> (0 < oe /\ 2 * oe < q)%R.
Proof.
  intros d tp TP FP oe q Hd HC Ht HF Ho Hq. assert (HT : 0 < TP) by (destruct HC; lra).
  rewrite (binomial_oe_value _ _ _ _ _ Hd HC) in Ho by lra. injection Ho as <-.
  rewrite (binomial_value _ _ _ _ _ Hd HC) in Hq by (destruct HC; lra). injection Hq as <-.
  assert (B0 : (0 < Q2R TP)%R) by now apply Q2R_lt0.
  assert (B1 : (0 < Q2R FP)%R) by now apply Q2R_lt0.
  assert (B2 : (0 < Q2R tp)%R) by now apply Q2R_lt0.
  assert (B3 : (Q2R (TP + FP) = Q2R TP + Q2R FP)%R) by apply Q2R_plus.
  assert (B4 : (Q2R (tp + 0) = Q2R tp)%R) by (rewrite Q2R_plus, RMicromega.Q2R_0; Lra.lra).
  assert (B5 : (Q2R tp <= Q2R TP)%R) by (apply Qle_Rle; destruct HC; lra).
  rewrite B3, B4. set (t := Q2R tp) in *. set (T := Q2R TP) in *. set (F := Q2R FP) in *. set (p0 := (T / (T + F))%R).
  replace (t / t)%R with 1%R by (field; Lra.lra).
  assert (P : (0 < p0 < 1)%R).
  { unfold p0. split; [apply Rdiv_lt_0_compat; Lra.lra|]. apply Rmult_lt_reg_r with (T + F)%R; [Lra.lra|]. unfold Rdiv. rewrite Rmult_assoc, Rinv_l by Lra.lra. Lra.lra. }
  assert (S1 : (0 < sqrt (p0 * (1 - p0)) <= 1 / 2)%R).
  { split; [apply sqrt_lt_R0, Rmult_lt_0_compat; Lra.lra|]. rewrite <- (sqrt_square (1 / 2)) by Lra.lra. apply sqrt_le_1_alt.
    assert (K : (0 <= (p0 - 1 / 2) * (p0 - 1 / 2))%R) by apply Rle_0_sqr. Lra.lra. }
  assert (S2 : (1 < sqrt ((T + F) / (T + F - t)))%R).
  { rewrite <- sqrt_1 at 1. apply sqrt_lt_1_alt. split; [Lra.lra|]. apply Rmult_lt_reg_r with (T + F - t)%R; [Lra.lra|]. unfold Rdiv. rewrite Rmult_assoc, Rinv_l by Lra.lra. Lra.lra. }
  assert (S3 : (0 < sqrt t)%R) by (apply sqrt_lt_R0; auto). set (r := sqrt (p0 * (1 - p0))) in *. set (v := sqrt ((T + F) / (T + F - t))) in *.
  assert (X : (0 < (1 - p0) * sqrt t)%R) by (apply Rmult_lt_0_compat; Lra.lra). replace (sqrt t * (1 - p0))%R with ((1 - p0) * sqrt t)%R by ring. set (x := ((1 - p0) * sqrt t)%R) in *.
  split; [exact X|]. assert (K1 : (2 * x <= x / r)%R).
  { apply Rmult_le_reg_r with r; [Lra.lra|]. replace (x / r * r)%R with x by (field; Lra.lra). assert (K : (x * r <= x * (1 / 2))%R) by (apply Rmult_le_compat_l; Lra.lra). Lra.lra. }
  apply Rle_lt_trans with (x / r)%R; [exact K1|]. rewrite <- (Rmult_1_r (x / r)) at 1. apply Rmult_lt_compat_l; Lra.lra.
Qed.
Print Assumptions C19_pure_refuted.
Example C19_pure_nonvacuous : describes (table 3 0 4 6) 3 0 4 6 /\ consistent 3 0 4 6.
Proof. repeat split; vm_compute; discriminate. Qed.

(** What holds: the estimate bounds the statistic without its two normalising factors. *)
Theorem C19_binomial_estimate_up_to_factor : forall d d' tp fp tp' fp' TP FP oe q,
  describes d tp fp TP FP -> describes d' tp' fp' TP FP -> consistent tp fp TP FP ->
  0 <= tp' <= tp -> 0 <= fp' <= fp ->
  0 < tp' + fp' -> tp' + fp' < TP + FP -> 0 < TP -> 0 < FP ->
  binomial_oe1_m d = Ok oe -> binomial_test_m d' = Ok q ->
  let p0 := (Q2R TP / Q2R (TP + FP))%R in
  (q <= oe / sqrt (p0 * (1 - p0)) * sqrt (Q2R (TP + FP) / (Q2R (TP + FP) - Q2R (tp' + fp'))))%R.
Proof. exact binomial_bound_up_to_factor. Qed.
Print Assumptions C19_binomial_estimate_up_to_factor.
Example C19_nonvacuous : describes (table 3 2 4 6) 3 2 4 6 /\ describes (table 2 1 4 6) 2 1 4 6 /\ consistent 3 2 4 6.
Proof. repeat split; vm_compute; discriminate. Qed.

(** * C20 *)
Theorem C20_ps_estimates_antimonotone : forall m, In PiatetskyShapiro (optimistic_estimate_of m) ->
  forall d d' tp fp tp' fp' TP FP oe oe',
  describes d tp fp TP FP -> describes d' tp' fp' TP FP -> consistent tp fp TP FP ->
  0 <= tp' <= tp -> 0 <= fp' <= fp ->
  compute m d = Ok oe -> compute m d' = Ok oe' -> oe' <= oe.
Proof. intros m Hm. apply ps_oe_anti. destruct m; simpl in Hm; intuition discriminate. Qed.
Print Assumptions C20_ps_estimates_antimonotone.
Theorem C20_binomial_antimonotone : forall d d' tp fp tp' fp' TP FP oe oe',
  describes d tp fp TP FP -> describes d' tp' fp' TP FP -> consistent tp fp TP FP ->
  0 <= tp' <= tp -> 0 <= fp' <= fp -> 0 < TP + FP ->
  binomial_oe1_m d = Ok oe -> binomial_oe1_m d' = Ok oe' -> (oe' <= oe)%R.
Proof.
  intros d d' tp fp tp' fp' TP FP oe oe' Hd Hd' HC H1 H2 PN Ho Ho'.
  assert (HC' : consistent tp' fp' TP FP) by (destruct HC; split; lra).
  rewrite (binomial_oe_value _ _ _ _ _ Hd HC PN) in Ho. injection Ho as <-.
  rewrite (binomial_oe_value _ _ _ _ _ Hd' HC' PN) in Ho'. injection Ho' as <-.
  apply Rmult_le_compat_r.
  - rewrite <- Q2R_div by lra. rewrite <- RMicromega.Q2R_1, <- Q2R_minus. apply Q2R_le0.
    destruct HC. pose proof (div_le_1 TP (TP + FP)). lra.
  - apply sqrt_le_1_alt, Qle_Rle. lra.
Qed.
Print Assumptions C20_binomial_antimonotone.
(** WRAccOptimisticEstimate1 increases when false positives are removed. *)
Theorem C20_wracc_estimate_refuted : exists oe oe',
  compute WRAccOptimisticEstimate1 (table 1 1 1 1) = Ok oe /\
  compute WRAccOptimisticEstimate1 (table 1 0 1 1) = Ok oe' /\ oe < oe'.
Proof. do 2 eexists. repeat split; vm_compute; reflexivity. Qed.
Print Assumptions C20_wracc_estimate_refuted.
(** Exactly when it does not increase: *)
Theorem C20_wracc_exact : forall d d' tp fp tp' fp' TP FP oe oe',
  describes d tp fp TP FP -> describes d' tp' fp' TP FP -> consistent tp fp TP FP -> consistent tp' fp' TP FP -> 0 < FP ->
  compute WRAccOptimisticEstimate1 d = Ok oe -> compute WRAccOptimisticEstimate1 d' = Ok oe' ->
  (oe' <= oe <-> tp' * tp' * (tp + fp) <= tp * tp * (tp' + fp')).
Proof.
  intros d d' tp fp tp' fp' TP FP oe oe' Hd Hd' ((A1 & A2) & A3 & A4) ((A5 & A6) & A7 & A8) HF Ho Ho'. simpl in Ho, Ho'.
  apply (woe_value _ _ _ _ _ _ Hd) in Ho. destruct Ho as (O1 & O2 & ->). apply (woe_value _ _ _ _ _ _ Hd') in Ho'. destruct Ho' as (O1' & _ & ->).
  assert (P : 0 < tp + fp) by (apply pos_nz; [lra|assumption]). assert (P' : 0 < tp' + fp') by (apply pos_nz; [lra|assumption]).
  assert (PN : 0 < TP + FP) by lra. set (k := FP / ((tp + fp) * (tp' + fp') * (TP + FP))).
  assert (K : 0 < k). { unfold k. apply Qlt_shift_div_l; [|lra]. apply Qmult_lt_0_compat; [apply Qmult_lt_0_compat; assumption|assumption]. }
  setoid_replace (tp' * tp' * FP / ((tp' + fp') * (TP + FP))) with (tp' * tp' * (tp + fp) * k) by (unfold k; field; repeat split; lra).
  setoid_replace (tp * tp * FP / ((tp + fp) * (TP + FP))) with (tp * tp * (tp' + fp') * k) by (unfold k; field; repeat split; lra).
  split; intros H; [|apply Qmult_le_compat_r; lra]. apply Qmult_le_r in H; auto.
Qed.
Print Assumptions C20_wracc_exact.
(** In particular it does not increase when only true positives are lost. *)
Theorem C20_wracc_same_fp : forall d d' tp fp tp' TP FP oe oe',
  describes d tp fp TP FP -> describes d' tp' fp TP FP -> consistent tp fp TP FP -> 0 <= tp' <= tp -> 0 < FP ->
  compute WRAccOptimisticEstimate1 d = Ok oe -> compute WRAccOptimisticEstimate1 d' = Ok oe' -> oe' <= oe.
Proof.
  intros d d' tp fp tp' TP FP oe oe' Hd Hd' HC [H1 H2] HF Ho Ho'. assert (HC' : consistent tp' fp TP FP) by (destruct HC; split; lra).
  apply (C20_wracc_exact d d' tp fp tp' fp TP FP oe oe' Hd Hd' HC HC' HF Ho Ho'). destruct HC as ((A1 & A2) & A3 & A4).
  assert (S1 : tp' * tp' <= tp * tp) by (apply Qle_trans with (tp * tp'); [apply Qmult_le_compat_r; lra|rewrite !(Qmult_comm tp); apply Qmult_le_compat_r; lra]).
  assert (S2 : tp' * tp' * fp <= tp * tp * fp) by (apply Qmult_le_compat_r; assumption).
  assert (S3 : 0 <= tp' * tp * (tp - tp')) by (apply Qmult_le_0_compat; [apply Qmult_le_0_compat|]; lra). lra.
Qed.
Print Assumptions C20_wracc_same_fp.
Example C20_nonvacuous : exists oe oe', compute WRAccOptimisticEstimate1 (table 3 2 4 6) = Ok oe /\ compute WRAccOptimisticEstimate1 (table 2 2 4 6) = Ok oe' /\ consistent 3 2 4 6 /\ consistent 2 2 4 6.
Proof. do 2 eexists. repeat split; vm_compute; first [reflexivity|discriminate]. Qed.
