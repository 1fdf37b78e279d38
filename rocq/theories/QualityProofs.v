(** Proofs about the quality measures. *)
From Verif Require Import QualitySpec.
From Coq Require Import Lqa Qfield.
Open Scope Q_scope.

Definition all_dens (m : measure) (d : params) : list Q :=
  denominators m (value_or d "tp") (value_or d "fp") (value_or d "TP") (value_or d "FP") (value_or d "g").
Definition the_formula (m : measure) (d : params) : Q :=
  formula m (value_or d "tp") (value_or d "fp") (value_or d "TP") (value_or d "FP") (value_or d "g").

Lemma qdiv_spec : forall a b, (b == 0 /\ qdiv a b = Err ZeroDivisionError) \/ (~ b == 0 /\ qdiv a b = Ok (a / b)).
Proof.
  intros a b. unfold qdiv. destruct (Qeq_bool b 0) eqn:E.
  - left. split; [now apply Qeq_bool_iff|reflexivity].
  - right. split; [now apply Qeq_bool_neq|reflexivity].
Qed.

Ltac missing_case := match goal with
  | |- context [lookup ?d ?k] => let E := fresh "E" in destruct (lookup d k) eqn:E
  end.

Lemma compute_missing : forall m d,
  (exists k, In k (needed m) /\ lookup d k = None) <->
  (compute m d = Err SubgroupParameterNotFoundError \/ compute m d = Err ParameterNotFoundError).
Proof.
  intros m d.
  assert (Q1 : forall a b : Q, qdiv a b <> Err SubgroupParameterNotFoundError /\ qdiv a b <> Err ParameterNotFoundError)
    by (intros a b; destruct (qdiv_spec a b) as [[_ ->]|[_ ->]]; split; discriminate).
  split.
  - intros (k & Hk & Hl).
    destruct m; simpl in *;
    repeat match goal with H : _ \/ _ |- _ => destruct H as [<-|H] | H : False |- _ => destruct H end;
    unfold coverage_m, support_m, ppv_m, npv_m, sensitivity_m, specificity_m, f1_m, irr_m, youden_m, qg_m, absolute_wracc_m, wracc_m,
      ps_m, ps_oe1_m, ps_oe2_m, wracc_oe1_m, pget, bind; rewrite ?Hl;
    repeat (destruct (lookup d _); [|auto]); auto.
  - intros H.
    destruct m; simpl in *;
    unfold coverage_m, support_m, ppv_m, npv_m, sensitivity_m, specificity_m, f1_m, irr_m, youden_m, qg_m, absolute_wracc_m, wracc_m,
      ps_m, ps_oe1_m, ps_oe2_m, wracc_oe1_m, pget in H; unfold bind in H at 1;
    repeat (match type of H with context [match lookup d ?k with _ => _ end] =>
      let E := fresh "E" in destruct (lookup d k) eqn:E; [cbn [bind] in H|exists k; split; [auto 8|exact E]] end);
    exfalso; unfold bind in H;
    repeat match type of H with context [qdiv ?a ?b] =>
      destruct (qdiv_spec a b) as [[_ X]|[_ X]]; rewrite X in H; clear X end;
    destruct H; discriminate.
Qed.

Ltac unf H := unfold coverage_m, support_m, ppv_m, npv_m, sensitivity_m, specificity_m, f1_m, irr_m, youden_m, qg_m, absolute_wracc_m, wracc_m,
      ps_m, ps_oe1_m, ps_oe2_m, wracc_oe1_m, pget, bind in H.

Lemma compute_parameter_not_found : forall m d,
  compute m d = Err ParameterNotFoundError <->
  m = Qg /\ lookup d "tp" <> None /\ lookup d "fp" <> None /\ lookup d "g" = None.
Proof.
  intros m d. split.
  - intros H. destruct m; simpl in H; unf H;
    repeat (match type of H with context [match lookup d ?k with _ => _ end] =>
      let E := fresh "E" in destruct (lookup d k) eqn:E; [|try discriminate] end);
    try (repeat match type of H with context [qdiv ?a ?b] =>
      destruct (qdiv_spec a b) as [[_ X]|[_ X]]; rewrite X in H; clear X end; discriminate).
    repeat split; try reflexivity; congruence.
  - intros (-> & H1 & H2 & H3). simpl. unfold qg_m, pget, bind.
    destruct (lookup d "tp"); [|congruence]. destruct (lookup d "fp"); [|congruence]. now rewrite H3.
Qed.

Lemma compute_defined : forall m d, (forall k, In k (needed m) -> lookup d k <> None) ->
  ((exists x, In x (all_dens m d) /\ x == 0) /\ compute m d = Err ZeroDivisionError) \/
  ((forall x, In x (all_dens m d) -> ~ x == 0) /\ exists q, compute m d = Ok q /\ q == the_formula m d).
Proof.
  intros m d H.
  assert (K : forall k, In k (needed m) -> lookup d k = Some (value_or d k)).
  { intros k Hk. specialize (H k Hk). unfold value_or. destruct (lookup d k); congruence. }
  clear H. unfold all_dens, the_formula.
  destruct m; simpl compute;
  unfold coverage_m, support_m, ppv_m, npv_m, sensitivity_m, specificity_m, f1_m, irr_m, youden_m, qg_m, absolute_wracc_m, wracc_m,
      ps_m, ps_oe1_m, ps_oe2_m, wracc_oe1_m, pget;
  rewrite ?(K "tp"), ?(K "fp"), ?(K "TP"), ?(K "FP"), ?(K "g") by (simpl; auto 8);
  generalize (value_or d "tp") (value_or d "fp") (value_or d "TP") (value_or d "FP") (value_or d "g");
  intros tp fp TP FP g; cbn [bind denominators formula In];
  repeat match goal with |- context [qdiv ?a ?b] =>
    let E := fresh "E" in let X := fresh "X" in
    destruct (qdiv_spec a b) as [[E X]|[E X]]; rewrite !X; clear X; cbn [bind] end;
  try (left; split; [|reflexivity]; eexists; split; [|eassumption]; auto; fail).
  all: try (left; split; [|reflexivity]; eexists; split; [left; reflexivity|]; rewrite <- E; ring).
  all: right; split; [intros x Hx; repeat match goal with H : _ \/ _ |- _ => destruct H as [<-|H] end; try contradiction; auto
                    |try (eexists; split; [reflexivity|]; try reflexivity; try ring)].
  - intros E0; apply E; rewrite <- E0; ring.
  - assert (F : FP - fp + TP - tp == FP - fp + (TP - tp)) by ring. now rewrite F.
Qed.

Lemma compute_ext : forall m d d', (forall k, In k (needed m) -> lookup d k = lookup d' k) -> compute m d = compute m d'.
Proof.
  intros m d d' H.
  destruct m; simpl compute;
  unfold coverage_m, support_m, ppv_m, npv_m, sensitivity_m, specificity_m, f1_m, irr_m, youden_m, qg_m, absolute_wracc_m, wracc_m,
      ps_m, ps_oe1_m, ps_oe2_m, wracc_oe1_m, pget;
  rewrite ?(H "tp"), ?(H "fp"), ?(H "TP"), ?(H "FP"), ?(H "g") by (simpl; auto 8); reflexivity.
Qed.

(** ** Ranges *)
Lemma div_nonneg : forall a b, 0 <= a -> 0 < b -> 0 <= a / b.
Proof. intros a b Ha Hb. apply Qle_shift_div_l; [exact Hb|]. lra. Qed.
Lemma div_le_1 : forall a b, a <= b -> 0 < b -> a / b <= 1.
Proof. intros a b Ha Hb. apply Qle_shift_div_r; [exact Hb|]. lra. Qed.
Lemma div_le : forall a b c, 0 < b -> a <= c * b -> a / b <= c.
Proof. intros a b c Hb H. now apply Qle_shift_div_r. Qed.
Lemma div_ge : forall a b c, 0 < b -> c * b <= a -> c <= a / b.
Proof. intros a b c Hb H. now apply Qle_shift_div_l. Qed.

Lemma wracc_form : forall tp fp TP FP, ~ tp + fp == 0 -> ~ TP + FP == 0 ->
  (tp + fp) / (TP + FP) * (tp / (tp + fp) - TP / (TP + FP)) == (tp * FP - fp * TP) / ((TP + FP) * (TP + FP)).
Proof. intros. field. auto. Qed.
Lemma ps_form : forall tp fp TP FP, ~ tp + fp == 0 -> ~ TP + FP == 0 ->
  (tp + fp) * (tp / (tp + fp) - TP / (TP + FP)) == (tp * FP - fp * TP) / (TP + FP).
Proof. intros. field. auto. Qed.
Lemma cross_bound : forall tp fp TP FP, consistent tp fp TP FP ->
  -((TP + FP) * (TP + FP)) <= 4 * (tp * FP - fp * TP) <= (TP + FP) * (TP + FP).
Proof.
  intros tp fp TP FP ((A & B) & (C & D)). unfold consistent in *.
  assert (0 <= (TP - FP) * (TP - FP)) by (destruct (Qlt_le_dec (TP - FP) 0); nra).
  assert (E : 0 <= TP) by lra. assert (F : 0 <= FP) by lra.
  pose proof (Qmult_le_0_compat _ _ C E). pose proof (Qmult_le_compat_r _ _ _ D E).
  pose proof (Qmult_le_0_compat _ _ A F). pose proof (Qmult_le_compat_r _ _ _ B F). split; nra.
Qed.

Lemma ranges : forall m d tp fp TP FP q,
  describes d tp fp TP FP -> consistent tp fp TP FP -> (m = Qg -> forall g, lookup d "g" = Some g -> 0 <= g) ->
  compute m d = Ok q ->
  lower m TP FP <= q /\ (forall u, upper m TP FP = Some u -> q <= u).
Proof.
  intros m d tp fp TP FP q (H1 & H2 & H3 & H4) HC Hg Hq.
  assert (Hn : forall k, In k (needed m) -> lookup d k <> None).
  { intros k Hk Hl. assert (X : exists k, In k (needed m) /\ lookup d k = None) by eauto.
    apply compute_missing in X. destruct X; congruence. }
  destruct (compute_defined m d Hn) as [[_ X]|(Hd & q' & X & E)]; [congruence|].
  assert (q' = q) by congruence. subst q'. clear X.
  unfold the_formula, all_dens, value_or in *. rewrite H1, H2, H3, H4 in *.
  pose proof HC as HC'. destruct HC' as ((A & B) & (C & D)).
  assert (PN : forall x, 0 <= x -> ~ x == 0 -> 0 < x).
  { intros x Hx Hx'. destruct (Qlt_le_dec 0 x) as [|L]; [assumption|]. exfalso. apply Hx'. lra. }
  match type of E with _ == ?f => assert (G : lower m TP FP <= f /\ (forall u, upper m TP FP = Some u -> f <= u)) end.
  2: { destruct G as [G1 G2]. split; [now rewrite E|]. intros u Hu. rewrite E. auto. }
  clear E.
  pose proof (cross_bound _ _ _ _ HC) as (CB1 & CB2).
  assert (PD : 0 < tp + fp -> 0 <= tp / (tp + fp) <= 1) by (intros; split; [apply div_nonneg|apply div_le_1]; lra).
  assert (PS : 0 < FP -> 0 <= (FP - fp) / FP <= 1) by (intros; split; [apply div_nonneg|apply div_le_1]; lra).
  assert (PT : 0 < TP -> 0 <= tp / TP <= 1) by (intros; split; [apply div_nonneg|apply div_le_1]; lra).
  assert (P0 : 0 < TP + FP -> 0 <= 1 - TP / (TP + FP)) by (intros L; pose proof (div_le_1 TP (TP + FP)); lra).
  assert (W : 0 < tp + fp -> 0 < TP + FP ->
     -(1#4) <= (tp + fp) / (TP + FP) * (tp / (tp + fp) - TP / (TP + FP)) <= 1#4).
  { intros L1 L2. rewrite wracc_form by lra. assert (0 < (TP + FP) * (TP + FP)) by nra. split; [apply div_ge|apply div_le]; lra. }
  assert (P : 0 < tp + fp -> 0 < TP + FP ->
     -((TP + FP)/4) <= (tp + fp) * (tp / (tp + fp) - TP / (TP + FP)) <= (TP + FP) / 4).
  { intros L1 L2. rewrite ps_form by lra. assert (F4 : (TP + FP) / 4 == (TP + FP) * (1 # 4)) by field. rewrite F4.
    split; [apply div_ge|apply div_le]; try assumption; lra. }
  destruct m; cbn [denominators formula lower upper In] in *; split; try (intros u Hu; injection Hu as <-);
  try discriminate;
  try (match goal with |- context [?n / ?x] => assert (0 < x) by (apply PN; [lra|apply Hd; auto]) end);
  try (apply div_nonneg; [lra|assumption]); try (apply div_le_1; [lra|assumption]).
  all: try (assert (0 < tp + fp) by (apply PN; [lra|apply Hd; auto])).
  all: try (assert (0 < TP + FP) by (apply PN; [lra|apply Hd; auto])).
  all: try (assert (0 < FP) by (apply PN; [lra|apply Hd; auto])).
  all: try (assert (0 < TP) by (apply PN; [lra|apply Hd; auto])).
  all: try (apply W; assumption). all: try (apply P; assumption).
  all: try lra.
  all: try (apply Qabs_nonneg). all: try (apply Qabs_Qle_condition, W; assumption).
  all: try (match goal with |- 0 <= _ * (1 - _) => apply Qmult_le_0_compat; [|auto]; try lra; try (apply div_nonneg; nra) end).
  destruct (lookup d "g") eqn:Eg; [|destruct (Hn "g" ltac:(simpl; auto) Eg)].
  specialize (Hg eq_refl _ eq_refl). apply div_nonneg; [lra|]. apply PN; [lra|auto].
Qed.

(** ** Optimistic estimates *)
Lemma ps_value : forall d tp fp TP FP q, describes d tp fp TP FP -> ps_m d = Ok q ->
  ~ tp + fp == 0 /\ ~ TP + FP == 0 /\ q == (tp * FP - fp * TP) / (TP + FP).
Proof.
  intros d tp fp TP FP q (H1 & H2 & H3 & H4). unfold ps_m, pget. rewrite H1, H2, H3, H4. cbn [bind].
  destruct (qdiv_spec tp (tp + fp)) as [[E ->]|[E ->]]; cbn [bind]; [discriminate|].
  destruct (qdiv_spec TP (TP + FP)) as [[F ->]|[F ->]]; cbn [bind]; [discriminate|].
  intros X. injection X as <-. repeat split; auto. now apply ps_form.
Qed.
Lemma wracc_value : forall d tp fp TP FP q, describes d tp fp TP FP -> wracc_m d = Ok q ->
  ~ tp + fp == 0 /\ ~ TP + FP == 0 /\ q == (tp * FP - fp * TP) / ((TP + FP) * (TP + FP)).
Proof.
  intros d tp fp TP FP q (H1 & H2 & H3 & H4). unfold wracc_m, pget. rewrite H1, H2, H3, H4. cbn [bind].
  destruct (qdiv_spec (tp + fp) (TP + FP)) as [[F ->]|[F ->]]; cbn [bind]; [discriminate|].
  destruct (qdiv_spec tp (tp + fp)) as [[E ->]|[E ->]]; cbn [bind]; [discriminate|].
  destruct (qdiv_spec TP (TP + FP)) as [[F' ->]|[F' ->]]; cbn [bind]; [discriminate|].
  intros X. injection X as <-. repeat split; auto. now apply wracc_form.
Qed.
Lemma oe1_value : forall d tp fp TP FP q, describes d tp fp TP FP -> ps_oe1_m d = Ok q ->
  ~ TP + FP == 0 /\ q == (tp + fp) * FP / (TP + FP).
Proof.
  intros d tp fp TP FP q (H1 & H2 & H3 & H4). unfold ps_oe1_m, pget. rewrite H1, H2, H3, H4. cbn [bind].
  destruct (qdiv_spec TP (TP + FP)) as [[F ->]|[F ->]]; cbn [bind]; [discriminate|].
  intros X. injection X as <-. split; auto. field. auto.
Qed.
Lemma oe2_value : forall d tp fp TP FP q, describes d tp fp TP FP -> ps_oe2_m d = Ok q ->
  ~ TP + FP == 0 /\ q == tp * FP / (TP + FP).
Proof.
  intros d tp fp TP FP q (H1 & H2 & H3 & H4). unfold ps_oe2_m, pget. rewrite H1, H3, H4. cbn [bind].
  destruct (qdiv_spec TP (TP + FP)) as [[F ->]|[F ->]]; cbn [bind]; [discriminate|].
  intros X. injection X as <-. split; auto. field. auto.
Qed.
Lemma woe_value : forall d tp fp TP FP q, describes d tp fp TP FP -> wracc_oe1_m d = Ok q ->
  ~ tp + fp == 0 /\ ~ TP + FP == 0 /\ q == tp * tp * FP / ((tp + fp) * (TP + FP)).
Proof.
  intros d tp fp TP FP q (H1 & H2 & H3 & H4). unfold wracc_oe1_m, pget. rewrite H1, H2, H3, H4. cbn [bind].
  destruct (qdiv_spec (tp * tp) (tp + fp)) as [[F ->]|[F ->]]; cbn [bind]; [discriminate|].
  destruct (qdiv_spec TP (TP + FP)) as [[F' ->]|[F' ->]]; cbn [bind]; [discriminate|].
  intros X. injection X as <-. repeat split; auto. field. auto.
Qed.

Lemma div_mono : forall a b c, 0 < c -> a <= b -> a / c <= b / c.
Proof. intros a b c Hc H. unfold Qdiv. apply Qmult_le_compat_r; [assumption|]. apply Qlt_le_weak, Qinv_lt_0_compat, Hc. Qed.
Lemma pos_nz : forall x, 0 <= x -> ~ x == 0 -> 0 < x.
Proof. intros x Hx Hx'. destruct (Qlt_le_dec 0 x) as [|L]; [assumption|]. exfalso. apply Hx'. lra. Qed.

Lemma ps_oe_bounds : forall m, m = PSOptimisticEstimate1 \/ m = PSOptimisticEstimate2 ->
  forall d d' tp fp tp' fp' TP FP oe q,
  describes d tp fp TP FP -> describes d' tp' fp' TP FP -> consistent tp fp TP FP ->
  0 <= tp' <= tp -> 0 <= fp' <= fp ->
  compute m d = Ok oe -> compute PiatetskyShapiro d' = Ok q -> q <= oe.
Proof.
  intros m Hm d d' tp fp tp' fp' TP FP oe q Hd Hd' ((A & B) & C & D) H1 H2 Ho Hq.
  apply (ps_value _ _ _ _ _ _ Hd') in Hq. destruct Hq as (Q1 & Q2 & ->).
  assert (P : 0 < TP + FP) by (apply pos_nz; [lra|assumption]).
  assert (X : tp' * FP - fp' * TP <= tp * FP).
  { assert (tp' * FP <= tp * FP) by (apply Qmult_le_compat_r; lra).
    assert (0 <= fp' * TP) by (apply Qmult_le_0_compat; lra). lra. }
  destruct Hm as [-> | ->]; simpl in Ho.
  - apply (oe1_value _ _ _ _ _ _ Hd) in Ho. destruct Ho as (_ & ->). apply div_mono; [assumption|].
    assert (0 <= fp * FP) by (apply Qmult_le_0_compat; lra). lra.
  - apply (oe2_value _ _ _ _ _ _ Hd) in Ho. destruct Ho as (_ & ->). now apply div_mono.
Qed.
Lemma ps_oe_anti : forall m, m = PSOptimisticEstimate1 \/ m = PSOptimisticEstimate2 ->
  forall d d' tp fp tp' fp' TP FP oe oe',
  describes d tp fp TP FP -> describes d' tp' fp' TP FP -> consistent tp fp TP FP ->
  0 <= tp' <= tp -> 0 <= fp' <= fp ->
  compute m d = Ok oe -> compute m d' = Ok oe' -> oe' <= oe.
Proof.
  intros m Hm d d' tp fp tp' fp' TP FP oe oe' Hd Hd' ((A & B) & C & D) H1 H2 Ho Hq.
  destruct Hm as [-> | ->]; simpl in Ho, Hq.
  - apply (oe1_value _ _ _ _ _ _ Hd) in Ho. destruct Ho as (P & ->). apply (oe1_value _ _ _ _ _ _ Hd') in Hq. destruct Hq as (_ & ->).
    apply div_mono; [apply pos_nz; [lra|assumption]|]. apply Qmult_le_compat_r; lra.
  - apply (oe2_value _ _ _ _ _ _ Hd) in Ho. destruct Ho as (P & ->). apply (oe2_value _ _ _ _ _ _ Hd') in Hq. destruct Hq as (_ & ->).
    apply div_mono; [apply pos_nz; [lra|assumption]|]. apply Qmult_le_compat_r; lra.
Qed.
(** Counts are integers: 0 or at least 1. *)
Lemma wracc_oe_bounds : forall d d' (tp fp tp' fp' TP FP : Z) oe q,
  describes d (inject_Z tp) (inject_Z fp) (inject_Z TP) (inject_Z FP) ->
  describes d' (inject_Z tp') (inject_Z fp') (inject_Z TP) (inject_Z FP) ->
  (tp <= TP)%Z -> (fp <= FP)%Z -> (0 <= tp' <= tp)%Z -> (0 <= fp' <= fp)%Z ->
  compute WRAccOptimisticEstimate1 d = Ok oe -> compute WRAcc d' = Ok q -> q <= oe.
Proof.
  intros d d' tp fp tp' fp' TP FP oe q Hd Hd' A B H1 H2 Ho Hq. simpl in Ho, Hq.
  apply (wracc_value _ _ _ _ _ _ Hd') in Hq. destruct Hq as (Q1 & Q2 & ->).
  apply (woe_value _ _ _ _ _ _ Hd) in Ho. destruct Ho as (O1 & _ & ->).
  assert (I : forall a b, (a <= b)%Z -> inject_Z a <= inject_Z b) by (intros; now rewrite <- Zle_Qle).
  assert (J1 : 0 <= inject_Z tp') by (change 0 with (inject_Z 0); apply I; lia).
  assert (J2 : 0 <= inject_Z fp') by (change 0 with (inject_Z 0); apply I; lia).
  assert (J3 : inject_Z tp' <= inject_Z tp) by (apply I; lia).
  assert (J4 : inject_Z fp' <= inject_Z fp) by (apply I; lia).
  assert (J5 : inject_Z tp <= inject_Z TP) by (apply I; lia).
  assert (J6 : inject_Z fp <= inject_Z FP) by (apply I; lia).
  assert (J7 : tp = 0%Z \/ 1 <= inject_Z tp) by (destruct (Z.eq_dec tp 0); [now left|right; change 1 with (inject_Z 1); apply I; lia]).
  assert (J8 : tp = 0%Z -> inject_Z tp == 0 /\ inject_Z tp' == 0) by (intros ->; assert (tp' = 0%Z) by lia; subst; split; reflexivity).
  revert J7 J8 Q2 O1. clear Q1 I Hd Hd' A B H1 H2.
  generalize dependent (inject_Z tp). generalize dependent (inject_Z fp). generalize dependent (inject_Z tp').
  generalize dependent (inject_Z fp'). generalize dependent (inject_Z TP). generalize dependent (inject_Z FP).
  intros FP' TP' b J2 a J1 y J4 J6 x J3 J5 J7 J8 Q2 O1.
  assert (PN : 0 < TP' + FP') by (apply pos_nz; [lra|assumption]).
  assert (Pn : 0 < x + y) by (apply pos_nz; [lra|assumption]).
  assert (PNN : 0 < (TP' + FP') * (TP' + FP')) by nra.
  destruct J7 as [E|G].
  - destruct (J8 E) as (E1 & E2). rewrite E1, E2.
    apply Qle_trans with 0.
    + apply div_le; [assumption|]. assert (0 <= b * TP') by (apply Qmult_le_0_compat; lra). lra.
    + apply div_nonneg; [lra|]. nra.
  - apply Qle_trans with (x * FP' / ((TP' + FP') * (TP' + FP'))).
    + apply div_mono; [assumption|].
      assert (a * FP' <= x * FP') by (apply Qmult_le_compat_r; lra).
      assert (0 <= b * TP') by (apply Qmult_le_0_compat; lra). lra.
    + apply div_le; [assumption|].
      setoid_replace (x * x * FP' / ((x + y) * (TP' + FP')) * ((TP' + FP') * (TP' + FP')))
        with (x * FP' * (x * (TP' + FP') / (x + y))) by (field; split; lra).
      assert (1 <= x * (TP' + FP') / (x + y)).
      { apply div_ge; [assumption|]. assert (0 <= (x - 1) * (TP' + FP')) by (apply Qmult_le_0_compat; lra). lra. }
      assert (0 <= x * FP') by (apply Qmult_le_0_compat; lra). nra.
Qed.
