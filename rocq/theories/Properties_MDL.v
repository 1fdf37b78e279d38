(** C51: the code lengths of utils/mdl.py.  C57 and the instances of C39 and C41 for the subgroup-list learners with these code lengths. *)
From Coq Require Import Reals Lra Lia Arith ZArith List QArith Qreals.
From Verif Require Import MDLModel MDLSpec AbelProofs MDLProofs MDLLoops ListSpec ListProofs MiningSpec CoreSpec Properties_SDMapStar Properties_Lists.
Import ListNotations.
Open Scope string_scope.
Open Scope list_scope.
Open Scope R_scope.

(** * C51 *)
(** The complexity computed by the code is the defining sum up to a relative error of 10^-10 (the sum for two categories is cut off) ... *)
Lemma multinomial_unfold : forall L n, (2 <= L)%nat -> (1 <= n)%nat ->
  multinomial_with_recurrence (Z.of_nat L) (Z.of_nat n) = Ok (category_loop n (L - 2) 3 1 (sum_loop n (MDLModel.bound n) 1 1 1)).
Proof.
  intros L n HL Hn. unfold multinomial_with_recurrence. replace (Z.of_nat L <=? 0)%Z with false by (symmetry; apply Z.leb_gt; lia).
  replace (Z.of_nat n <? 0)%Z with false by (symmetry; apply Z.ltb_ge; lia). replace (Z.of_nat L =? 1)%Z with false by (symmetry; apply Z.eqb_neq; lia).
  replace (Z.of_nat n =? 0)%Z with false by (symmetry; apply Z.eqb_neq; lia). now rewrite !Nat2Z.id.
Qed.
Theorem C51_complexity : forall L n c, (1 <= L)%nat -> (1 <= n)%nat -> is_complexity L n c ->
  exists r, multinomial_with_recurrence (Z.of_nat L) (Z.of_nat n) = Ok r /\ (1 - / 10 ^ 10) * c <= r <= c.
Proof.
  intros L n c HL Hn Hc. apply complexity_cpx in Hc; auto. subst c. assert (E : 0 <= / 10 ^ 10) by (left; apply Rinv_0_lt_compat, pow_lt; lra). destruct (Nat.eq_dec L 1) as [->|Ne].
  - exists 1. rewrite cpx_one by auto. unfold multinomial_with_recurrence. replace (Z.of_nat n <? 0)%Z with false by (symmetry; apply Z.ltb_ge; lia). cbn -[pow]. split; [auto|lra].
  - rewrite multinomial_unfold by lia. eexists. split; [reflexivity|]. destruct (two_categories n Hn) as (A & B & _).
    assert (X := category_bounds n (/ 10 ^ 10) (L - 2) 1 1 (sum_loop n (MDLModel.bound n) 1 1 1) (le_n 1)). rewrite cpx_one in X by auto.
    replace (2 + (L - 2))%nat with L in X by lia. apply X; [lra|split; auto].
Qed.
(** ... and without error for up to 45 samples. *)
Lemma bound_large : forall n, (n <= 45)%nat -> (n <= MDLModel.bound n)%nat.
Proof.
  intros n Hn. assert (B := bound_ge n). assert (L : 2 <= ln 10).
  { replace 2 with (ln (exp 1 * exp 1)) by (rewrite <- exp_plus, ln_exp; ring). assert (E := exp_le_3). assert (P := exp_pos 1). left. apply ln_increasing; [nra|]. nra. }
  assert (H : INR n < INR (MDLModel.bound n) + 1); [|rewrite <- S_INR in H; apply INR_lt in H; lia].
  assert (N := pos_INR n). destruct (Rlt_le_dec (INR n - 3) 0) as [S0|S0]; [assert (X := sqrt_pos (2 * INR n * 10 * ln 10)); lra|].
  assert (X : INR n - 3 < sqrt (2 * INR n * 10 * ln 10)); [|lra]. rewrite <- (sqrt_square (INR n - 3)) by auto. apply sqrt_lt_1_alt. split; [nra|].
  apply le_INR in Hn. replace (INR 45) with 45 in Hn by (cbn; lra). nra.
Qed.
Theorem C51_complexity_exact : forall L n c, (1 <= L)%nat -> (1 <= n <= 45)%nat -> is_complexity L n c ->
  multinomial_with_recurrence (Z.of_nat L) (Z.of_nat n) = Ok c.
Proof.
  intros L n c HL [Hn H45] Hc. apply complexity_cpx in Hc; auto. subst c. destruct (Nat.eq_dec L 1) as [->|Ne].
  - rewrite cpx_one by auto. unfold multinomial_with_recurrence. replace (Z.of_nat n <? 0)%Z with false by (symmetry; apply Z.ltb_ge; lia). reflexivity.
  - rewrite multinomial_unfold by lia. f_equal. destruct (two_categories n Hn) as (_ & _ & A). rewrite A by (apply bound_large; auto).
    assert (X := category_exact n (L - 2) 1 (le_n 1)). rewrite cpx_one in X by auto. rewrite <- (cpx_one n Hn) in X at 1. rewrite cpx_one in X by auto. change (1 + 2)%nat with 3%nat in X.
    rewrite X. f_equal. lia.
Qed.
(** Two categories: the sum over the number [k] of samples of the first category. *)
Theorem C51_two_categories : forall n, (1 <= n)%nat ->
  is_complexity 2 n (sum_f_R0 (fun k => Binomial.C n k * (INR k / INR n) ^ k * (INR (n - k) / INR n) ^ (n - k)) n).
Proof.
  intros n Hn. apply complexity_cpx; auto. assert (P : INR n <> 0) by (apply not_0_INR; lia). unfold cpx.
  replace (INR (fact n) / INR n ^ n * powers 2 n) with (/ INR n ^ n * (powers 2 n * INR (fact n))) by (field; auto using pow_nonzero). rewrite powers_two, <- sum_scale.
  apply sum_eq'. intros k Hk. replace ((INR k / INR n) ^ k) with (INR k ^ k * / INR n ^ k) by (unfold Rdiv; now rewrite Rpow_mult_distr, pow_inv).
  replace ((INR (n - k) / INR n) ^ (n - k)) with (INR (n - k) ^ (n - k) * / INR n ^ (n - k)) by (unfold Rdiv; now rewrite Rpow_mult_distr, pow_inv).
  replace (INR n ^ n) with (INR n ^ k * INR n ^ (n - k)) by (rewrite <- pow_add; f_equal; lia). field. split; apply pow_nonzero; auto.
Qed.
(** There is such a number for all the arguments, and it is unique. *)
Theorem C51_complexity_defined : forall L n, (1 <= n)%nat -> exists! c, is_complexity L n c.
Proof. intros L n Hn. exists (cpx L n). split; [now apply complexity_cpx|]. intros c Hc. symmetry. now apply complexity_cpx in Hc. Qed.
Lemma sum_loop_ge1 : forall n, (1 <= n)%nat -> 1 <= sum_loop n (MDLModel.bound n) 1 1 1.
Proof.
  intros n Hn. change (sum_loop n (MDLModel.bound n) 1 1 1) with (sum_loop n (MDLModel.bound n) 1 (bk n 0) (sum_f_R0 (bk n) 0)). rewrite sum_loop_spec.
  assert (X := sum_bk_mono n 0 (0 + MDLModel.bound n) Hn ltac:(lia)). exact X.
Qed.
Theorem C51_at_least_one : forall L n, (1 <= L)%nat -> (1 <= n)%nat ->
  exists r, multinomial_with_recurrence (Z.of_nat L) (Z.of_nat n) = Ok r /\ 1 <= r.
Proof.
  intros L n HL Hn. destruct (Nat.eq_dec L 1) as [->|Ne].
  - exists 1. unfold multinomial_with_recurrence. replace (Z.of_nat n <? 0)%Z with false by (symmetry; apply Z.ltb_ge; lia). split; [reflexivity|lra].
  - rewrite multinomial_unfold by lia. eexists. split; [reflexivity|]. assert (A := sum_loop_ge1 n Hn). eapply Rle_trans; [exact A|]. apply category_ge; auto; lra.
Qed.
(** The logarithm is never negative; the errors of the arguments. *)
Theorem C51_log_nonnegative : forall L n, (1 <= L)%Z -> (0 <= n)%Z -> exists r, log2_multinomial_with_recurrence L n = Ok r /\ 0 <= r.
Proof.
  intros L n HL Hn. unfold log2_multinomial_with_recurrence. destruct (Z.eq_dec n 0) as [->|Ne].
  - unfold multinomial_with_recurrence. replace (L <=? 0)%Z with false by (symmetry; apply Z.leb_gt; lia). cbn [Z.ltb Z.compare Z.eqb]. destruct (L =? 1)%Z; cbn [bind].
    + replace (Rltb 0 1) with true by (symmetry; apply Rltb_true; lra). eexists. split; [reflexivity|]. rewrite log2_1. lra.
    + replace (Rltb 0 0) with false by (symmetry; apply Rltb_false; lra). eexists. split; [reflexivity|lra].
  - destruct (C51_at_least_one (Z.to_nat L) (Z.to_nat n)) as (r & E & H); [lia|lia|]. rewrite !Z2Nat.id in E by lia. rewrite E. cbn [bind].
    replace (Rltb 0 r) with true by (symmetry; apply Rltb_true; lra). eexists. split; [reflexivity|]. rewrite <- log2_1. apply log2_mono_le; lra.
Qed.
Theorem C51_errors : forall L n, ((L <= 0)%Z \/ (n < 0)%Z) -> multinomial_with_recurrence L n = Err ValueError.
Proof.
  intros L n H. unfold multinomial_with_recurrence. destruct (L <=? 0)%Z eqn:E; [reflexivity|]. apply Z.leb_gt in E. destruct H as [H|H]; [lia|]. apply Z.ltb_lt in H. now rewrite H.
Qed.
(** The universal code of a positive integer: log2 2.865064 plus the iterated logarithms greater than 10^-6. *)
Theorem C51_universal_code : forall i, (1 <= i)%Z -> exists x K, universal_code_for_integer i = Ok x /\
  x = ln (2865064 / 1000000) / ln 2 + rsum (map (fun k => iterated_log k (IZR i)) (seq 1 K)) /\
  (forall k, (1 <= k <= K)%nat -> / 1000000 < iterated_log k (IZR i)) /\ iterated_log (S K) (IZR i) <= / 1000000.
Proof.
  intros i Hi. destruct (universal_ok i Hi) as (x & E). assert (E' := E). unfold universal_code_for_integer in E'. replace (i <? 0)%Z with false in E' by (symmetry; apply Z.ltb_ge; lia).
  replace (i =? 0)%Z with false in E' by (symmetry; apply Z.eqb_neq; lia). destruct (universal_loop_terms _ _ _ _ E') as (K & A & B & D0). exists x, K. split; auto. split; [|split].
  - rewrite A. unfold log2 at 1. f_equal. f_equal. rewrite <- seq_shift, map_map. reflexivity.
  - intros [|k] Hk; [lia|]. apply B. lia.
  - exact D0.
Qed.
(** It is positive and strictly increasing; the code of 0 is 0; negative integers are rejected. *)
Theorem C51_universal_increasing : forall i j, (0 <= i < j)%Z ->
  exists x y, universal_code_for_integer i = Ok x /\ universal_code_for_integer j = Ok y /\ x < y.
Proof.
  intros i j H. destruct (universal_ok j ltac:(lia)) as (y & Ey). assert (Ex : exists x, universal_code_for_integer i = Ok x).
  { destruct (Z.eq_dec i 0) as [->|Ne]; [exists 0; reflexivity|apply universal_ok; lia]. }
  destruct Ex as (x & Ex). exists x, y. split; auto. split; auto. apply (universal_increasing i j); auto; lia.
Qed.
Theorem C51_universal_zero : universal_code_for_integer 0 = Ok 0 /\ forall i, (i < 0)%Z -> universal_code_for_integer i = Err ValueError.
Proof. split; [reflexivity|]. intros i H. unfold universal_code_for_integer. apply Z.ltb_lt in H. now rewrite H. Qed.
(** With a maximum, the code is complete: when the code lengths are numbers, their probabilities add up to 1. *)
Lemma pow2_log2 : forall p, 0 < p -> Rpower 2 (log2 p) = p.
Proof. intros p H. unfold Rpower, log2. replace (ln p / ln 2 * ln 2) with (ln p) by (field; assert (X := ln2_pos); lra). now apply exp_ln. Qed.
Theorem C51_code_with_maximum : forall m (codes : list R), (1 <= m)%nat ->
  length codes = m ->
  (forall i, (i < m)%nat -> universal_code_for_integer_with_maximum (Z.of_nat (S i)) (Z.of_nat m) = Ok (Some (nth i codes 0))) ->
  rsum (map (fun x => Rpower 2 (- x)) codes) = 1.
Proof.
  intros m codes Hm HL H. assert (PS : exists s, probability_sum m 1 = Ok s).
  { assert (K : forall k i, (1 <= i)%Z -> exists s, probability_sum k i = Ok s); [|apply K; lia].
    induction k as [|k IH]; intros i Hi; cbn [probability_sum]; [eauto|]. destruct (universal_ok i Hi) as (x & ->). destruct (IH (i + 1)%Z ltac:(lia)) as (s & ->). cbn [bind]. eauto. }
  destruct PS as (s & Es). assert (Pm : INR m <> 0) by (apply not_0_INR; lia).
  assert (C1 : forall i, (i < m)%nat -> exists u, universal_code_for_integer (Z.of_nat (S i)) = Ok u /\ Rpower 2 (- nth i codes 0) = Rpower 2 (- u) + (1 - s) / INR m).
  { intros i Hi. specialize (H i Hi). unfold universal_code_for_integer_with_maximum in H. rewrite Nat2Z.id, Es in H. cbn [bind] in H.
    destruct (universal_ok (Z.of_nat (S i)) ltac:(lia)) as (u & Eu). rewrite Eu in H. cbn [bind] in H. exists u. split; auto. replace (Z.of_nat m =? 0)%Z with false in H by (symmetry; apply Z.eqb_neq; lia).
    rewrite <- INR_IZR_INZ in H. destruct (Rltb 0 (Rpower 2 (- u) + (1 - s) / INR m)) eqn:T; [|discriminate]. apply Rltb_true in T. injection H as <-. rewrite Ropp_involutive. apply pow2_log2. exact T. }
  assert (K : forall k i t cs, probability_sum k (Z.of_nat (S i)) = Ok t -> length cs = k ->
    (forall j, (j < k)%nat -> exists u, universal_code_for_integer (Z.of_nat (S (i + j))) = Ok u /\ Rpower 2 (- nth j cs 0) = Rpower 2 (- u) + (1 - s) / INR m) ->
    rsum (map (fun x => Rpower 2 (- x)) cs) = t + INR k * ((1 - s) / INR m)).
  { induction k as [|k IH]; intros i t cs Et Lc Hc.
    - destruct cs; [|discriminate]. injection Et as <-. cbn. ring.
    - destruct cs as [|c0 cs]; [discriminate|]. cbn [probability_sum] in Et. destruct (Hc 0%nat ltac:(lia)) as (u & Eu & E0). rewrite Nat.add_0_r in Eu. rewrite Eu in Et. cbn [bind nth] in *.
      replace (Z.of_nat (S i) + 1)%Z with (Z.of_nat (S (S i))) in Et by lia. destruct (probability_sum k (Z.of_nat (S (S i)))) as [r|e] eqn:Er; [|discriminate]. cbn [bind] in Et. injection Et as <-.
      cbn [map rsum fold_right]. change (fold_right Rplus 0) with rsum. rewrite E0. rewrite (IH (S i) r cs Er); [rewrite S_INR; ring|now injection Lc|].
      intros j Hj. destruct (Hc (S j) ltac:(lia)) as (u' & A & B). exists u'. split; [|exact B]. replace (S i + j)%nat with (i + S j)%nat by lia. exact A. }
  rewrite (K m 0%nat s codes Es HL C1). field. auto.
Qed.
(** Non-vacuity: two categories, two samples. *)
Example C51_nonvacuous : is_complexity 2 2 (5 / 2) /\ multinomial_with_recurrence 2 2 = Ok (5 / 2).
Proof.
  assert (A : is_complexity 2 2 (5 / 2)).
  { exists [[0; 2]; [1; 1]; [2; 0]]%nat. split; [repeat constructor; cbn; intuition discriminate|]. split.
    - intros h. split; [cbn; intuition; subst; auto|]. intros [Hl Hs]. destruct h as [|a [|b [|? ?]]]; try discriminate. unfold list_sum in Hs. cbn in Hs |- *.
      destruct a as [|[|[|a]]]; [left; f_equal; f_equal; lia|right; left; f_equal; f_equal; lia|right; right; left; f_equal; f_equal; lia|lia].
    - unfold complexity_term, rsum, rprod. cbn. field. }
  split; auto. apply (C51_complexity_exact 2 2); auto; lia.
Qed.
Example C51_maximum_nonvacuous : universal_code_for_integer_with_maximum 1 1 = Ok (Some 0).
Proof.
  destruct (universal_ok 1 ltac:(lia)) as (u & Eu). unfold universal_code_for_integer_with_maximum. change (Z.to_nat 1) with 1%nat. cbn [probability_sum]. rewrite Eu. cbn [bind Z.eqb]. cbv zeta.
  replace (Rpower 2 (- u) + (1 - (Rpower 2 (- u) + 0)) / 1) with 1 by field. replace (Rltb 0 1) with true by (symmetry; apply Rltb_true; lra). rewrite log2_1, Ropp_0. reflexivity.
Qed.
Print Assumptions C51_complexity. Print Assumptions C51_complexity_exact. Print Assumptions C51_two_categories. Print Assumptions C51_complexity_defined.
Print Assumptions C51_at_least_one. Print Assumptions C51_log_nonnegative. Print Assumptions C51_errors. Print Assumptions C51_universal_code.
Print Assumptions C51_universal_increasing. Print Assumptions C51_universal_zero. Print Assumptions C51_code_with_maximum.

(** * The learners with these code lengths *)
Lemma gain_gt_order : strict_order gain_gt.
Proof.
  split.
  - intros [|x|]; cbn; auto. apply Rltb_false. lra.
  - intros [|x|] [|y|] [|z|]; cbn; auto; try discriminate. rewrite !Rltb_true. lra.
Qed.
(** The candidates use columns of the dataset. *)
Definition known_attributes (df : dataframe) (xs : list candidate3) : Prop :=
  forall x s, In x xs -> In s (g_desc (c_group x)) -> has_column df (s_attr s).
Lemma universal_nat : forall n, exists x, universal_code_for_integer (Z.of_nat n) = Ok x.
Proof. intros [|n]; [exists 0; reflexivity|apply universal_ok; lia]. Qed.
Lemma values_loop_ok : forall df p r, (forall s, In s p -> has_column df (s_attr s)) -> exists m, values_loop df p r = Ok m.
Proof.
  intros df. induction p as [|s p IH]; intros r H; cbn [values_loop]; [eauto|]. destruct (H s (or_introl eq_refl)) as (col & Ec). unfold df_col. rewrite Ec. cbn [bind]. apply IH.
  intros t It. apply H. now right.
Qed.
Lemma mdl_model_ok : forall df k p, (forall s, In s p -> has_column df (s_attr s)) -> exists m, mdl_model df k p = Ok m.
Proof.
  intros df k p H. unfold mdl_model. destruct (universal_nat k) as (a & ->). destruct (universal_nat (S k)) as (b & ->). destruct (universal_nat (length p)) as (d & ->). cbn [bind]. now apply values_loop_ok.
Qed.
(** The requirements of the theorems of Properties_Lists.v that remain. *)
Definition mdl_input (df : dataframe) (tcol : string) (xs : list candidate3) : Prop :=
  categorical df /\ has_column df tcol /\ (0 < df_n df)%nat /\ (forall x, In x xs -> length (c_pos x) = df_n df /\ length (c_neg x) = df_n df).
Lemma mdl_learner_input : forall cl beta max_sl size mp mn h df tcol xs, mdl_input df tcol xs -> learner_input (mdl_config cl beta max_sl size mp mn h) df tcol xs.
Proof. intros cl beta max_sl size mp mn h df tcol xs (H1 & H2 & H3 & H4). split; auto. split; auto. split; auto. split; [auto|apply gain_gt_order]. Qed.
Theorem C39_mdl_terminates : forall cl beta max_sl size mp mn h df tcol tval xs, mdl_input df tcol xs -> known_attributes df xs ->
  exists out, learner_fit (mdl_config cl beta max_sl size mp mn h) df tcol tval xs = Ok out.
Proof.
  intros cl beta max_sl size mp mn h df tcol tval xs HI HA. apply C39_terminates; [now apply mdl_learner_input|]. intros k x Hx. apply mdl_model_ok. intros s Hs. now apply (HA x).
Qed.
(** The choices are the best ones for the compression gain of the code. *)
Theorem C41_mdl_greedy : forall cl beta max_sl size mp mn h df tcol tval xs out, mdl_input df tcol xs ->
  learner_fit (mdl_config cl beta max_sl size mp mn h) df tcol tval xs = Ok out ->
  exists runs, explains (mdl_config cl beta max_sl size mp mn h) df tcol tval xs out runs.
Proof. intros cl beta max_sl size mp mn h df tcol tval xs out HI E. apply (C41_greedy _ df tcol tval xs out); auto. now apply mdl_learner_input. Qed.
Print Assumptions C39_mdl_terminates. Print Assumptions C41_mdl_greedy.

(** * C57 *)
(** The code length of a subgroup list with the members [st] and of the dataset given the list. *)
Section Length.
  Variables (df : dataframe) (tgt : list bool).
  Definition LN (n : nat) : R := match universal_code_for_integer (Z.of_nat n) with Ok x => x | Err _ => 0 end.
  (** The description: its size, its attributes, its values. *)
  Definition description_length (p : pattern) : R :=
    LN (length p) + log2 (INR (binom (length (df_cols df) - 1) (length p))) +
    rsum (map (fun s => match df_col df (s_attr s) with Ok col => log2 (INR (length (distinct_values col))) | Err _ => 0 end) p).
  Definition list_length (st : list candidate3) : R := LN (length st) + rsum (map (fun x => description_length (g_desc (c_group x))) st).
  (** [k log2 (k / n)], 0 when k is 0. *)
  Definition klog (k n : nat) : R := if (k =? 0)%nat then 0 else INR k * log2 (INR k / INR n).
  (** The rows of a member with their own distribution, the other rows with that of the dataset. *)
  Definition rows_length (own : nat * nat) : R :=
    let n := (fst own + snd own)%nat in if (n =? 0)%nat then 0 else - klog (fst own) n - klog (snd own) n + multinomial2 n.
  Definition positives : nat := length (filter (bit tgt) (seq 0 (df_n df))).
  Definition negatives : nat := length (filter (fun i => negb (bit tgt i)) (seq 0 (df_n df))).
  Definition default_length (st : list candidate3) : R :=
    - (INR (fst (default_rows df tgt st)) * log2 (INR positives / INR (positives + negatives)))
    - INR (snd (default_rows df tgt st)) * log2 (INR negatives / INR (positives + negatives)).
  Definition data_length (st : list candidate3) : R :=
    rsum (map (fun k => match nth_error st k with Some x => rows_length (own_rows df tgt (firstn k st) x) | None => 0 end) (seq 0 (length st))) + default_length st.
  Definition total_length (st : list candidate3) : R := list_length st + data_length st.
End Length.
Lemma LN_ok : forall n, universal_code_for_integer (Z.of_nat n) = Ok (LN n).
Proof. intros n. unfold LN. destruct (universal_nat n) as (x & ->). reflexivity. Qed.
Lemma binom_pos : forall n k, (k <= n)%nat -> (0 < binom n k)%nat.
Proof. induction n as [|n IH]; intros [|k] H; cbn [binom]; try lia. specialize (IH k ltac:(lia)). lia. Qed.
Lemma binom_zero : forall n k, (n < k)%nat -> binom n k = 0%nat.
Proof. induction n as [|n IH]; intros [|k] H; cbn [binom]; try lia. rewrite !IH by lia. lia. Qed.
Lemma values_loop_fin : forall df p a, (forall s, In s p -> has_column df (s_attr s)) ->
  values_loop df p (GFin a) = Ok (GFin (a - rsum (map (fun s => match df_col df (s_attr s) with Ok col => log2 (INR (length (distinct_values col))) | Err _ => 0 end) p))).
Proof.
  intros df. induction p as [|s p IH]; intros a H; cbn [values_loop map rsum fold_right]; [do 2 f_equal; ring|]. change (fold_right Rplus 0) with rsum.
  destruct (H s (or_introl eq_refl)) as (col & Ec). unfold df_col at 1 2. rewrite Ec. cbn [bind gain_add]. rewrite IH by (intros t It; apply H; now right). do 2 f_equal. ring.
Qed.
Lemma values_loop_inf : forall df p m, values_loop df p GInf = Ok m -> m = GInf.
Proof. intros df. induction p as [|s p IH]; intros m; cbn [values_loop]; [congruence|]. destruct (df_col df (s_attr s)) as [col|e]; cbn [bind gain_add]; [apply IH|discriminate]. Qed.
Lemma mdl_model_fin : forall df k p, (forall s, In s p -> has_column df (s_attr s)) -> (length p <= length (df_cols df) - 1)%nat ->
  mdl_model df k p = Ok (GFin (LN k - LN (S k) - description_length df p)).
Proof.
  intros df k p H L. unfold mdl_model. rewrite !LN_ok. cbn [bind]. assert (B := binom_pos _ _ L). replace (binom (length (df_cols df) - 1) (length p) =? 0)%nat with false by (symmetry; apply Nat.eqb_neq; lia).
  rewrite values_loop_fin by auto. do 2 f_equal. unfold description_length. ring.
Qed.
Lemma candidate_rows : forall p q, candidate_value p q = rows_length (p, q).
Proof.
  intros p q. unfold candidate_value, rows_length, klog. cbn [fst snd]. destruct (p + q =? 0)%nat eqn:E; [reflexivity|]. destruct (p =? 0)%nat eqn:Ep, (q =? 0)%nat eqn:Eq; unfold nlogp; try ring.
  apply Nat.eqb_eq in Ep, Eq. apply Nat.eqb_neq in E. lia.
Qed.
Lemma total_step : forall df tgt st x, total_length df tgt (st ++ [x]) =
  total_length df tgt st - LN (length st) + LN (S (length st)) + description_length df (g_desc (c_group x)) + rows_length (own_rows df tgt st x) - default_length df tgt st + default_length df tgt (st ++ [x]).
Proof.
  intros df tgt st x. unfold total_length, list_length, data_length. rewrite app_length. cbn [length]. rewrite Nat.add_1_r, map_app, rsum_app. cbn [map rsum fold_right]. change (fold_right Rplus 0) with rsum.
  rewrite seq_S, map_app, rsum_app. cbn [map rsum fold_right Nat.add]. change (fold_right Rplus 0) with rsum. rewrite nth_error_app2, Nat.sub_diag by lia. cbn [nth_error]. rewrite firstn_app, Nat.sub_diag, firstn_all, app_nil_r.
  rewrite (map_ext_in _ (fun k => match nth_error st k with Some x => rows_length (own_rows df tgt (firstn k st) x) | None => 0 end)); [ring|].
  intros k Ik. apply in_seq in Ik. rewrite nth_error_app1 by lia. rewrite firstn_app. replace (k - length st)%nat with 0%nat by lia. cbn [firstn]. now rewrite app_nil_r.
Qed.
Lemma scale_pos : forall g r, 0 <= r -> gain_gt (gain_scale g r) (GFin 0) = true -> gain_gt g (GFin 0) = true.
Proof.
  intros [|x|] r Hr; cbn; auto. rewrite !Rltb_true. intros H. destruct (Rlt_le_dec 0 x) as [L|L]; auto. exfalso. assert (x * r <= 0); [|lra]. nra.
Qed.
Lemma list_sum_filter : forall (f : nat -> nat) (b : nat -> bool) l, (list_sum (map f (filter b l)) <= list_sum (map f l))%nat.
Proof. intros f b. unfold list_sum. induction l as [|a l IH]; [cbn; lia|]. cbn [filter]. destruct (b a); cbn [map fold_right]; lia. Qed.
Lemma ratio_le1 : forall a b, (a <= b)%nat -> (ratio a b <= 1)%Q.
Proof.
  intros a b H. unfold ratio. destruct (b =? 0)%nat eqn:E; [discriminate|]. apply Nat.eqb_neq in E. unfold nat_Q. apply Qle_shift_div_r; [rewrite <- (Zlt_Qlt 0); lia|]. rewrite Qmult_1_l, <- Zle_Qle. lia.
Qed.
Lemma overlap_le1 : forall df st x, (overlap_pos df st x <= 1)%Q /\ (overlap_neg df st x <= 1)%Q.
Proof.
  intros. unfold overlap_pos, overlap_neg. split; match goal with |- ((if ?b then _ else _) <= _)%Q => destruct b end; try discriminate; apply ratio_le1, list_sum_filter.
Qed.
Lemma Q_le1 : forall q, (q <= 1)%Q -> 0 <= 1 - Q2R q.
Proof. intros q H. apply Qle_Rle in H. replace (Q2R 1) with 1 in H by (unfold Q2R; cbn; field). lra. Qed.

(** Every member that is added to a list makes the total length shorter. *)
Theorem C57_compresses : forall cl beta max_sl size mp mn h df tcol tval xs out l st x rest,
  mdl_input df tcol xs -> known_attributes df xs -> (forall y, In y xs -> (length (g_desc (c_group y)) <= length (df_cols df) - 1)%nat) ->
  learner_fit (mdl_config cl beta max_sl size mp mn h) df tcol tval xs = Ok out -> In l out -> members l = st ++ x :: rest ->
  total_length df (target_bits df tcol tval) (st ++ [x]) < total_length df (target_bits df tcol tval) st.
Proof.
  intros cl beta max_sl size mp mn h df tcol tval xs out l st x rest HI HA HL E Il Em. set (tgt := target_bits df tcol tval).
  destruct (member_choice _ df tcol tval xs out l st x rest (mdl_learner_input cl beta max_sl size mp mn h df tcol xs HI) E Il Em) as (prior & a & -> & (Av & _ & g & Hg & Hz & _) & _).
  assert (Ix : In (cand xs a) xs) by (apply nth_In; apply Av). set (x := cand xs a) in *. unfold gain_is in Hg. fold tgt in Hg. cbn [mdl_config lc_zero lc_gt lc_model lc_data lc_gain lc_class lc_penalty] in Hg, Hz.
  destruct (fst (own_rows df tgt st x) + snd (own_rows df tgt st x) =? 0)%nat eqn:En; [subst g; cbn in Hz; apply Rltb_true in Hz; lra|].
  destruct Hg as (m & Em1 & Hg). rewrite mdl_model_fin in Em1 by (intros; first [apply HL; auto|apply (HA x); auto]). injection Em1 as <-. cbv zeta in Hg.
  assert (K : gain_gt (gain_add (GFin (LN (length st) - LN (S (length st)) - description_length df (g_desc (c_group x))))
     (mdl_data (positives df tgt) (negatives df tgt) (default_rows df tgt st) (default_rows df tgt (st ++ [x])) (own_rows df tgt st x))) (GFin 0) = true).
  { assert (P : 0 <= / Rpower (INR (fst (own_rows df tgt st x) + snd (own_rows df tgt st x))) beta) by (left; apply Rinv_0_lt_compat; unfold Rpower; apply exp_pos).
    unfold mdl_gain, mdl_penalty in Hg. destruct (overlap_le1 df st x) as [O1 O2]. destruct cl; subst g.
    - exact (scale_pos _ _ P Hz).
    - exact (scale_pos _ _ P Hz).
    - apply scale_pos in Hz; [|now apply Q_le1]. apply scale_pos in Hz; [|now apply Q_le1]. exact (scale_pos _ _ P Hz). }
  unfold mdl_data in K. destruct (default_value (positives df tgt) (negatives df tgt) (default_rows df tgt st)) as [|d1|] eqn:D1; try (cbn in K; discriminate).
  destruct (default_value (positives df tgt) (negatives df tgt) (default_rows df tgt (st ++ [x]))) as [|d2|] eqn:D2; try (cbn in K; discriminate). cbn [gain_add gain_gt] in K. apply Rltb_true in K.
  unfold default_value in D1, D2. destruct ((positives df tgt =? 0)%nat || (negatives df tgt =? 0)%nat); [discriminate|]. injection D1 as D1. injection D2 as D2.
  assert (E1 : default_length df tgt st = d1) by exact D1. assert (E2 : default_length df tgt (st ++ [x]) = d2) by exact D2.
  rewrite candidate_rows, <- surjective_pairing in K. rewrite total_step, E1, E2. lra.
Qed.
(** The whole list: it is never longer than the dataset without a list, and shorter when it has a member. *)
Theorem C57_shorter : forall cl beta max_sl size mp mn h df tcol tval xs out l,
  mdl_input df tcol xs -> known_attributes df xs -> (forall y, In y xs -> (length (g_desc (c_group y)) <= length (df_cols df) - 1)%nat) ->
  learner_fit (mdl_config cl beta max_sl size mp mn h) df tcol tval xs = Ok out -> In l out -> members l <> [] ->
  total_length df (target_bits df tcol tval) (members l) < total_length df (target_bits df tcol tval) [].
Proof.
  intros cl beta max_sl size mp mn h df tcol tval xs out l HI HA HL E Il Hn.
  assert (K : forall k, (0 < k <= length (members l))%nat -> total_length df (target_bits df tcol tval) (firstn k (members l)) < total_length df (target_bits df tcol tval) []).
  { induction k as [|k IH]; intros Hk; [lia|]. destruct (nth_error (members l) k) as [x|] eqn:Ex; [|apply nth_error_None in Ex; lia].
    apply nth_error_split in Ex. destruct Ex as (st & rest & Es & Ls). assert (F0 : firstn k (members l) = st) by (rewrite Es, firstn_app, <- Ls, Nat.sub_diag, firstn_all; cbn; apply app_nil_r).
    assert (F1 : firstn (S k) (members l) = st ++ [x]). { rewrite Es, firstn_app, <- Ls. replace (S (length st) - length st)%nat with 1%nat by lia. rewrite firstn_all2 by lia. reflexivity. }
    rewrite F1. assert (X := C57_compresses cl beta max_sl size mp mn h df tcol tval xs out l st x rest HI HA HL E Il Es). destruct k as [|k]; [cbn in Ls; destruct st; [exact X|discriminate]|].
    rewrite F0 in IH. specialize (IH ltac:(lia)). lra. }
  specialize (K (length (members l))). rewrite firstn_all in K. apply K. destruct (members l); [congruence|cbn; lia].
Qed.
(** A dataset with rows of one class only gives empty lists (the gains are nan). *)
Theorem C57_one_class : forall cl beta max_sl size mp mn h df tcol tval xs out l,
  mdl_input df tcol xs -> (positives df (target_bits df tcol tval) = 0%nat \/ negatives df (target_bits df tcol tval) = 0%nat) ->
  learner_fit (mdl_config cl beta max_sl size mp mn h) df tcol tval xs = Ok out -> In l out -> members l = [].
Proof.
  intros cl beta max_sl size mp mn h df tcol tval xs out l HI H0 E Il. destruct (members l) as [|x rest] eqn:Em; [reflexivity|exfalso]. set (tgt := target_bits df tcol tval) in *.
  destruct (member_choice _ df tcol tval xs out l [] x rest (mdl_learner_input cl beta max_sl size mp mn h df tcol xs HI) E Il Em) as (prior & a & -> & (_ & _ & g & Hg & Hz & _) & _).
  unfold gain_is in Hg. fold tgt in Hg. cbn [mdl_config lc_zero lc_gt lc_model lc_data lc_gain lc_class lc_penalty] in Hg, Hz.
  destruct (fst (own_rows df tgt [] (cand xs a)) + snd (own_rows df tgt [] (cand xs a)) =? 0)%nat; [subst g; cbn in Hz; apply Rltb_true in Hz; lra|].
  destruct Hg as (m & _ & Hg). cbv zeta in Hg. change (length (filter (bit tgt) (seq 0 (df_n df)))) with (positives df tgt) in Hg.
  change (length (filter (fun i => negb (bit tgt i)) (seq 0 (df_n df)))) with (negatives df tgt) in Hg.
  assert (Dn : forall b a0 o, mdl_data (positives df tgt) (negatives df tgt) b a0 o = GNan).
  { intros b a0 o. unfold mdl_data, default_value. replace ((positives df tgt =? 0)%nat || (negatives df tgt =? 0)%nat) with true; [reflexivity|]. symmetry. apply orb_true_iff. rewrite !Nat.eqb_eq. auto. }
  rewrite Dn in Hg. unfold mdl_gain, mdl_penalty in Hg. replace (gain_add m GNan) with GNan in Hg by (destruct m; reflexivity). destruct cl; subst g; discriminate.
Qed.
(** The limit on the descriptions is needed: the gain of a longer one is infinite, whatever rows it covers ([comb] is 0). *)
Theorem C57_long_descriptions : forall cl beta max_sl size mp mn h df tgt st x, cl <> DSLM ->
  (forall s, In s (g_desc (c_group x)) -> has_column df (s_attr s)) -> (length (df_cols df) - 1 < length (g_desc (c_group x)))%nat ->
  (0 < positives df tgt)%nat -> (0 < negatives df tgt)%nat -> (0 < fst (own_rows df tgt st x) + snd (own_rows df tgt st x))%nat ->
  gain_is (mdl_config cl beta max_sl size mp mn h) df tgt st x GInf.
Proof.
  intros cl beta max_sl size mp mn h df tgt st x Hc Ha Hl Hp Hn Ho. unfold gain_is. cbn [mdl_config lc_zero lc_gt lc_model lc_data lc_gain lc_class lc_penalty].
  replace (fst (own_rows df tgt st x) + snd (own_rows df tgt st x) =? 0)%nat with false by (symmetry; apply Nat.eqb_neq; lia).
  destruct (mdl_model_ok df (length st) (g_desc (c_group x)) Ha) as (m & Em). exists m. split; auto. assert (m = GInf).
  { unfold mdl_model in Em. rewrite !LN_ok in Em. cbn [bind] in Em. rewrite binom_zero in Em by auto. cbn in Em. eapply values_loop_inf; eauto. }
  subst m. cbv zeta. change (length (filter (bit tgt) (seq 0 (df_n df)))) with (positives df tgt). change (length (filter (fun i => negb (bit tgt i)) (seq 0 (df_n df)))) with (negatives df tgt).
  assert (K : mdl_gain beta GInf (mdl_data (positives df tgt) (negatives df tgt) (default_rows df tgt st) (default_rows df tgt (st ++ [x])) (own_rows df tgt st x)) (fst (own_rows df tgt st x) + snd (own_rows df tgt st x)) = GInf).
  { unfold mdl_gain, mdl_data, default_value. replace ((positives df tgt =? 0)%nat || (negatives df tgt =? 0)%nat) with false; [|symmetry; apply orb_false_iff; rewrite !Nat.eqb_neq; lia].
    cbn [gain_add gain_scale]. replace (Rltb 0 _) with true; [reflexivity|]. symmetry. apply Rltb_true. apply Rinv_0_lt_compat. unfold Rpower. apply exp_pos. }
  destruct cl; [symmetry; exact K|symmetry; exact K|congruence].
Qed.
(** The gain of a candidate in DSLM is its gain in GMSL and PSLD, times one minus its overlap with the positive rows of the members, times
    one minus its overlap with the negative rows. *)
Theorem C57_penalty : forall beta max_sl size mp mn h df tgt st x v,
  gain_is (mdl_config GMSL beta max_sl size mp mn h) df tgt st x (GFin v) ->
  gain_is (mdl_config PSLD beta max_sl size mp mn h) df tgt st x (GFin v) /\
  gain_is (mdl_config DSLM beta max_sl size mp mn h) df tgt st x (GFin (v * (1 - Q2R (overlap_pos df st x)) * (1 - Q2R (overlap_neg df st x)))).
Proof.
  intros beta max_sl size mp mn h df tgt st x v H. split; [exact H|]. unfold gain_is in *. cbn [mdl_config lc_zero lc_gt lc_model lc_data lc_gain lc_class lc_penalty] in *.
  destruct (fst (own_rows df tgt st x) + snd (own_rows df tgt st x) =? 0)%nat.
  - assert (v = 0) by congruence. subst v. f_equal. ring.
  - destruct H as (m & Em & H). exists m. split; auto. cbv zeta in *. rewrite <- H. reflexivity.
Qed.
Print Assumptions C57_penalty.
(** Non-vacuity: a dataset of 32 rows and a candidate that covers the 16 positive rows; the list is not empty. *)
Definition two_groups : dataframe := rows3 (repeat ("x", "w", "0", "p") 16 ++ repeat ("y", "w", "0", "n") 16).
Definition pure : list candidate3 := [(gx [("a", "x")], repeat true 16 ++ repeat false 16, repeat false 32)].
Lemma pure_gain : exists g, gain_is (mdl_config GMSL 1 1 0 0 0 (fun _ => 0%Z)) two_groups (target_bits two_groups "class" "p") [] (cand pure 0) g /\ gain_gt g (GFin 0) = true.
Proof.
  set (tgt := target_bits two_groups "class" "p"). unfold gain_is. assert (Eo : own_rows two_groups tgt [] (cand pure 0) = (16, 0)%nat) by (vm_compute; reflexivity). rewrite Eo. cbn [fst snd Nat.add Nat.eqb].
  eexists. split.
  - eexists. split; [cbn [mdl_config lc_model]; apply mdl_model_fin; [|vm_compute; lia]|cbv zeta; reflexivity].
    intros s [<-|[]]. cbn. eexists. reflexivity.
  - cbn [mdl_config lc_class lc_gain lc_data].
    replace (length (filter (bit tgt) (seq 0 (df_n two_groups)))) with 16%nat by (vm_compute; reflexivity).
    replace (length (filter (fun i => negb (bit tgt i)) (seq 0 (df_n two_groups)))) with 16%nat by (vm_compute; reflexivity).
    replace (default_rows two_groups tgt []) with (16, 16)%nat by (vm_compute; reflexivity). replace (default_rows two_groups tgt ([] ++ [cand pure 0])) with (0, 16)%nat by (vm_compute; reflexivity).
    unfold mdl_gain, mdl_data, default_value. cbn [fst snd Nat.add Nat.eqb orb gain_add gain_scale gain_gt]. apply Rltb_true. apply Rmult_lt_0_compat; [|apply Rinv_0_lt_compat; unfold Rpower; apply exp_pos].
    assert (L4 : log2 4 = 2) by (replace 4 with (2 * 2) by ring; rewrite log2_mult, log2_2 by lra; ring).
    assert (L32 : log2 32 = 5) by (replace 32 with (4 * 4 * 2) by ring; rewrite !log2_mult, log2_2, L4 by lra; ring).
    assert (Lh : log2 (INR 16 / INR 32) = -1).
    { replace (INR 16 / INR 32) with (/ 2) by (cbn; field). unfold log2. rewrite ln_Rinv by lra. field. assert (X := ln2_pos). lra. }
    rewrite Lh. replace (INR 16) with 16 by (cbn; ring). change (INR 0) with 0.
    assert (E0 : LN 0 = 0) by reflexivity. cbn [length]. rewrite E0.
    assert (E1 : LN 1 <= 2).
    { assert (E1 := LN_ok 1). unfold universal_code_for_integer in E1. cbn -[universal_loop log2 LN] in E1. cbn [Pos.to_nat Pos.iter_op Init.Nat.add] in E1. unfold log2 in E1 at 2. rewrite ln_1 in E1. unfold Rdiv in E1 at 2. rewrite Rmult_0_l in E1.
      change (Pos.to_nat 1 + 3)%nat with 4%nat in E1. rewrite universal_step in E1. replace (Rltb threshold 0) with false in E1 by (symmetry; apply Rltb_false; unfold threshold; lra). injection E1 as <-.
      rewrite <- L4. apply log2_mono_le; lra. }
    assert (Ed : description_length two_groups (g_desc (c_group (cand pure 0))) <= 2 + 2 + 1).
    { unfold description_length. replace (length (g_desc (c_group (cand pure 0)))) with 1%nat by reflexivity. replace (binom (length (df_cols two_groups) - 1) 1) with 3%nat by reflexivity.
      assert (log2 (INR 3) <= 2) by (rewrite <- L4; apply log2_mono_le; cbn; lra).
      assert (Er : rsum (map (fun s => match df_col two_groups (s_attr s) with Ok col => log2 (INR (length (distinct_values col))) | Err _ => 0 end) (g_desc (c_group (cand pure 0)))) = log2 (INR 2) + 0) by reflexivity.
      rewrite Er. replace (INR 2) with 2 by (cbn; ring). rewrite log2_2. lra. }
    assert (Ec : candidate_value 16 0 <= 5).
    { rewrite candidate_rows. unfold rows_length, klog. cbn [fst snd Nat.add Nat.eqb]. replace (INR 16 / INR 16) with 1 by (cbn; field). rewrite log2_1.
      assert (Em : multinomial2 16 <= 5); [|lra]. unfold multinomial2, log2_multinomial_with_recurrence. change 2%Z with (Z.of_nat 2). rewrite (multinomial_unfold 2 16) by lia. cbn [bind Nat.sub category_loop].
      assert (G1 := sum_loop_ge1 16 ltac:(lia)). replace (Rltb 0 _) with true by (symmetry; apply Rltb_true; lra). rewrite <- L32. apply log2_mono_le; [lra|].
      destruct (two_categories 16 ltac:(lia)) as (A & _). eapply Rle_trans; [exact A|]. rewrite cpx_two by lia.
      assert (K : forall k, (k <= 16)%nat -> sum_f_R0 (bk 16) k <= INR k + 1).
      { assert (B1 : forall k, (k <= 16)%nat -> bk 16 k <= 1).
        { intros k Hk. eapply Rle_trans; [apply bk_exp; lia|]. apply Rle_trans with (exp 0); [|rewrite exp_0; lra]. assert (D0 : 0 <= INR k * (INR k - 1) / (2 * INR 16)).
          { destruct k as [|k]; [cbn [INR]; right; unfold Rdiv; ring|]. rewrite S_INR. assert (P := pos_INR k). apply Rmult_le_pos; [nra|]. left. apply Rinv_0_lt_compat. cbn. lra. }
          destruct D0 as [D0|D0]; [left; apply exp_increasing; lra|right; rewrite <- D0; f_equal; ring]. }
        induction k as [|k IH]; intros Hk; cbn [sum_f_R0]; [cbn; lra|]. specialize (IH ltac:(lia)). specialize (B1 (S k) Hk). rewrite S_INR. lra. }
      specialize (K 16%nat (le_n _)). replace (INR 16) with 16 in K by (cbn; ring). lra. }
    lra.
Qed.
Example C57_nonvacuous : exists out l, mdl_input two_groups "class" pure /\ known_attributes two_groups pure /\
  (forall y, In y pure -> (length (g_desc (c_group y)) <= length (df_cols two_groups) - 1)%nat) /\
  learner_fit (mdl_config GMSL 1 1 0 0 0 (fun _ => 0%Z)) two_groups "class" "p" pure = Ok out /\ In l out /\ members l <> [].
Proof.
  assert (HI : mdl_input two_groups "class" pure).
  { destruct (rows3_ok (repeat ("x", "w", "0", "p") 16 ++ repeat ("y", "w", "0", "n") 16)) as (A & _ & B). split; auto. split; auto. split; [cbn; lia|]. intros x [<-|[]]. split; reflexivity. }
  assert (HA : known_attributes two_groups pure). { intros x s [<-|[]] [<-|[]]. cbn. eexists. reflexivity. }
  destruct (C39_mdl_terminates GMSL 1 1 0 0 0 (fun _ => 0%Z) two_groups "class" "p" pure HI HA) as (out & E).
  destruct (fit_explained _ two_groups "class" "p" pure out (mdl_learner_input _ _ _ _ _ _ _ _ _ _ HI) E) as (runs & L & (l0 & Hl0 & Eo & Hr) & F & _). cbn in L.
  destruct runs as [|r [|? ?]]; try discriminate. destruct (members_runs _ two_groups "class" "p" pure out (mdl_learner_input _ _ _ _ _ _ _ _ _ _ HI) E) as (runs' & Er & _ & Hr').
  subst out. cbn [map] in *. eexists _, (with_members l0 (map (cand pure) r)). split; auto. split; auto. split; [intros y [<-|[]]; cbn; lia|]. split; [exact E|]. split; [now left|].
  intros Em. rewrite Em in Er. destruct runs' as [|r' [|? ?]]; try discriminate. cbn in Er. injection Er as Er. destruct r'; [|discriminate].
  destruct (Hr' 0%nat [] eq_refl) as [_ N]. cbn [firstn concat app map length] in N. destruct pure_gain as (g & Hg & Hp).
  assert (X := N I 0%nat g). cbn [mdl_config lc_zero lc_gt] in X. rewrite X in Hp; [discriminate| | |].
  - split; [cbn; lia|]. split; [intros []|intros b []].
  - exact I.
  - exact Hg.
Qed.
Print Assumptions C57_compresses. Print Assumptions C57_shorter. Print Assumptions C57_one_class. Print Assumptions C57_long_descriptions.
