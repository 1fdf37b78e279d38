(** Proofs for C51: the loops of the code. *)
From Coq Require Import Reals Lra Lia Arith ZArith List.
From Verif Require Import MDLModel MDLSpec AbelProofs MDLProofs.
Import ListNotations.
Open Scope R_scope.

Lemma Rltb_true : forall x y, Rltb x y = true <-> x < y.
Proof. intros. unfold Rltb. destruct (Rlt_dec x y); split; auto; discriminate. Qed.
Lemma Rltb_false : forall x y, Rltb x y = false <-> y <= x.
Proof. intros. unfold Rltb. destruct (Rlt_dec x y); split; auto; try discriminate; try lra. Qed.

(** * The sum for two categories *)
Fixpoint bk (n k : nat) : R := match k with O => 1 | S k' => (INR n - INR k') / INR n * bk n k' end.
Lemma sum_loop_spec : forall n m k, sum_loop n m (S k) (bk n k) (sum_f_R0 (bk n) k) = sum_f_R0 (bk n) (k + m).
Proof.
  intros n. induction m as [|m IH]; intros k; cbn [sum_loop]; [f_equal; lia|].
  replace ((INR n - INR (S k) + 1) / INR n * bk n k) with (bk n (S k)) by (cbn [bk]; rewrite S_INR; f_equal; f_equal; ring).
  change (sum_f_R0 (bk n) k + bk n (S k)) with (sum_f_R0 (bk n) (S k)). rewrite IH. f_equal. lia.
Qed.
Lemma bk_closed : forall n k, (1 <= n)%nat -> (k <= n)%nat -> bk n k = INR (fact n) / (INR (fact (n - k)) * INR n ^ k).
Proof.
  intros n k Hn. assert (P : INR n <> 0) by (apply not_0_INR; lia). induction k as [|k IH]; intros H; cbn [bk].
  - rewrite Nat.sub_0_r. cbn. field. apply fact_pos.
  - rewrite IH by lia. replace (n - k)%nat with (S (n - S k)) by lia. rewrite fact_S. replace (S (n - S k)) with (n - k)%nat by lia. rewrite minus_INR by lia. cbn [pow].
    field. repeat split; auto using fact_pos, pow_nonzero. rewrite <- minus_INR by lia. apply not_0_INR. lia.
Qed.
Lemma bk_zero : forall n k, (n < k)%nat -> bk n k = 0.
Proof.
  intros n. induction k as [|k IH]; intros H; [lia|]. cbn [bk]. destruct (Nat.eq_dec n k) as [->|Ne]; [unfold Rdiv; ring|]. rewrite IH by lia. ring.
Qed.
Lemma bk_nonneg : forall n k, (1 <= n)%nat -> 0 <= bk n k.
Proof.
  intros n k Hn. destruct (le_lt_dec k n) as [L|L]; [|rewrite bk_zero by auto; lra]. rewrite bk_closed by auto.
  apply Rlt_le, Rdiv_lt_0_compat; [apply INR_fact_lt_0|]. apply Rmult_lt_0_compat; [apply INR_fact_lt_0|apply pow_lt, lt_0_INR; lia].
Qed.
Lemma cpx_two : forall n, (1 <= n)%nat -> cpx 2 n = sum_f_R0 (bk n) n.
Proof.
  intros n Hn. assert (P : INR n <> 0) by (apply not_0_INR; lia). unfold cpx.
  replace (INR (fact n) / INR n ^ n * powers 2 n) with (/ INR n ^ n * (powers 2 n * INR (fact n))) by (field; auto using pow_nonzero). rewrite powers_two.
  assert (A := abel_F n 0 0). unfold Fsum, gsum in A. rewrite (sum_eq' _ (fun k => C n k * INR k ^ k * INR (n - k) ^ (n - k))) in A by (intros; now rewrite !Rplus_0_l). rewrite A.
  rewrite <- sum_scale, <- (sum_rev (bk n)). apply sum_eq'. intros k Hk. rewrite bk_closed by lia. replace (n - (n - k))%nat with k by lia. replace (0 + 0 + INR n) with (INR n) by ring.
  replace (INR n ^ n) with (INR n ^ k * INR n ^ (n - k)) by (rewrite <- pow_add; f_equal; lia). field. repeat split; auto using fact_pos, pow_nonzero.
Qed.
Lemma sum_bk_mono : forall n a b, (1 <= n)%nat -> (a <= b)%nat -> sum_f_R0 (bk n) a <= sum_f_R0 (bk n) b.
Proof. intros n a b Hn H. induction H as [|b H IH]; [lra|]. cbn [sum_f_R0]. assert (X := bk_nonneg n (S b) Hn). lra. Qed.
Lemma sum_bk_beyond : forall n a, (n <= a)%nat -> sum_f_R0 (bk n) a = sum_f_R0 (bk n) n.
Proof. intros n a H. induction H as [|a H IH]; [reflexivity|]. cbn [sum_f_R0]. rewrite bk_zero by lia. lra. Qed.
Lemma bk_sub : forall n B j, (1 <= n)%nat -> bk n (B + j) <= bk n B * bk n j.
Proof.
  intros n B j Hn. assert (P : 0 < INR n) by (apply lt_0_INR; lia). induction j as [|j IH]; [rewrite Nat.add_0_r; cbn; lra|]. rewrite Nat.add_succ_r. cbn [bk].
  destruct (le_lt_dec (B + j) n) as [L|L].
  - assert (A : 0 <= (INR n - INR (B + j)) / INR n). { apply Rmult_le_pos; [|left; now apply Rinv_0_lt_compat]. apply le_INR in L. lra. }
    assert (E : (INR n - INR (B + j)) / INR n <= (INR n - INR j) / INR n). { apply Rmult_le_compat_r; [left; now apply Rinv_0_lt_compat|]. rewrite plus_INR. assert (X := pos_INR B). lra. }
    assert (N := bk_nonneg n (B + j) Hn). assert (N1 := bk_nonneg n B Hn). assert (N2 := bk_nonneg n j Hn).
    apply Rle_trans with ((INR n - INR (B + j)) / INR n * (bk n B * bk n j)); [apply Rmult_le_compat_l; auto|].
    replace (bk n B * ((INR n - INR j) / INR n * bk n j)) with ((INR n - INR j) / INR n * (bk n B * bk n j)) by ring. apply Rmult_le_compat_r; auto using Rmult_le_pos.
  - rewrite (bk_zero n (B + j)) by auto. rewrite Rmult_0_r. apply Rmult_le_pos; [apply bk_nonneg; auto|]. change (0 <= bk n (S j)). now apply bk_nonneg.
Qed.
Lemma sum_tail : forall n B m, (1 <= n)%nat -> sum_f_R0 (bk n) (B + m) <= sum_f_R0 (bk n) B + bk n B * sum_f_R0 (bk n) m.
Proof.
  intros n B m Hn. assert (N := bk_nonneg n B Hn). induction m as [|m IH]; [rewrite Nat.add_0_r; cbn [sum_f_R0 bk]; lra|]. rewrite Nat.add_succ_r. cbn [sum_f_R0].
  assert (X := bk_sub n B (S m) Hn). rewrite Nat.add_succ_r in X. lra.
Qed.
Lemma bk_exp : forall n k, (1 <= n)%nat -> (k <= n)%nat -> bk n k <= exp (- (INR k * (INR k - 1) / (2 * INR n))).
Proof.
  intros n k Hn. assert (P : 0 < INR n) by (apply lt_0_INR; lia). induction k as [|k IH]; intros H; cbn [bk].
  - change (INR 0) with 0. replace (- (0 * (0 - 1) / (2 * INR n))) with 0 by (field; lra). rewrite exp_0. lra.
  - replace (- (INR (S k) * (INR (S k) - 1) / (2 * INR n))) with (- (INR k / INR n) + - (INR k * (INR k - 1) / (2 * INR n))) by (rewrite S_INR; field; lra). rewrite exp_plus.
    assert (L : INR k <= INR n) by (apply le_INR; lia).
    apply Rmult_le_compat; [| apply bk_nonneg; auto | | apply IH; lia].
    + apply Rmult_le_pos; [lra|left; now apply Rinv_0_lt_compat].
    + replace ((INR n - INR k) / INR n) with (1 + - (INR k / INR n)) by (field; lra). apply exp_ineq1_le.
Qed.
Lemma ceil_ge : forall x, x <= IZR (ceil x).
Proof. intros x. unfold ceil. rewrite minus_IZR. destruct (archimed (- x)) as [_ H]. lra. Qed.
Lemma bound_ge : forall n, 2 + sqrt (2 * INR n * 10 * ln 10) <= INR (bound n).
Proof.
  intros n. unfold bound. assert (H := ceil_ge (2 + sqrt (2 * INR n * 10 * ln 10))). assert (S0 := sqrt_pos (2 * INR n * 10 * ln 10)).
  rewrite (INR_IZR_INZ (Z.to_nat _)), Z2Nat.id; auto. apply le_IZR. lra.
Qed.
Lemma bk_bound : forall n, (1 <= n)%nat -> bk n (bound n) <= / 10 ^ 10.
Proof.
  intros n Hn. assert (P : 0 < INR n) by (apply lt_0_INR; lia). assert (L10 : 0 < ln 10) by (rewrite <- ln_1; apply ln_increasing; lra).
  destruct (le_lt_dec (bound n) n) as [L|L].
  - eapply Rle_trans; [apply bk_exp; auto|]. replace (/ 10 ^ 10) with (exp (- (10 * ln 10))).
    + assert (Bn := bound_ge n). assert (S0 := sqrt_pos (2 * INR n * 10 * ln 10)). assert (SS := sqrt_sqrt (2 * INR n * 10 * ln 10)).
      assert (X : 20 * INR n * ln 10 <= INR (bound n) * (INR (bound n) - 1)).
      { rewrite <- (SS ltac:(apply Rmult_le_pos; lra)) || idtac. apply Rle_trans with (sqrt (2 * INR n * 10 * ln 10) * sqrt (2 * INR n * 10 * ln 10)); [rewrite SS; [lra|apply Rmult_le_pos; lra]|]. apply Rmult_le_compat; lra. }
      assert (Y : 10 * ln 10 <= INR (bound n) * (INR (bound n) - 1) / (2 * INR n)).
      { apply Rmult_le_reg_r with (2 * INR n); [lra|]. replace (INR (bound n) * (INR (bound n) - 1) / (2 * INR n) * (2 * INR n)) with (INR (bound n) * (INR (bound n) - 1)) by (field; lra). lra. }
      destruct Y as [Y|Y]; [left; apply exp_increasing; lra|right; now rewrite Y].
    + rewrite exp_Ropp. f_equal. replace (10 * ln 10) with (INR 10 * ln 10) by (cbn; ring). fold (Rpower 10 (INR 10)). apply Rpower_pow. lra.
  - rewrite bk_zero by auto. left. apply Rinv_0_lt_compat, pow_lt. lra.
Qed.
(** The truncated sum of the code. *)
Lemma two_categories : forall n, (1 <= n)%nat ->
  sum_loop n (bound n) 1 1 1 <= cpx 2 n /\ (1 - / 10 ^ 10) * cpx 2 n <= sum_loop n (bound n) 1 1 1 /\
  ((n <= bound n)%nat -> sum_loop n (bound n) 1 1 1 = cpx 2 n).
Proof.
  intros n Hn. change (sum_loop n (bound n) 1 1 1) with (sum_loop n (bound n) 1 (bk n 0) (sum_f_R0 (bk n) 0)). rewrite (sum_loop_spec n (bound n) 0). cbn [Nat.add]. rewrite cpx_two by auto. destruct (le_lt_dec n (bound n)) as [L|L].
  - rewrite sum_bk_beyond by auto. assert (X := sum_bk_mono n 0 n Hn ltac:(lia)). cbn [sum_f_R0 bk] in X. split; [lra|]. split; [|auto].
    assert (Y : 0 <= / 10 ^ 10) by (left; apply Rinv_0_lt_compat, pow_lt; lra). nra.
  - split; [apply sum_bk_mono; auto; lia|]. split; [|lia]. assert (T := sum_tail n (bound n) (n - bound n) Hn). replace (bound n + (n - bound n))%nat with n in T by lia.
    assert (M := sum_bk_mono n (n - bound n) n Hn ltac:(lia)). assert (Bb := bk_bound n Hn). assert (N := bk_nonneg n (bound n) Hn).
    assert (Z := sum_bk_mono n 0 (n - bound n) Hn ltac:(lia)). cbn [sum_f_R0 bk] in Z.
    assert (W : bk n (bound n) * sum_f_R0 (bk n) (n - bound n) <= / 10 ^ 10 * sum_f_R0 (bk n) n) by (apply Rmult_le_compat; lra). lra.
Qed.
Lemma category_bounds : forall n e m L u v, (1 <= L)%nat ->
  (1 - e) * cpx L n <= u <= cpx L n -> (1 - e) * cpx (S L) n <= v <= cpx (S L) n ->
  (1 - e) * cpx (S L + m) n <= category_loop n m (L + 2) u v <= cpx (S L + m) n.
Proof.
  intros n e. induction m as [|m IH]; intros L u v HL Hu Hv; cbn [category_loop]; [rewrite Nat.add_0_r; auto|].
  replace (S L + S m)%nat with (S (S L) + m)%nat by lia. change (S (L + 2)) with (S L + 2)%nat. apply IH; [lia|auto|]. rewrite cpx_recurrence by auto. rewrite plus_INR. change (INR 2) with (1 + 1).
  replace (INR L + (1 + 1) - 2) with (INR L) by ring. assert (P : 0 < INR L) by (apply lt_0_INR; lia). assert (N := pos_INR n). assert (I := Rinv_0_lt_compat _ P).
  assert (K : 0 <= INR n * / INR L) by (apply Rmult_le_pos; lra). destruct Hu as [Hu1 Hu2].
  apply (Rmult_le_compat_l (INR n * / INR L)) in Hu1, Hu2; auto. unfold Rdiv.
  replace (INR n * u * / INR L) with (INR n * / INR L * u) by ring. replace (INR n * cpx L n * / INR L) with (INR n * / INR L * cpx L n) by ring. split; nra.
Qed.
Lemma category_exact : forall n m L, (1 <= L)%nat -> category_loop n m (L + 2) (cpx L n) (cpx (S L) n) = cpx (S L + m) n.
Proof. intros n m L HL. assert (X := category_bounds n 0 m L (cpx L n) (cpx (S L) n) HL ltac:(lra) ltac:(lra)). lra. Qed.
Lemma category_ge : forall n m j u v, (3 <= j)%nat -> 0 <= u -> 0 <= v -> v <= category_loop n m j u v.
Proof.
  intros n. induction m as [|m IH]; intros j u v Hj Hu Hv; cbn [category_loop]; [lra|].
  assert (A : 0 <= INR n * u / (INR j - 2)). { apply Rmult_le_pos; [apply Rmult_le_pos; [apply pos_INR|auto]|]. left. apply Rinv_0_lt_compat. apply le_INR in Hj. cbn in Hj. lra. }
  eapply Rle_trans; [|apply IH; [lia|auto|lra]]. lra.
Qed.

(** * The universal code *)
Lemma ln2_pos : / 2 < ln 2.
Proof. exact ln_lt_2. Qed.
Lemma log2_mono : forall x y, 0 < x -> x < y -> log2 x < log2 y.
Proof. intros x y H1 H2. unfold log2. apply Rmult_lt_compat_r; [apply Rinv_0_lt_compat; assert (X := ln2_pos); lra|now apply ln_increasing]. Qed.
Lemma log2_mono_le : forall x y, 0 < x -> x <= y -> log2 x <= log2 y.
Proof. intros x y H1 [H2| ->]; [left; now apply log2_mono|lra]. Qed.
Lemma log2_1 : log2 1 = 0.
Proof. unfold log2. rewrite ln_1. unfold Rdiv. ring. Qed.
Lemma log2_2 : log2 2 = 1.
Proof. unfold log2. field. assert (X := ln2_pos). lra. Qed.
Lemma log2_mult : forall x y, 0 < x -> 0 < y -> log2 (x * y) = log2 x + log2 y.
Proof. intros. unfold log2. rewrite ln_mult by auto. field. assert (X := ln2_pos). lra. Qed.
Lemma ln_le_sub1 : forall x, 0 < x -> ln x <= x - 1.
Proof. intros x H. assert (E := exp_ineq1_le (x - 1)). replace (1 + (x - 1)) with x in E by ring. rewrite <- (ln_exp (x - 1)). destruct E as [E|E]; [left; now apply ln_increasing|right; now rewrite <- E]. Qed.
Lemma log2_le : forall v, 2 <= v -> log2 v <= v - 1.
Proof.
  intros v H. replace v with (2 * (v / 2)) at 1 by field. rewrite log2_mult by lra. rewrite log2_2. assert (A := ln_le_sub1 (v / 2) ltac:(lra)). assert (L := ln2_pos).
  assert (B : log2 (v / 2) <= 2 * (v / 2 - 1)); [|lra]. unfold log2. apply Rmult_le_reg_r with (ln 2); [lra|]. replace (ln (v / 2) / ln 2 * ln 2) with (ln (v / 2)) by (field; lra). nra.
Qed.
Lemma universal_loop_ok : forall f r v, v <= INR f + 1 -> exists x, universal_loop (f + 3) r v = Ok x.
Proof.
  assert (T0 : 0 < threshold < 1) by (unfold threshold; lra).
  induction f as [|f IH]; intros r v Hv.
  - cbn [Nat.add universal_loop]. destruct (Rltb threshold v) eqn:E; [|eauto]. apply Rltb_true in E. change (INR 0) with 0 in Hv.
    assert (log2 v <= 0). { rewrite <- log2_1. apply log2_mono_le; lra. } replace (Rltb threshold (log2 v)) with false by (symmetry; apply Rltb_false; lra). eauto.
  - change (S f + 3)%nat with (S (f + 3)). cbn [universal_loop]. destruct (Rltb threshold v) eqn:E; [|eauto]. apply Rltb_true in E. apply IH. rewrite S_INR in Hv. assert (X := pos_INR f).
    destruct (Rle_lt_dec 2 v) as [H|H]; [apply log2_le in H; lra|]. assert (log2 v < 1) by (rewrite <- log2_2; apply log2_mono; lra). lra.
Qed.
Lemma universal_ok : forall i, (1 <= i)%Z -> exists x, universal_code_for_integer i = Ok x.
Proof.
  intros i Hi. unfold universal_code_for_integer. replace (i <? 0)%Z with false by (symmetry; apply Z.ltb_ge; lia). replace (i =? 0)%Z with false by (symmetry; apply Z.eqb_neq; lia).
  apply universal_loop_ok. rewrite INR_IZR_INZ, Z2Nat.id by lia. destruct (Z.eq_dec i 1) as [->|Ne]; [rewrite log2_1; lra|]. assert (2 <= IZR i) by (apply IZR_le; lia). apply log2_le in H. lra.
Qed.
Lemma universal_loop_ge : forall f r v x, universal_loop f r v = Ok x -> r <= x.
Proof.
  induction f as [|f IH]; intros r v x; cbn [universal_loop]; [discriminate|]. destruct (Rltb threshold v) eqn:E; [|intros [= ->]; lra]. apply Rltb_true in E. intros H. apply IH in H.
  assert (0 < threshold) by (unfold threshold; lra). lra.
Qed.
Lemma universal_loop_terms : forall f r v x, universal_loop f r v = Ok x ->
  exists K, x = r + rsum (map (fun k => iterated_log k v) (seq 0 K)) /\ (forall k, (k < K)%nat -> threshold < iterated_log k v) /\ iterated_log K v <= threshold.
Proof.
  induction f as [|f IH]; intros r v x; cbn [universal_loop]; [discriminate|]. destruct (Rltb threshold v) eqn:E.
  - intros H. apply Rltb_true in E. destruct (IH _ _ _ H) as (K & -> & A & B). exists (S K). split; [|split].
    + cbn [seq map rsum fold_right iterated_log]. change (fold_right Rplus 0) with rsum. rewrite <- seq_shift, map_map. cbn [iterated_log]. unfold log2. ring.
    + intros [|k] Hk; cbn [iterated_log]; [auto|]. apply A. lia.
    + exact B.
  - intros [= ->]. apply Rltb_false in E. exists 0%nat. cbn. split; [ring|]. split; [lia|auto].
Qed.
Lemma universal_loop_mono : forall f f' r r' v v' x x', v <= v' -> r <= r' -> universal_loop f r v = Ok x -> universal_loop f' r' v' = Ok x' -> x <= x' /\ (r < r' -> x < x').
Proof.
  assert (T0 : 0 < threshold) by (unfold threshold; lra).
  induction f as [|f IH]; intros f' r r' v v' x x' Hv Hr E E'; [discriminate|]. cbn [universal_loop] in E. destruct (Rltb threshold v) eqn:T.
  - apply Rltb_true in T. destruct f' as [|f']; [discriminate|]. cbn [universal_loop] in E'. replace (Rltb threshold v') with true in E' by (symmetry; apply Rltb_true; lra).
    destruct (IH f' (r + v) (r' + v') (log2 v) (log2 v') x x') as [A B]; auto; [apply log2_mono_le; lra|lra|]. split; [auto|]. intros. apply B. lra.
  - injection E as <-. apply universal_loop_ge in E'. split; lra.
Qed.
Lemma universal_step : forall f r v, universal_loop (S f) r v = if Rltb threshold v then universal_loop f (r + v) (log2 v) else Ok r.
Proof. reflexivity. Qed.
Lemma universal_increasing : forall i j x y, (0 <= i)%Z -> (i < j)%Z -> universal_code_for_integer i = Ok x -> universal_code_for_integer j = Ok y -> x < y.
Proof.
  assert (T0 : 0 < threshold < 1) by (unfold threshold; lra).
  intros i j x y Hi Hij Ei Ej. unfold universal_code_for_integer in *. replace (i <? 0)%Z with false in Ei by (symmetry; apply Z.ltb_ge; lia).
  replace (j <? 0)%Z with false in Ej by (symmetry; apply Z.ltb_ge; lia). replace (j =? 0)%Z with false in Ej by (symmetry; apply Z.eqb_neq; lia).
  assert (C0 : 0 < log2 (2865064 / 1000000)) by (rewrite <- log2_1; apply log2_mono; lra).
  destruct (i =? 0)%Z eqn:E0; [injection Ei as <-; apply universal_loop_ge in Ej; lra|]. apply Z.eqb_neq in E0.
  assert (Hj2 : 2 <= IZR j) by (apply IZR_le; lia). assert (L1 : 1 <= log2 (IZR j)) by (rewrite <- log2_2; apply log2_mono_le; lra).
  assert (Lij : log2 (IZR i) < log2 (IZR j)) by (apply log2_mono; [apply (IZR_lt 0)|apply IZR_lt]; lia).
  rewrite Nat.add_comm in Ei, Ej. change (3 + Z.to_nat i)%nat with (S (2 + Z.to_nat i)) in Ei. change (3 + Z.to_nat j)%nat with (S (2 + Z.to_nat j)) in Ej.
  rewrite universal_step in Ei, Ej. replace (Rltb threshold (log2 (IZR j))) with true in Ej by (symmetry; apply Rltb_true; lra).
  destruct (Rltb threshold (log2 (IZR i))) eqn:T.
  - apply Rltb_true in T. refine (proj2 (universal_loop_mono _ _ _ _ _ _ _ _ _ _ Ei Ej) _); [apply log2_mono_le; lra|lra|lra].
  - injection Ei as <-. apply universal_loop_ge in Ej. lra.
Qed.
