(** Proofs about the binomial test measures. *)
From Verif Require Import BinomialModel QualityProofs.
From Coq Require Import Lqa Lra Psatz.

Lemma py_sqrt_ok : forall x, (0 <= x)%Q -> py_sqrt x = Ok (sqrt (Q2R x)).
Proof. intros x H. unfold py_sqrt. apply Qle_bool_iff in H. now rewrite H. Qed.

Lemma Q2R_le0 : forall x, (0 <= x)%Q -> (0 <= Q2R x)%R.
Proof. intros x H. apply Qle_Rle in H. now rewrite RMicromega.Q2R_0 in H. Qed.
Lemma Q2R_lt0 : forall x, (0 < x)%Q -> (0 < Q2R x)%R.
Proof. intros x H. apply Qlt_Rlt in H. now rewrite RMicromega.Q2R_0 in H. Qed.

(** The value of the two measures, on consistent tables. *)
Lemma binomial_value : forall d tp fp TP FP, describes d tp fp TP FP -> consistent tp fp TP FP ->
  (0 < tp + fp)%Q -> (tp + fp < TP + FP)%Q -> (0 < TP)%Q -> (0 < FP)%Q ->
  let n := Q2R (tp + fp) in let N := Q2R (TP + FP) in let p := (Q2R tp / n)%R in let p0 := (Q2R TP / N)%R in
  binomial_test_m d = Ok ((p - p0) * sqrt n / sqrt (p0 * (1 - p0)) * sqrt (N / (N - n)))%R.
Proof.
  intros d tp fp TP FP (H1 & H2 & H3 & H4) (HC1 & HC2) Hn HN HT HF n N p p0.
  unfold binomial_test_m, pget. rewrite H1, H2, H3, H4. cbn [bind].
  destruct (qdiv_spec tp (tp + fp)) as [[E _]|[E ->]]; [lra|cbn [bind]].
  destruct (qdiv_spec TP (TP + FP)) as [[F _]|[F ->]]; [lra|cbn [bind]].
  assert (PN : (0 < TP + FP)%Q) by lra.
  assert (G1 : (0 < TP / (TP + FP))%Q) by (apply Qlt_shift_div_l; lra).
  assert (G2 : (TP / (TP + FP) < 1)%Q) by (apply Qlt_shift_div_r; lra).
  assert (G3 : (0 < TP / (TP + FP) * (1 - TP / (TP + FP)))%Q) by nra.
  rewrite !py_sqrt_ok by lra. cbn [bind].
  destruct (qdiv_spec 1 (TP / (TP + FP) * (1 - TP / (TP + FP)))) as [[K _]|[K ->]]; [lra|cbn [bind]].
  destruct (qdiv_spec (TP + FP) (TP + FP - (tp + fp))) as [[L _]|[L ->]]; [lra|cbn [bind]].
  rewrite py_sqrt_ok by (apply Qle_shift_div_l; lra). cbn [bind].
  assert (Q1 : Q2R (tp / (tp + fp)) = p) by (unfold p, n; apply Q2R_div; lra).
  assert (Q0 : Q2R (TP / (TP + FP)) = p0) by (unfold p0, N; apply Q2R_div; lra).
  assert (Q2 : Q2R (TP / (TP + FP) * (1 - TP / (TP + FP))) = (p0 * (1 - p0))%R).
  { rewrite Q2R_mult, Q2R_minus, Q0. rewrite RMicromega.Q2R_1. reflexivity. }
  assert (Q3 : Q2R ((TP + FP) / (TP + FP - (tp + fp))) = (N / (N - n))%R).
  { rewrite Q2R_div by lra. rewrite Q2R_minus. reflexivity. }
  rewrite Q1, Q0, Q2, Q3. reflexivity.
Qed.
Lemma binomial_oe_value : forall d tp fp TP FP, describes d tp fp TP FP -> consistent tp fp TP FP ->
  (0 < TP + FP)%Q ->
  binomial_oe1_m d = Ok (sqrt (Q2R tp) * (1 - Q2R TP / Q2R (TP + FP)))%R.
Proof.
  intros d tp fp TP FP (H1 & H2 & H3 & H4) (HC1 & HC2) PN.
  unfold binomial_oe1_m, pget. rewrite H1, H3, H4. cbn [bind].
  rewrite py_sqrt_ok by lra. cbn [bind].
  destruct (qdiv_spec TP (TP + FP)) as [[F _]|[F ->]]; [lra|cbn [bind]]. rewrite Q2R_div by assumption. reflexivity.
Qed.

(** The bound that does hold: without the two normalising factors. *)
Lemma binomial_core : forall n t T f P0, (0 < n)%R -> (0 <= t)%R -> (0 <= f)%R -> (n = t + f)%R -> (t <= T)%R ->
  (0 <= P0 <= 1)%R -> ((t / n - P0) * sqrt n <= sqrt T * (1 - P0))%R.
Proof.
  intros n t T f P0 Hn Ht Hf E HT HP.
  assert (S : (0 < sqrt n)%R) by now apply sqrt_lt_R0.
  assert (SS : (sqrt n * sqrt n = n)%R) by (apply sqrt_sqrt; lra).
  assert (ST : (sqrt t * sqrt t = t)%R) by (apply sqrt_sqrt; lra).
  assert (L1 : (sqrt t <= sqrt T)%R) by (apply sqrt_le_1_alt; lra).
  assert (L2 : (sqrt t <= sqrt n)%R) by (apply sqrt_le_1_alt; lra).
  assert (S0 : (0 <= sqrt t)%R) by apply sqrt_pos.
  assert (D : ((t / n - P0) * sqrt n = t / sqrt n - P0 * sqrt n)%R).
  { rewrite <- SS at 1. field. lra. }
  rewrite D. assert (D2 : (t / sqrt n <= sqrt t)%R).
  { apply Rmult_le_reg_r with (sqrt n); [assumption|]. unfold Rdiv. rewrite Rmult_assoc, Rinv_l by lra. nra. }
  nra.
Qed.

Lemma binomial_bound_up_to_factor : forall d d' tp fp tp' fp' TP FP oe q,
  describes d tp fp TP FP -> describes d' tp' fp' TP FP -> consistent tp fp TP FP ->
  (0 <= tp' <= tp)%Q -> (0 <= fp' <= fp)%Q ->
  (0 < tp' + fp')%Q -> (tp' + fp' < TP + FP)%Q -> (0 < TP)%Q -> (0 < FP)%Q ->
  binomial_oe1_m d = Ok oe -> binomial_test_m d' = Ok q ->
  let p0 := (Q2R TP / Q2R (TP + FP))%R in
  (q <= oe / sqrt (p0 * (1 - p0)) * sqrt (Q2R (TP + FP) / (Q2R (TP + FP) - Q2R (tp' + fp'))))%R.
Proof.
  intros d d' tp fp tp' fp' TP FP oe q Hd Hd' HC H1 H2 Hn HN HT HF Ho Hq p0.
  rewrite (binomial_oe_value _ _ _ _ _ Hd HC) in Ho by lra. injection Ho as <-.
  assert (HC' : consistent tp' fp' TP FP) by (destruct HC; split; lra).
  rewrite (binomial_value _ _ _ _ _ Hd' HC' Hn HN HT HF) in Hq. injection Hq as <-. fold p0.
  assert (B0 : (0 < Q2R TP)%R) by now apply Q2R_lt0.
  assert (B1 : (0 < Q2R FP)%R) by now apply Q2R_lt0.
  assert (B2 : (0 < Q2R (tp' + fp'))%R) by now apply Q2R_lt0.
  assert (B3 : (Q2R (TP + FP) = Q2R TP + Q2R FP)%R) by apply Q2R_plus.
  assert (P : (0 < p0 < 1)%R).
  { unfold p0. rewrite B3. split.
    - apply Rdiv_lt_0_compat; lra.
    - apply Rmult_lt_reg_r with (Q2R TP + Q2R FP)%R; [lra|]. unfold Rdiv. rewrite Rmult_assoc, Rinv_l by lra. lra. }
  assert (K : ((Q2R tp' / Q2R (tp' + fp') - p0) * sqrt (Q2R (tp' + fp')) <= sqrt (Q2R tp) * (1 - p0))%R).
  { apply binomial_core with (f := Q2R fp'); try lra.
    - apply Q2R_le0; lra.
    - apply Q2R_le0; lra.
    - apply Q2R_plus.
    - apply Qle_Rle; lra. }
  apply Rmult_le_compat_r; [apply sqrt_pos|]. unfold Rdiv. apply Rmult_le_compat_r; [|exact K].
  apply Rlt_le, Rinv_0_lt_compat, sqrt_lt_R0. nra.
Qed.
