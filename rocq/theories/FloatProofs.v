(** Proofs about the measures in binary64. *)
From Coq Require Import Lia Psatz.
From Flocq Require Import Core Relative.
From Verif Require Import FloatModel.
Open Scope R_scope.

Notation fexp64 := (FLT_exp (-1074) 53).
Definition u : R := / IZR (2 ^ 53).
Lemma u_pos : 0 < u.
Proof. unfold u. apply Rinv_0_lt_compat. apply IZR_lt. reflexivity. Qed.
Lemma u_bpow : u = bpow radix2 (-53).
Proof. reflexivity. Qed.

#[export] Instance prec64 : Prec_gt_0 53. Proof. reflexivity. Qed.
Lemma b64_mono : forall x y, x <= y -> b64 x <= b64 y.
Proof. intros x y H. unfold b64. apply round_le; auto with typeclass_instances. Qed.
Lemma b64_0 : b64 0 = 0.
Proof. unfold b64. apply round_0. auto with typeclass_instances. Qed.
Lemma b64_int : forall z, (Z.abs z < 2 ^ 53)%Z -> b64 (IZR z) = IZR z.
Proof.
  intros z H. unfold b64. apply round_generic; auto with typeclass_instances. apply generic_format_FLT.
  exists (Float radix2 z 0); [unfold F2R; cbn; ring|exact H|cbn; lia].
Qed.
Lemma b64_1 : b64 1 = 1.
Proof. apply (b64_int 1). reflexivity. Qed.
Lemma b64_opp : forall x, b64 (- x) = - b64 x.
Proof. intros x. unfold b64. apply round_NE_opp. Qed.
Lemma b64_nonneg : forall x, 0 <= x -> 0 <= b64 x.
Proof. intros x H. rewrite <- b64_0. apply b64_mono; auto. Qed.
Lemma b64_le_1 : forall x, x <= 1 -> b64 x <= 1.
Proof. intros x H. rewrite <- b64_1. apply b64_mono; auto. Qed.
Lemma b64_ge_m1 : forall x, -1 <= x -> -1 <= b64 x.
Proof. intros x H. replace (-1) with (b64 (-1)) by (replace (-1) with (- (1)) by ring; rewrite b64_opp, b64_1; ring). apply b64_mono; auto. Qed.
Lemma b64_err1 : forall x, Rabs x <= 1 -> Rabs (b64 x - x) <= u.
Proof.
  intros x H. unfold b64. eapply Rle_trans; [apply error_le_half_ulp; auto with typeclass_instances|].
  assert (K : ulp radix2 fexp64 x <= ulp radix2 fexp64 (bpow radix2 0)) by (apply ulp_le; auto with typeclass_instances; rewrite (Rabs_pos_eq (bpow radix2 0)); [exact H|apply bpow_ge_0]).
  rewrite ulp_bpow in K. change (FLT_exp (-1074) 53 (0 + 1)) with (-52)%Z in K.
  replace u with (/ 2 * bpow radix2 (-52)); [|unfold u; cbn; lra]. apply Rmult_le_compat_l; [lra|]. exact K.
Qed.
Lemma b64_err : forall x n, 1 <= n -> Rabs x <= n -> Rabs (b64 x - x) <= n * u.
Proof.
  intros x n H1 Hx. pose proof u_pos as U. destruct (Rle_dec (Rabs x) 1) as [L|L].
  - apply Rle_trans with (1 * u); [rewrite Rmult_1_l; apply b64_err1; auto|apply Rmult_le_compat_r; lra].
  - apply Rle_trans with (u * Rabs x); [|rewrite Rmult_comm; apply Rmult_le_compat_r; lra]. unfold b64.
    assert (K := relative_error_N_FLT radix2 (-1074) 53 prec64 (fun x => negb (Z.even x)) x).
    eapply Rle_trans; [apply K|].
    + apply Rle_trans with 1; [|lra]. apply (bpow_le radix2 _ 0). lia.
    + replace u with (/ 2 * bpow radix2 (- (53) + 1)); [lra|unfold u; cbn; lra].
Qed.

(** * Quotients of counts *)
Lemma quot_01 : forall a b : Z, (0 <= a <= b)%Z -> (0 < b)%Z -> 0 <= IZR a / IZR b <= 1.
Proof.
  intros a b H P. apply IZR_lt in P. destruct H as [H1 H2]. apply IZR_le in H1, H2. split.
  - apply Rmult_le_pos; [lra|]. left. apply Rinv_0_lt_compat. lra.
  - apply Rmult_le_reg_r with (IZR b); [lra|]. unfold Rdiv. rewrite Rmult_assoc, Rinv_l by lra. lra.
Qed.
Lemma fl_div_ok : forall a b, (b <> 0)%Z -> fl_div a b = Ok (b64 (IZR a / IZR b)).
Proof. intros a b H. unfold fl_div. replace (b =? 0)%Z with false by (symmetry; apply Z.eqb_neq; auto). reflexivity. Qed.
Lemma fl_div_inv : forall a b r, fl_div a b = Ok r -> (b <> 0)%Z /\ r = b64 (IZR a / IZR b).
Proof. intros a b r H. unfold fl_div in H. destruct (b =? 0)%Z eqn:E; [discriminate|]. injection H as <-. split; auto. apply Z.eqb_neq; auto. Qed.
Lemma abs_le : forall x y, - y <= x <= y -> Rabs x <= y.
Proof. intros x y H. apply Rabs_le. exact H. Qed.
Lemma abs_inv : forall x y, Rabs x <= y -> - y <= x <= y.
Proof. intros x y H. unfold Rabs in H. destruct (Rcase_abs x); lra. Qed.
(** A correctly rounded proportion. *)
Lemma prop_err : forall a b : Z, (0 <= a <= b)%Z -> (0 < b)%Z -> 0 <= b64 (IZR a / IZR b) <= 1 /\ Rabs (b64 (IZR a / IZR b) - IZR a / IZR b) <= u.
Proof.
  intros a b H P. destruct (quot_01 a b H P) as [Q1 Q2]. split; [split; [apply b64_nonneg; auto|apply b64_le_1; auto]|]. apply b64_err1, abs_le. lra.
Qed.
(** The difference of two of them. *)
Lemma diff_err : forall x y x' y', 0 <= x <= 1 -> 0 <= y <= 1 -> 0 <= x' <= 1 -> 0 <= y' <= 1 -> Rabs (x' - x) <= u -> Rabs (y' - y) <= u ->
  -1 <= b64 (x' - y') <= 1 /\ Rabs (b64 (x' - y') - (x - y)) <= 3 * u.
Proof.
  intros x y x' y' Hx Hy Hx' Hy' Ex Ey. split; [split; [apply b64_ge_m1; lra|apply b64_le_1; lra]|].
  assert (E : Rabs (b64 (x' - y') - (x' - y')) <= u) by (apply b64_err1, abs_le; lra). apply abs_inv in E, Ex, Ey. apply abs_le. lra.
Qed.
Lemma prod_bound : forall a b A B, Rabs a <= A -> Rabs b <= B -> Rabs (a * b) <= A * B.
Proof. intros a b A B Ha Hb. rewrite Rabs_mult. apply Rmult_le_compat; auto using Rabs_pos. Qed.
(** The product of a proportion and a difference. *)
Lemma prod_err : forall a d a' d' k, 0 <= a <= 1 -> -1 <= d <= 1 -> 0 <= a' <= 1 -> -1 <= d' <= 1 -> Rabs (a' - a) <= u -> Rabs (d' - d) <= k * u -> 
  -1 <= b64 (a' * d') <= 1 /\ Rabs (b64 (a' * d') - a * d) <= (k + 2) * u.
Proof.
  intros a d a' d' k Ha Hd Ha' Hd' Ea Ed.
  assert (K : -1 <= a' * d' <= 1). { apply abs_inv. replace 1 with (1 * 1) by ring. apply prod_bound; apply abs_le; lra. }
  split; [split; [apply b64_ge_m1; lra|apply b64_le_1; lra]|].
  assert (E : Rabs (b64 (a' * d') - a' * d') <= u) by (apply b64_err1, abs_le; lra).
  assert (P1 : Rabs (a' * (d' - d)) <= 1 * (k * u)) by (apply prod_bound; [apply abs_le; lra|auto]).
  assert (P2 : Rabs ((a' - a) * d) <= u * 1) by (apply prod_bound; [auto|apply abs_le; lra]).
  apply abs_inv in E, P1, P2. apply abs_le. replace (b64 (a' * d') - a * d) with ((b64 (a' * d') - a' * d') + a' * (d' - d) + (a' - a) * d) by ring. lra.
Qed.
Lemma scale_err : forall n d d' k, 1 <= n -> -1 <= d <= 1 -> -1 <= d' <= 1 -> Rabs (d' - d) <= k * u -> Rabs (b64 (n * d') - n * d) <= (k + 1) * n * u.
Proof.
  intros n d d' k Hn Hd Hd' E.
  assert (K : Rabs (n * d') <= n). { replace n with (n * 1) at 2 by ring. apply prod_bound; apply abs_le; lra. }
  assert (E1 := b64_err (n * d') n Hn K). assert (P : Rabs (n * (d' - d)) <= n * (k * u)) by (apply prod_bound; [apply abs_le; lra|auto]).
  apply abs_inv in E1, P. apply abs_le. replace (b64 (n * d') - n * d) with ((b64 (n * d') - n * d') + n * (d' - d)) by ring. lra.
Qed.
(** * Exact ranges of the products *)
Lemma b64_scaled : forall z e, (Z.abs z < 2 ^ 53)%Z -> (-1074 <= e)%Z -> b64 (IZR z * bpow radix2 e) = IZR z * bpow radix2 e.
Proof.
  intros z e H He. unfold b64. apply round_generic; auto with typeclass_instances. apply generic_format_FLT. exists (Float radix2 z e); [reflexivity|exact H|exact He].
Qed.
Lemma b64_half : b64 (1 / 2) = 1 / 2.
Proof. replace (1 / 2) with (IZR 1 * bpow radix2 (-1)) by (cbn; lra). apply b64_scaled; [reflexivity|lia]. Qed.
Lemma b64_quarter : forall z, (Z.abs z < 2 ^ 53)%Z -> b64 (IZR z / 4) = IZR z / 4.
Proof. intros z H. replace (IZR z / 4) with (IZR z * bpow radix2 (-2)) by (cbn; lra). apply b64_scaled; [exact H|lia]. Qed.
Lemma prod_err0 : forall a d a' d' k, -1 <= d <= 1 -> 0 <= a' <= 1 -> Rabs (a' - a) <= u -> Rabs (d' - d) <= k * u -> Rabs (a' * d' - a * d) <= (k + 1) * u.
Proof.
  intros a d a' d' k Hd Ha' Ea Ed.
  assert (P1 : Rabs (a' * (d' - d)) <= 1 * (k * u)) by (apply prod_bound; [apply abs_le; lra|auto]).
  assert (P2 : Rabs ((a' - a) * d) <= u * 1) by (apply prod_bound; [auto|apply abs_le; lra]).
  apply abs_inv in P1, P2. apply abs_le. replace (a' * d' - a * d) with (a' * (d' - d) + (a' - a) * d) by ring. lra.
Qed.
(** The numerator of WRAcc: at most a quarter of the square of the number of rows, with equality in two cases only. *)
Lemma numerator : forall tp fp TP FP, (0 <= tp <= TP)%Z -> (0 <= fp <= FP)%Z -> (0 < TP + FP)%Z ->
  let D := (tp * FP - fp * TP)%Z in
  (TP = FP /\ tp = TP /\ fp = 0)%Z \/ (TP = FP /\ tp = 0 /\ fp = FP)%Z \/ (4 * Z.abs D <= (TP + FP) * (TP + FP) - 1)%Z.
Proof.
  intros tp fp TP FP H1 H2 P D.
  assert (B : (Z.abs D <= TP * FP)%Z) by (unfold D; nia). assert (SQ : ((TP + FP) * (TP + FP) = 4 * (TP * FP) + (TP - FP) * (TP - FP))%Z) by ring.
  destruct (Z.eq_dec TP FP) as [E|E]; [|right; right; assert ((TP - FP) * (TP - FP) >= 1)%Z by nia; lia].
  destruct (Z.eq_dec (Z.abs D) (TP * FP)) as [K|K]; [|right; right; lia]. subst FP. unfold D in K.
  replace (tp * TP - fp * TP)%Z with ((tp - fp) * TP)%Z in K by ring. rewrite Z.abs_mul, (Z.abs_eq TP) in K by lia. apply Z.mul_reg_r in K; [|lia]. destruct (Z.abs_eq_cases (tp - fp) TP); [lia| |]; [left|right; left]; lia.
Qed.
Lemma exact_difference : forall tp fp TP FP, (0 < tp + fp)%Z -> (0 < TP + FP)%Z ->
  IZR (tp + fp) * (IZR tp / IZR (tp + fp) - IZR TP / IZR (TP + FP)) = IZR (tp * FP - fp * TP) / IZR (TP + FP).
Proof.
  intros tp fp TP FP H1 H2. rewrite minus_IZR, !mult_IZR, !plus_IZR in *. assert (K1 : IZR tp + IZR fp <> 0) by (rewrite <- plus_IZR; apply not_0_IZR; lia). assert (K2 : IZR TP + IZR FP <> 0) by (rewrite <- plus_IZR; apply not_0_IZR; lia).
  field. split; auto.
Qed.
Lemma small_gap : forall N, (0 < N <= 2 ^ 24)%Z -> 12 * u * IZR N <= / IZR N.
Proof.
  intros N [P H]. assert (P' : 0 < IZR N) by (apply IZR_lt; auto). apply Rmult_le_reg_r with (IZR N); auto. rewrite Rinv_l by lra.
  assert (K : IZR (N * N) <= IZR (2 ^ 48)) by (apply IZR_le; nia). rewrite mult_IZR in K.
  replace (12 * u * IZR N * IZR N) with (12 * u * (IZR N * IZR N)) by ring. apply Rle_trans with (12 * u * IZR (2 ^ 48)); [apply Rmult_le_compat_l; [pose proof u_pos; lra|exact K]|]. unfold u. change (2 ^ 53)%Z with 9007199254740992%Z. change (2 ^ 48)%Z with 281474976710656%Z. lra.
Qed.
Lemma b64_pos : forall x, u * u <= x -> 0 < b64 x.
Proof.
  intros x H. apply Rlt_le_trans with (u * u); [pose proof u_pos; apply Rmult_lt_0_compat; auto|]. assert (E := b64_scaled 1 (-106) eq_refl ltac:(lia)). rewrite Rmult_1_l in E.
  replace (bpow radix2 (-106)) with (u * u) in E by (rewrite u_bpow, <- bpow_plus; reflexivity). rewrite <- E. apply b64_mono. exact H.
Qed.
Lemma b64_neg : forall x, x <= - (u * u) -> b64 x < 0.
Proof. intros x H. assert (K := b64_pos (- x) ltac:(lra)). rewrite b64_opp in K. lra. Qed.
(** The nearest number, given. *)
Lemma b64_is : forall x m e, (-1074 <= e)%Z -> IZR (2 ^ 52) * bpow radix2 e <= x < IZR (2 ^ 53) * bpow radix2 e -> Rabs (x - IZR m * bpow radix2 e) < / 2 * bpow radix2 e -> b64 x = IZR m * bpow radix2 e.
Proof.
  intros x m e He Hx Hd. assert (P : 0 < bpow radix2 e) by apply bpow_gt_0.
  assert (CE : cexp radix2 (FLT_exp (-1074) 53) x = e).
  { unfold cexp. rewrite (mag_unique_pos radix2 x (53 + e)); [unfold FLT_exp; lia|].
    change (IZR (2 ^ 52)) with (bpow radix2 52) in Hx. change (IZR (2 ^ 53)) with (bpow radix2 53) in Hx. rewrite <- !bpow_plus in Hx. replace (53 + e - 1)%Z with (52 + e)%Z by lia. exact Hx. }
  unfold b64, round, scaled_mantissa. rewrite CE. unfold F2R. cbn [Fnum Fexp]. f_equal. f_equal. apply Znearest_imp.
  rewrite bpow_opp. replace (x * / bpow radix2 e - IZR m) with ((x - IZR m * bpow radix2 e) * / bpow radix2 e) by (field; lra). rewrite Rabs_mult, (Rabs_pos_eq (/ bpow radix2 e)) by (left; apply Rinv_0_lt_compat; auto).
  apply Rmult_lt_reg_r with (bpow radix2 e); auto. rewrite Rmult_assoc, Rinv_l, Rmult_1_r by lra. exact Hd.
Qed.
Lemma b64_two_thirds : b64 (2 / 3) = 6004799503160661 / 9007199254740992.
Proof.
  rewrite (b64_is (2 / 3) 6004799503160661 (-53)); [reflexivity|lia| |].
  - change (bpow radix2 (-53)) with (/ 9007199254740992). change (2 ^ 52)%Z with 4503599627370496%Z. change (2 ^ 53)%Z with 9007199254740992%Z. lra.
  - change (bpow radix2 (-53)) with (/ 9007199254740992). apply Rabs_def1; lra.
Qed.
