(** Theorem C75: BinomialTest, its optimistic estimate and Qg in binary64 arithmetic. *)
From Coq Require Import Reals Qreals Lia Lqa Lra Psatz.
From Flocq Require Import Core Plus_error.
From Verif Require Import QualitySpec QualityProofs BinomialModel BinomialProofs FloatModel FloatProofs FloatBinomial FloatBinomialProofs Properties_Quality Properties_Float.
Open Scope string_scope.
Open Scope R_scope.

(** The factor of (p - p0) in the formula of the binomial test. *)
Definition scale (tp fp TP FP : Z) : R :=
  let n := IZR (tp + fp) in let N := IZR (TP + FP) in let p0 := IZR TP / N in
  sqrt n / sqrt (p0 * (1 - p0)) * sqrt (N / (N - n)).
Definition difference (tp fp TP FP : Z) : R := IZR tp / IZR (tp + fp) - IZR TP / IZR (TP + FP).

Lemma uu : u * u <= / 1000000000000000000000000000000.
Proof. pose proof u_pos. pose proof u_small. apply Rle_trans with (/ 9007199254740992 * / 9007199254740992); [apply Rmult_le_compat; Lra.lra|Lra.lra]. Qed.
Lemma fl_sqrt_pos : forall x, 0 <= x -> fl_sqrt x = Ok (b64 (sqrt x)).
Proof. intros x H. unfold fl_sqrt. destruct (Rlt_dec x 0); [Lra.lra|reflexivity]. Qed.
Lemma fl_fdiv_nz : forall a b, b <> 0 -> fl_fdiv a b = Ok (b64 (a / b)).
Proof. intros a b H. unfold fl_fdiv. destruct (Req_EM_T b 0); [contradiction|reflexivity]. Qed.

Lemma binomial_computed : forall tp fp TP FP, (0 <= tp <= TP)%Z -> (0 <= fp <= FP)%Z -> (0 < TP)%Z -> (0 < FP)%Z -> (0 < tp + fp < TP + FP)%Z -> (TP + FP <= 2 ^ 25)%Z ->
  let d' := b64 (b64 (IZR tp / IZR (tp + fp)) - b64 (IZR TP / IZR (TP + FP))) in
  exists r, fl_binomial tp fp TP FP = Ok r /\
    ((d' = 0 /\ r = 0) \/ exists F', r = d' * F' /\ near (IZR (TP + FP) / IZR FP + 20) (scale tp fp TP FP) F').
Proof.
  intros tp fp TP FP H1 H2 PT PF Hn L d'. destruct (computed_sign tp fp TP FP H1 H2 ltac:(lia) L) as (S1 & S2 & S3). fold d' in S1, S2, S3.
  pose proof u_pos as U. pose proof u_small as US. pose proof uu as UU.
  assert (PN : (0 < TP + FP)%Z) by lia. unfold scale. set (n := IZR (tp + fp)). set (N := IZR (TP + FP)). set (p0 := IZR TP / N). set (rho := N / IZR FP).
  assert (N1 : 1 <= N) by (apply IZR_le; lia). assert (N2 : N <= 33554432) by (apply IZR_le; exact L). assert (n1 : 1 <= n) by (apply IZR_le; lia). assert (nN : n + 1 <= N) by (unfold n, N; rewrite <- plus_IZR; apply IZR_le; lia).
  assert (F1 : 1 <= IZR FP) by (apply IZR_le; lia). assert (T1 : 1 <= IZR TP) by (apply IZR_le; lia). assert (EN : N = IZR TP + IZR FP) by (unfold N; apply plus_IZR).
  assert (E0 : 1 - p0 = IZR FP / N) by (unfold p0; rewrite EN; field; Lra.lra).
  assert (IN : / 33554432 <= / N) by (apply Rinv_le_contravar; Lra.lra). assert (IN1 : / N <= 1) by (rewrite <- Rinv_1; apply Rinv_le_contravar; Lra.lra).
  assert (P0a : / N <= p0) by (unfold p0, Rdiv; rewrite <- (Rmult_1_l (/ N)) at 1; apply Rmult_le_compat_r; Lra.lra).
  assert (P0b : / N <= 1 - p0) by (rewrite E0; unfold Rdiv; rewrite <- (Rmult_1_l (/ N)) at 1; apply Rmult_le_compat_r; Lra.lra).
  assert (R1 : rho * (1 - p0) = 1) by (rewrite E0; unfold rho; field; Lra.lra).
  assert (Rho : 1 <= rho <= 33554432).
  { unfold rho. split; [apply Rmult_le_reg_r with (IZR FP); [Lra.lra|]|apply Rmult_le_reg_r with (IZR FP); [Lra.lra|]]; unfold Rdiv; rewrite Rmult_assoc, Rinv_l by Lra.lra; Lra.nra. }
  (* p0 *)
  assert (A1 : near 1 p0 (b64 p0)) by (apply near_round0; Lra.lra).
  (* 1 - p0 *)
  assert (A2 : near (rho - 1) (1 - p0) (1 - b64 p0)).
  { split; [Lra.lra|]. split; [Lra.lra|]. destruct A1 as (_ & _ & E). apply abs_inv in E. apply abs_le. replace ((rho - 1) * u * (1 - p0)) with (u * (rho * (1 - p0)) - u * (1 - p0)) by ring. rewrite R1. Lra.lra. }
  assert (A3 : near (rho + 1) (1 - p0) (b64 (1 - b64 p0))).
  { replace (rho + 1) with (rho - 1 + 2) by ring. apply near_round; [exact A2| |Lra.lra]. destruct (near_pos _ _ _ A2). Lra.lra. }
  assert (A4 : near (rho + 3) (p0 * (1 - p0)) (b64 p0 * b64 (1 - b64 p0))).
  { replace (rho + 3) with (1 + (rho + 1) + 1) by ring. apply near_mul; [exact A1|exact A3|Lra.lra]. }
  assert (V : / 1125899906842624 <= p0 * (1 - p0)).
  { apply Rle_trans with (/ 33554432 * / 33554432); [Lra.lra|]. apply Rmult_le_compat; Lra.lra. }
  assert (V' : p0 * (1 - p0) <= / 4) by (replace (p0 * (1 - p0)) with (/ 4 - (p0 - / 2) * (p0 - / 2)) by field; pose proof (Rle_0_sqr (p0 - / 2)) as Sq; unfold Rsqr in Sq; Lra.lra).
  assert (A5 : near (rho + 5) (p0 * (1 - p0)) (b64 (b64 p0 * b64 (1 - b64 p0)))).
  { replace (rho + 5) with (rho + 3 + 2) by ring. apply near_round; [exact A4| |Lra.lra]. destruct (near_pos _ _ _ A4). Lra.lra. }
  set (v' := b64 (b64 p0 * b64 (1 - b64 p0))) in *. set (v := p0 * (1 - p0)) in *.
  assert (A6 : near (rho + 5) (sqrt v) (sqrt v')) by (apply near_sqrt; exact A5).
  assert (SV : / 33554432 <= sqrt v).
  { rewrite <- (sqrt_square (/ 33554432)) by Lra.lra. apply sqrt_le_1_alt. Lra.lra. }
  assert (SV' : sqrt v <= / 2).
  { rewrite <- (sqrt_square (/ 2)) by Lra.lra. apply sqrt_le_1_alt. Lra.lra. }
  assert (A7 : near (rho + 7) (sqrt v) (b64 (sqrt v'))).
  { replace (rho + 7) with (rho + 5 + 2) by ring. apply near_round; [exact A6| |Lra.lra]. destruct (near_pos _ _ _ A6). Lra.lra. }
  set (s0 := b64 (sqrt v')) in *.
  assert (A8 : near (rho + 8) (/ sqrt v) (/ s0)).
  { replace (rho + 8) with (rho + 7 + 1) by ring. apply near_inv; [exact A7|Lra.lra]. }
  (* sqrt n *)
  assert (Sn1 : 1 <= sqrt n) by (rewrite <- sqrt_1; apply sqrt_le_1_alt; exact n1).
  assert (B1 : near 1 (sqrt n) (b64 (sqrt n))) by (apply near_round0; Lra.lra).
  (* sqrt (N / (N - n)) *)
  set (w := N / (N - n)). assert (W1 : 1 <= w).
  { unfold w. apply Rmult_le_reg_r with (N - n); [Lra.lra|]. unfold Rdiv. rewrite Rmult_assoc, Rinv_l by Lra.lra. Lra.lra. }
  assert (C1 : near 1 w (b64 w)) by (apply near_round0; Lra.lra).
  assert (C2 : near 1 (sqrt w) (sqrt (b64 w))) by (apply near_sqrt; exact C1).
  assert (Sw1 : 1 <= sqrt w) by (rewrite <- sqrt_1; apply sqrt_le_1_alt; exact W1).
  assert (C3 : near 3 (sqrt w) (b64 (sqrt (b64 w)))).
  { replace 3 with (1 + 2) by ring. apply near_round; [exact C2| |Lra.lra]. destruct (near_pos _ _ _ C2). Lra.lra. }
  (* the program *)
  assert (Run : fl_binomial tp fp TP FP = Ok (b64 (b64 (b64 (d' * b64 (sqrt n)) * / s0) * b64 (sqrt (b64 w))))).
  { unfold fl_binomial. rewrite (fl_div_ok tp (tp + fp)) by lia. cbn [bind]. rewrite (fl_div_ok TP (TP + FP)) by lia. cbn [bind]. fold N. fold p0.
    assert (Ei : fl_int (tp + fp) = n) by (unfold fl_int, n; apply b64_int; lia). rewrite Ei. rewrite fl_sqrt_pos by Lra.lra. cbn [bind].
    fold v'. destruct (near_pos _ _ _ A5) as [Pv' _]. rewrite fl_sqrt_pos by Lra.lra. cbn [bind]. fold s0. destruct (near_pos _ _ _ A7) as [Ps _]. rewrite fl_fdiv_nz by Lra.lra. cbn [bind].
    rewrite fl_div_ok by lia. cbn [bind]. destruct (near_pos _ _ _ C1) as [Pw _].
    replace (IZR (TP + FP) / IZR (TP + FP - (tp + fp))) with w by (unfold w, N, n; rewrite <- minus_IZR; reflexivity).
    rewrite fl_sqrt_pos by Lra.lra. cbn [bind]. reflexivity. }
  eexists. split; [exact Run|].
  destruct (Z_dec (tp * FP) (fp * TP)) as [[LT|GT]|EQ].
  3:{ left. pose proof (S3 EQ) as Z. split; [exact Z|]. rewrite Z, !Rmult_0_l, b64_0, !Rmult_0_l, b64_0, Rmult_0_l, b64_0. reflexivity. }
  all: right; assert (D : 5 * u <= Rabs d') by (first [pose proof (S2 ltac:(lia)) as Y; rewrite Rabs_left by Lra.lra; Lra.lra | pose proof (S1 ltac:(lia)) as Y; rewrite Rabs_pos_eq by Lra.lra; Lra.lra]); clear S1 S2 S3 Run.
  all: assert (Small : forall G, / 8 <= G -> u * u <= Rabs (d' * G)) by (intros G HG; rewrite Rabs_mult, (Rabs_pos_eq G) by Lra.lra; apply Rle_trans with (5 * u * / 8); [replace (5 * u * / 8) with (u * (5 * / 8)) by ring; apply Rmult_le_compat_l; Lra.lra|apply Rmult_le_compat; Lra.lra]).
  all: assert (L1 : / 8 <= b64 (sqrt n)) by (destruct (near_pos _ _ _ B1); Lra.lra); destruct (near_scaled _ _ _ d' B1 ltac:(Lra.lra) (Small _ L1)) as (G1 & E1 & K1); rewrite E1.
  all: assert (IS : 2 <= / sqrt v) by (replace 2 with (/ / 2) by Lra.lra; apply Rinv_le_contravar; Lra.lra).
  all: assert (K2 : near (rho + 12) (sqrt n * / sqrt v) (G1 * / s0)) by (replace (rho + 12) with (1 + 2 + (rho + 8) + 1) by ring; apply near_mul; [exact K1|exact A8|Lra.lra]).
  all: replace (d' * G1 * / s0) with (d' * (G1 * / s0)) by ring.
  all: assert (B2 : 2 <= sqrt n * / sqrt v) by (rewrite <- (Rmult_1_l 2); apply Rmult_le_compat; Lra.lra).
  all: assert (L2 : / 8 <= G1 * / s0) by (destruct (near_pos _ _ _ K2); Lra.lra); destruct (near_scaled _ _ _ d' K2 ltac:(Lra.lra) (Small _ L2)) as (G2 & E2 & K3); rewrite E2.
  all: assert (K4 : near (rho + 18) (sqrt n * / sqrt v * sqrt w) (G2 * b64 (sqrt (b64 w)))) by (replace (rho + 18) with (rho + 12 + 2 + 3 + 1) by ring; apply near_mul; [exact K3|exact C3|Lra.lra]).
  all: replace (d' * G2 * b64 (sqrt (b64 w))) with (d' * (G2 * b64 (sqrt (b64 w)))) by ring.
  all: assert (B3 : 2 <= sqrt n * / sqrt v * sqrt w) by (rewrite <- (Rmult_1_r 2); apply Rmult_le_compat; Lra.lra).
  all: assert (L3 : / 8 <= G2 * b64 (sqrt (b64 w))) by (destruct (near_pos _ _ _ K4); Lra.lra); destruct (near_scaled _ _ _ d' K4 ltac:(Lra.lra) (Small _ L3)) as (G3 & E3 & K5); rewrite E3.
  all: exists G3; split; [reflexivity|]; replace (rho + 20) with (rho + 18 + 2) by ring; exact K5.
Qed.
Lemma int_describes : forall tp fp TP FP, describes (int_table tp fp TP FP) (inject_Z tp) (inject_Z fp) (inject_Z TP) (inject_Z FP).
Proof. intros. repeat split. Qed.
Lemma int_consistent : forall tp fp TP FP, (0 <= tp <= TP)%Z -> (0 <= fp <= FP)%Z -> consistent (inject_Z tp) (inject_Z fp) (inject_Z TP) (inject_Z FP).
Proof. intros tp fp TP FP H1 H2. unfold consistent. change 0%Q with (inject_Z 0). rewrite <- !Zle_Qle. lia. Qed.
Lemma fl_zero_den : forall x, x = 0 \/ x = 1 -> fl_sqrt (b64 (x * b64 (1 - x))) = Ok 0.
Proof.
  intros x H. assert (E : b64 (x * b64 (1 - x)) = 0).
  { destruct H as [-> | ->]; [rewrite Rmult_0_l; apply b64_0|]. replace (1 - 1) with 0 by ring. rewrite b64_0, Rmult_0_r. apply b64_0. }
  rewrite E, fl_sqrt_pos by Lra.lra. rewrite sqrt_0, b64_0. reflexivity.
Qed.
(** Outside the region of the formula both the program and the formula raise ZeroDivisionError. *)
Lemma binomial_raises : forall tp fp TP FP, counted tp fp TP FP -> (tp + fp = 0 \/ tp + fp = TP + FP \/ TP = 0 \/ FP = 0)%Z -> fl_binomial tp fp TP FP = Err ZeroDivisionError.
Proof.
  intros tp fp TP FP (H1 & H2 & H3) H. unfold fl_binomial. destruct (Z.eq_dec (tp + fp) 0) as [Z|NZ]; [unfold fl_div; rewrite Z; reflexivity|].
  rewrite (fl_div_ok tp (tp + fp)) by exact NZ. cbn [bind]. rewrite (fl_div_ok TP (TP + FP)) by lia. cbn [bind].
  rewrite (fl_sqrt_pos (fl_int (tp + fp))) by (apply b64_nonneg, IZR_le; lia). cbn [bind].
  destruct H as [H|[H|H]]; [contradiction| |].
  - destruct (prop_err TP (TP + FP) ltac:(lia) ltac:(lia)) as (B & _).
    rewrite fl_sqrt_pos by (apply b64_nonneg, Rmult_le_pos; [Lra.lra|apply b64_nonneg; Lra.lra]). cbn [bind]. unfold fl_fdiv. destruct (Req_EM_T _ 0); [reflexivity|]. cbn [bind].
    unfold fl_div. rewrite H, Z.sub_diag. reflexivity.
  - rewrite fl_zero_den.
    + cbn [bind]. unfold fl_fdiv. destruct (Req_EM_T 0 0); [reflexivity|contradiction].
    + destruct H as [->| ->]; [left|right].
      * unfold Rdiv. rewrite Rmult_0_l. apply b64_0.
      * rewrite Z.add_0_r. rewrite quot_same by lia. apply b64_1.
Qed.

(** The computed value of the binomial test: it raises exactly when the formula does; otherwise it differs from the formula by at most
    (N/FP + 24) * 2^-53 times the factor of (p - p0), and it has the sign of p - p0. *)
Theorem C75_binomial : forall tp fp TP FP, counted tp fp TP FP -> (TP + FP <= 2 ^ 25)%Z ->
  match fl_binomial tp fp TP FP, binomial_test_m (int_table tp fp TP FP) with
  | Ok r, Ok q => q = difference tp fp TP FP * scale tp fp TP FP /\ 0 < scale tp fp TP FP /\
      Rabs (r - q) <= (IZR (TP + FP) / IZR FP + 24) * / IZR (2 ^ 53) * scale tp fp TP FP /\
      (0 < r <-> 0 < q) /\ (r < 0 <-> q < 0) /\ (r = 0 <-> q = 0)
  | Err e, Err e' => e = ZeroDivisionError /\ e' = ZeroDivisionError /\ (tp + fp = 0 \/ tp + fp = TP + FP \/ TP = 0 \/ FP = 0)%Z
  | _, _ => False
  end.
Proof.
  intros tp fp TP FP C L. pose proof C as (H1 & H2 & H3).
  destruct (Z.eq_dec (tp + fp) 0) as [Z1|N1]; [|destruct (Z.eq_dec (tp + fp) (TP + FP)) as [Z2|N2]; [|destruct (Z.eq_dec TP 0) as [Z3|N3]; [|destruct (Z.eq_dec FP 0) as [Z4|N4]]]].
  1-4: rewrite binomial_raises by auto;
       rewrite (C15_binomial_error _ _ _ _ _ (int_describes tp fp TP FP) (int_consistent tp fp TP FP H1 H2)) by
         (rewrite <- !inject_Z_plus; change 0%Q with (inject_Z 0); rewrite !inject_Z_injective; lia); repeat split; lia.
  destruct (binomial_computed tp fp TP FP H1 H2 ltac:(lia) ltac:(lia) ltac:(lia) L) as (r & -> & K).
  assert (Qlt0 : forall z, (0 < z)%Z -> (0 < inject_Z z)%Q) by (intros z Hz; change 0%Q with (inject_Z 0); rewrite <- Zlt_Qlt; exact Hz).
  rewrite (C15_binomial_value _ _ _ _ _ (int_describes tp fp TP FP) (int_consistent tp fp TP FP H1 H2));
    [|rewrite <- inject_Z_plus; apply Qlt0; lia|rewrite <- !inject_Z_plus, <- Zlt_Qlt; lia|apply Qlt0; lia|apply Qlt0; lia].
  rewrite <- !inject_Z_plus, !Q2R_int.
  set (q := (_ * _)%R). assert (Eq : q = difference tp fp TP FP * scale tp fp TP FP) by (unfold q, difference, scale, Rdiv; ring).
  rewrite Eq. clear q Eq. set (d := difference tp fp TP FP). set (F := scale tp fp TP FP) in *. set (rho := IZR (TP + FP) / IZR FP) in *.
  assert (PF : 0 < F).
  { unfold F, scale. assert (A : 0 < IZR (TP + FP)) by (apply IZR_lt; lia). assert (A1 : 0 < IZR TP) by (apply IZR_lt; lia). assert (A2 : 0 < IZR FP) by (apply IZR_lt; lia). assert (A3 : 0 < IZR (tp + fp)) by (apply IZR_lt; lia).
    assert (A4 : 0 < IZR (TP + FP) - IZR (tp + fp)) by (rewrite <- minus_IZR; apply IZR_lt; lia).
    assert (E0 : 1 - IZR TP / IZR (TP + FP) = IZR FP / IZR (TP + FP)) by (rewrite plus_IZR in *; field; Lra.lra). rewrite E0.
    repeat apply Rmult_lt_0_compat; try apply Rinv_0_lt_compat; try apply sqrt_lt_R0; try apply Rdiv_lt_0_compat; auto. apply Rmult_lt_0_compat; apply Rdiv_lt_0_compat; auto. }
  split; [reflexivity|]. split; [exact PF|].
  destruct (computed_sign tp fp TP FP H1 H2 ltac:(lia) L) as (S1 & S2 & S3).
  set (d' := b64 (b64 (IZR tp / IZR (tp + fp)) - b64 (IZR TP / IZR (TP + FP)))) in *.
  destruct (prop_err tp (tp + fp) ltac:(lia) ltac:(lia)) as (B1 & B2). destruct (prop_err TP (TP + FP) ltac:(lia) ltac:(lia)) as (B3 & B4).
  pose proof (quot_01 tp (tp + fp) ltac:(lia) ltac:(lia)) as Q1. pose proof (quot_01 TP (TP + FP) ltac:(lia) ltac:(lia)) as Q2.
  destruct (diff_err _ _ _ _ Q1 Q2 B1 B3 B2 B4) as (_ & D). fold d' in D. change (IZR tp / IZR (tp + fp) - IZR TP / IZR (TP + FP)) with d in D.
  assert (Dd : -1 <= d <= 1) by (unfold d, difference; Lra.lra).
  change (/ IZR (2 ^ 53)) with u. pose proof u_pos as U. pose proof u_small as US.
  assert (Pos : forall x y : Z, (0 < y)%Z -> 0 < IZR y) by (intros _ y Hy; apply IZR_lt; exact Hy).
  assert (Sd : ((fp * TP < tp * FP)%Z -> 0 < d) /\ ((tp * FP < fp * TP)%Z -> d < 0) /\ ((tp * FP = fp * TP)%Z -> d = 0)).
  { unfold d, difference. assert (X : IZR tp / IZR (tp + fp) - IZR TP / IZR (TP + FP) = (IZR (tp * FP) - IZR (fp * TP)) / (IZR (tp + fp) * IZR (TP + FP))).
    { rewrite !mult_IZR, !plus_IZR. assert (0 < IZR tp + IZR fp) by (rewrite <- plus_IZR; apply IZR_lt; lia). assert (0 < IZR TP + IZR FP) by (rewrite <- plus_IZR; apply IZR_lt; lia). field. Lra.lra. }
    rewrite X. assert (Pd : 0 < / (IZR (tp + fp) * IZR (TP + FP))) by (apply Rinv_0_lt_compat, Rmult_lt_0_compat; apply IZR_lt; lia). unfold Rdiv.
    split; [|split]; intro Y; [apply IZR_lt in Y; apply Rmult_lt_0_compat; Lra.lra|apply IZR_lt in Y|apply (f_equal IZR) in Y; rewrite Y; ring].
    assert (0 < (IZR (fp * TP) - IZR (tp * FP)) * / (IZR (tp + fp) * IZR (TP + FP))) by (apply Rmult_lt_0_compat; Lra.lra). Lra.lra. }
  destruct Sd as (T1 & T2 & T3).
  assert (Sign : forall x, (0 < x <-> 0 < x * F) /\ (x < 0 <-> x * F < 0) /\ (x = 0 <-> x * F = 0)).
  { intro x. destruct (Rtotal_order x 0) as [X|[X|X]].
    - assert (x * F < 0) by (assert (0 < (- x) * F) by (apply Rmult_lt_0_compat; Lra.lra); Lra.lra). repeat split; intro; Lra.lra.
    - subst x. rewrite Rmult_0_l. tauto.
    - assert (0 < x * F) by (apply Rmult_lt_0_compat; auto). repeat split; intro; Lra.lra. }
  destruct (Sign d) as (G1 & G2 & G3). clear Sign.
  assert (Rho : 1 <= rho).
  { unfold rho. assert (P : 0 < IZR FP) by (apply IZR_lt; lia). apply Rmult_le_reg_r with (IZR FP); auto. unfold Rdiv. rewrite Rmult_assoc, Rinv_l by Lra.lra. rewrite Rmult_1_l, Rmult_1_r. apply IZR_le; lia. }
  destruct (Z_dec (tp * FP) (fp * TP)) as [[LT|GT]|EQ].
  - pose proof (S2 LT) as Y. pose proof (T2 LT) as X. destruct K as [[K _]|(F' & -> & NF)]; [Lra.lra|]. destruct (near_pos _ _ _ NF) as (PF' & _). pose proof (near_bounds _ _ _ NF) as BF. destruct NF as (_ & _ & EF).
    assert (RN : d' * F' < 0) by (assert (0 < (- d') * F') by (apply Rmult_lt_0_compat; Lra.lra); Lra.lra).
    split; [|split; [|split]; split; intro; Lra.lra].
    replace (d' * F' - d * F) with ((d' - d) * F' + d * (F' - F)) by ring.
    assert (M1 : Rabs ((d' - d) * F') <= 3 * u * F') by (apply prod_bound; [exact D|rewrite Rabs_pos_eq; Lra.lra]).
    assert (M2 : Rabs (d * (F' - F)) <= 1 * ((rho + 20) * u * F)) by (apply prod_bound; [apply abs_le; Lra.lra|exact EF]).
    assert (M3 : 3 * u * F' <= 4 * u * F) by (apply Rle_trans with (3 * u * (F * (1 + / 134217728))); [apply Rmult_le_compat_l; Lra.lra|assert (0 < u * F) by (apply Rmult_lt_0_compat; auto); Lra.lra]).
    apply abs_inv in M1, M2. apply abs_le. Lra.lra.
  - pose proof (S1 ltac:(lia)) as Y. pose proof (T1 ltac:(lia)) as X. destruct K as [[K _]|(F' & -> & NF)]; [Lra.lra|]. destruct (near_pos _ _ _ NF) as (PF' & _). pose proof (near_bounds _ _ _ NF) as BF. destruct NF as (_ & _ & EF).
    assert (RN : 0 < d' * F') by (apply Rmult_lt_0_compat; Lra.lra).
    split; [|split; [|split]; split; intro; Lra.lra].
    replace (d' * F' - d * F) with ((d' - d) * F' + d * (F' - F)) by ring.
    assert (M1 : Rabs ((d' - d) * F') <= 3 * u * F') by (apply prod_bound; [exact D|rewrite Rabs_pos_eq; Lra.lra]).
    assert (M2 : Rabs (d * (F' - F)) <= 1 * ((rho + 20) * u * F)) by (apply prod_bound; [apply abs_le; Lra.lra|exact EF]).
    assert (M3 : 3 * u * F' <= 4 * u * F) by (apply Rle_trans with (3 * u * (F * (1 + / 134217728))); [apply Rmult_le_compat_l; Lra.lra|assert (0 < u * F) by (apply Rmult_lt_0_compat; auto); Lra.lra]).
    apply abs_inv in M1, M2. apply abs_le. Lra.lra.
  - pose proof (S3 EQ) as Y. pose proof (T3 EQ) as X. assert (R0 : r = 0) by (destruct K as [[_ K]|(F' & -> & _)]; [exact K|rewrite Y; ring]). rewrite R0, X, Rmult_0_l.
    split; [|tauto]. rewrite Rminus_0_r, Rabs_R0. apply Rmult_le_pos; [apply Rmult_le_pos|]; Lra.lra.
Qed.
Print Assumptions C75_binomial.
(** Not vacuous: a table with p > p0, and its exact value. *)
Example C75_nonvacuous : counted 2 1 2 2 /\ (exists r, fl_binomial 2 1 2 2 = Ok r /\ 0 < r) /\ difference 2 1 2 2 = / 6 /\ fl_binomial 2 2 2 2 = Err ZeroDivisionError.
Proof.
  assert (C : counted 2 1 2 2) by (unfold counted; lia). split; [exact C|]. split; [|split; [unfold difference; cbn; Lra.lra|apply binomial_raises; [unfold counted; lia|lia]]].
  pose proof (C75_binomial 2 1 2 2 C ltac:(lia)) as T. destruct (fl_binomial 2 1 2 2) as [r|e]; [|destruct (binomial_test_m _); [contradiction|destruct T as (_ & _ & T); lia]].
  exists r. split; [reflexivity|]. destruct (binomial_test_m _) as [q|]; [|contradiction]. destruct T as (-> & P & _ & S & _). apply S. apply Rmult_lt_0_compat; [unfold difference; cbn; Lra.lra|exact P].
Qed.

(** * The optimistic estimate *)
Lemma oe1_value : forall tp TP FP, (0 <= tp <= TP)%Z -> (0 <= FP)%Z -> (0 < TP + FP)%Z ->
  fl_binomial_oe1 tp TP FP = Ok (b64 (b64 (sqrt (fl_int tp)) * b64 (1 - b64 (IZR TP / IZR (TP + FP))))).
Proof.
  intros tp TP FP H1 H2 P. unfold fl_binomial_oe1. rewrite fl_sqrt_pos by (apply b64_nonneg, IZR_le; lia). cbn [bind]. rewrite fl_div_ok by lia. reflexivity.
Qed.
Theorem C75_estimate : forall tp fp TP FP, counted tp fp TP FP ->
  match fl_binomial_oe1 tp TP FP, binomial_oe1_m (int_table tp fp TP FP) with
  | Ok r, Ok q => Rabs (r - q) <= 5 * / IZR (2 ^ 53) * sqrt (IZR tp) /\ 0 <= r
  | Err e, Err e' => e = ZeroDivisionError /\ e' = ZeroDivisionError /\ (TP + FP = 0)%Z
  | _, _ => False
  end.
Proof.
  intros tp fp TP FP (H1 & H2 & H3). destruct (Z.eq_dec (TP + FP) 0) as [Z|N].
  - assert (tp = 0 /\ TP = 0 /\ FP = 0)%Z as (-> & -> & ->) by lia. unfold fl_binomial_oe1. rewrite fl_sqrt_pos by (apply b64_nonneg; Lra.lra). cbn. repeat split.
  - rewrite oe1_value by lia. assert (PQ : (0 < inject_Z TP + inject_Z FP)%Q) by (rewrite <- inject_Z_plus; change 0%Q with (inject_Z 0); rewrite <- Zlt_Qlt; lia).
    rewrite (binomial_oe_value _ _ _ _ _ (int_describes tp fp TP FP) (int_consistent tp fp TP FP H1 H2) PQ).
    rewrite <- ?inject_Z_plus, ?Q2R_int. assert (Ei : fl_int tp = IZR tp) by (apply b64_int; lia). rewrite Ei.
    pose proof u_pos as U. pose proof u_small as US. change (/ IZR (2 ^ 53)) with u.
    destruct (prop_err TP (TP + FP) ltac:(lia) ltac:(lia)) as (B1 & B2). pose proof (quot_01 TP (TP + FP) ltac:(lia) ltac:(lia)) as Q1.
    set (c := IZR TP / IZR (TP + FP)) in *. set (w := b64 (1 - b64 c)).
    assert (W : 0 <= w <= 1) by (unfold w; split; [apply b64_nonneg; Lra.lra|apply b64_le_1; Lra.lra]).
    assert (E1 : Rabs (w - (1 - b64 c)) <= u) by (apply b64_err1, abs_le; Lra.lra).
    destruct (Z.eq_dec tp 0) as [->|NT].
    { rewrite sqrt_0, b64_0, !Rmult_0_l, b64_0, Rmult_0_r, Rminus_0_r, Rabs_R0. Lra.lra. }
    assert (T1 : 1 <= IZR tp) by (apply IZR_le; lia). set (s := sqrt (IZR tp)). assert (S1 : 1 <= s) by (unfold s; rewrite <- sqrt_1; apply sqrt_le_1_alt; exact T1).
    assert (A : near 1 s (b64 s)) by (apply near_round0; [Lra.lra|pose proof uu; Lra.lra]). pose proof (near_bounds _ _ _ A) as BA. destruct A as (_ & _ & A). set (s' := b64 s) in *.
    assert (S1' : 1 <= s') by (unfold s'; rewrite <- b64_1; apply b64_mono; exact S1).
    assert (R0 : 0 <= s' * w) by (apply Rmult_le_pos; Lra.lra).
    split; [|apply b64_nonneg; exact R0].
    assert (E2 : Rabs (b64 (s' * w) - s' * w) <= s' * u).
    { apply b64_err; [exact S1'|]. rewrite Rabs_pos_eq by exact R0. rewrite <- (Rmult_1_r s') at 2. apply Rmult_le_compat_l; Lra.lra. }
    assert (E3 : Rabs (s' * (w - (1 - c))) <= s' * (2 * u)).
    { apply prod_bound; [rewrite Rabs_pos_eq; Lra.lra|]. apply abs_inv in E1, B2. apply abs_le. Lra.lra. }
    assert (E4 : Rabs ((s' - s) * (1 - c)) <= 1 * u * s * 1) by (apply prod_bound; [exact A|apply abs_le; Lra.lra]).
    apply abs_inv in E2, E3, E4. assert (P : 0 < u * s) by (apply Rmult_lt_0_compat; Lra.lra).
    assert (E5 : s' * u <= s * (1 + / 134217728) * u) by (apply Rmult_le_compat_r; Lra.lra).
    apply abs_le. replace (b64 (s' * w) - s * (1 - c)) with ((b64 (s' * w) - s' * w) + s' * (w - (1 - c)) + (s' - s) * (1 - c)) by ring. Lra.lra.
Qed.
Print Assumptions C75_estimate.
(** The computed estimate of a subset is not larger. *)
Theorem C75_estimate_antimonotone : forall tp tp' TP FP oe oe', (0 <= tp' <= tp)%Z -> (tp <= TP)%Z -> (0 <= FP)%Z ->
  fl_binomial_oe1 tp TP FP = Ok oe -> fl_binomial_oe1 tp' TP FP = Ok oe' -> oe' <= oe.
Proof.
  intros tp tp' TP FP oe oe' H1 H2 H3 E E'. destruct (Z.eq_dec (TP + FP) 0) as [Z|N].
  - unfold fl_binomial_oe1, fl_div in E. rewrite Z in E. destruct (fl_sqrt _); discriminate.
  - rewrite oe1_value in E, E' by lia. injection E as <-. injection E' as <-. apply b64_mono. destruct (prop_err TP (TP + FP) ltac:(lia) ltac:(lia)) as (B & _).
    apply Rmult_le_compat_r; [apply b64_nonneg; Lra.lra|]. apply b64_mono, sqrt_le_1_alt, b64_mono, IZR_le. lia.
Qed.
Print Assumptions C75_estimate_antimonotone.
(** Like the exact one (C19), the computed estimate is not a bound. *)
Theorem C75_estimate_refuted : exists oe q, counted 1 0 1 1 /\ fl_binomial_oe1 1 1 1 = Ok oe /\ fl_binomial 1 0 1 1 = Ok q /\ oe < q.
Proof.
  assert (C : counted 1 0 1 1) by (unfold counted; lia). pose proof (C75_binomial 1 0 1 1 C ltac:(lia)) as T. pose proof (C75_estimate 1 0 1 1 C) as T2.
  destruct (fl_binomial 1 0 1 1) as [q|e]; [|destruct (binomial_test_m _); [contradiction|destruct T as (_ & _ & T); lia]].
  destruct (fl_binomial_oe1 1 1 1) as [oe|e] eqn:Eo; [|destruct (binomial_oe1_m _); [contradiction|destruct T2 as (_ & _ & T2); lia]].
  exists oe, q. split; [exact C|]. split; [reflexivity|]. split; [reflexivity|].
  destruct (binomial_test_m _) as [x|]; [|contradiction]. destruct T as (Ex & _ & Er & _).
  assert (D : difference 1 0 1 1 = / 2) by (unfold difference; cbn; Lra.lra).
  assert (SC : scale 1 0 1 1 = 2 * sqrt 2).
  { unfold scale. change (IZR (1 + 0)) with 1. change (IZR (1 + 1)) with 2. rewrite sqrt_1. replace (1 / 2 * (1 - 1 / 2)) with (/ 2 * / 2) by Lra.lra. rewrite sqrt_square by Lra.lra. replace (2 / (2 - 1)) with 2 by Lra.lra. field. }
  rewrite D, SC in *. assert (S2 : 1 <= sqrt 2 <= 2).
  { split; [rewrite <- sqrt_1; apply sqrt_le_1_alt; Lra.lra|]. rewrite <- (sqrt_square 2) at 2 by Lra.lra. apply sqrt_le_1_alt. Lra.lra. }
  rewrite Ex in Er. change (IZR (1 + 1) / IZR 1) with (2 / 1) in Er. change (/ IZR (2 ^ 53)) with u in Er. pose proof u_small as US. pose proof u_pos as U.
  assert (B : (2 / 1 + 24) * u * (2 * sqrt 2) <= / 4).
  { apply Rle_trans with (26 * / 9007199254740992 * 4); [|Lra.lra]. apply Rmult_le_compat; [Lra.lra|Lra.lra| |Lra.lra]. apply Rmult_le_compat; Lra.lra. }
  apply abs_inv in Er. rewrite oe1_value in Eo by lia. injection Eo as <-.
  apply Rle_lt_trans with (/ 2); [|Lra.lra].
  assert (E1 : fl_int 1 = 1) by (apply (b64_int 1); lia). rewrite E1, sqrt_1, b64_1, Rmult_1_l. change (IZR (1 + 1)) with 2. rewrite b64_half. replace (1 - 1 / 2) with (1 / 2) by Lra.lra. rewrite !b64_half. Lra.lra.
Qed.
Print Assumptions C75_estimate_refuted.

(** * Qg *)
(** A number of binary64. *)
Definition is_float (g : R) : Prop := b64 g = g.
Lemma sum_zero : forall fp g, (0 <= fp < 2 ^ 53)%Z -> is_float g -> (b64 (fl_int fp + g) = 0 <-> IZR fp + g = 0).
Proof.
  intros fp g H G. assert (Ei : fl_int fp = IZR fp) by (apply b64_int; lia). rewrite Ei. split; [|intros ->; apply b64_0].
  intro E. destruct (Req_EM_T (IZR fp + g) 0) as [|N]; [auto|exfalso]. revert E. unfold b64.
  apply round_plus_neq_0; [apply FLT.FLT_exp_valid; reflexivity|apply monotone_exp_not_FTZ; [apply FLT.FLT_exp_valid; reflexivity|apply FLT.FLT_exp_monotone]|apply valid_rnd_N| | |exact N].
  - rewrite <- (b64_int fp) by lia. apply Generic_fmt.generic_format_round; [apply FLT.FLT_exp_valid; reflexivity|apply valid_rnd_N].
  - rewrite <- G. apply Generic_fmt.generic_format_round; [apply FLT.FLT_exp_valid; reflexivity|apply valid_rnd_N].
Qed.
(** Qg raises exactly when fp + g is zero; for g between 2^-50 and 2^50 the relative error is at most 5 * 2^-53. *)
Theorem C75_qg : forall tp fp g, (0 <= tp < 2 ^ 53)%Z -> (0 <= fp < 2 ^ 53)%Z -> is_float (Q2R g) ->
  match fl_qg tp fp (Q2R g), compute Qg [("tp", inject_Z tp); ("fp", inject_Z fp); ("g", g)] with
  | Ok r, Ok q => / IZR (2 ^ 50) <= Q2R g <= IZR (2 ^ 50) -> Rabs (r - Q2R q) <= 5 * / IZR (2 ^ 53) * Q2R q
  | Err e, Err e' => e = ZeroDivisionError /\ e' = ZeroDivisionError /\ (inject_Z fp + g == 0)%Q
  | _, _ => False
  end.
Proof.
  intros tp fp g H1 H2 G. pose proof (sum_zero fp (Q2R g) H2 G) as Z. unfold fl_qg, fl_fdiv. cbn [compute]. unfold qg_m.
  cbn. destruct (qdiv_spec (inject_Z tp) (inject_Z fp + g)) as [[E ->]|[E ->]].
  - assert (E' : IZR fp + Q2R g = 0) by (rewrite <- Q2R_int, <- Q2R_plus; rewrite <- RMicromega.Q2R_0; apply Qeq_eqR; exact E).
    destruct (Req_EM_T _ 0) as [_|N]; [auto|]. exfalso. apply N, Z, E'.
  - assert (E' : IZR fp + Q2R g <> 0) by (intro K; apply E, eqR_Qeq; rewrite Q2R_plus, Q2R_int, K, RMicromega.Q2R_0; reflexivity).
    destruct (Req_EM_T _ 0) as [K|_]; [exfalso; apply E', Z, K|]. intro B.
    assert (Ev : Q2R (inject_Z tp / (inject_Z fp + g)) = IZR tp / (IZR fp + Q2R g)) by (rewrite Q2R_div by exact E; rewrite Q2R_plus, !Q2R_int; reflexivity). rewrite Ev.
    change (/ IZR (2 ^ 53)) with u. pose proof u_pos as U. pose proof u_small as US. pose proof uu as UU.
    assert (Ei : fl_int tp = IZR tp) by (apply b64_int; lia). assert (Ei2 : fl_int fp = IZR fp) by (apply b64_int; lia). rewrite Ei, Ei2. set (x := IZR fp + Q2R g) in *.
    assert (F0 : 0 <= IZR fp <= IZR (2 ^ 53)) by (split; apply IZR_le; lia). change (IZR (2 ^ 53)) with 9007199254740992 in F0. change (IZR (2 ^ 50)) with 1125899906842624 in B.
    assert (X : / 1125899906842624 <= x <= 10133099161583616) by (unfold x; Lra.lra).
    destruct (Z.eq_dec tp 0) as [->|NT].
    { unfold Rdiv. rewrite !Rmult_0_l, b64_0, Rminus_0_r, Rabs_R0, Rmult_0_r. Lra.lra. }
    assert (T1 : 1 <= IZR tp) by (apply IZR_le; lia).
    assert (A1 : near 1 x (b64 x)) by (apply near_round0; Lra.lra).
    assert (A2 : near 2 (/ x) (/ b64 x)) by (replace 2 with (1 + 1) by ring; apply near_inv; [exact A1|Lra.lra]).
    assert (A3 : near 3 (IZR tp * / x) (IZR tp * / b64 x)) by (replace 3 with (0 + 2 + 1) by ring; apply near_mul; [apply near_refl; Lra.lra|exact A2|Lra.lra]).
    assert (IX : / 10133099161583616 <= / x) by (apply Rinv_le_contravar; Lra.lra).
    assert (Q1 : / 10133099161583616 <= IZR tp * / x) by (rewrite <- (Rmult_1_l (/ 10133099161583616)); apply Rmult_le_compat; Lra.lra).
    assert (A4 : near 5 (IZR tp * / x) (b64 (IZR tp * / b64 x))).
    { replace 5 with (3 + 2) by ring. apply near_round; [exact A3| |Lra.lra]. destruct (near_pos _ _ _ A3). Lra.lra. }
    destruct A4 as (_ & _ & A4). exact A4.
Qed.
Print Assumptions C75_qg.
(** More true positives or fewer false positives: the computed value is not smaller. *)
Theorem C75_qg_monotone : forall tp fp tp' fp' g r r', (0 <= tp' <= tp)%Z -> (0 <= fp <= fp')%Z -> (fp' < 2 ^ 53)%Z -> is_float g -> 0 < g ->
  fl_qg tp fp g = Ok r -> fl_qg tp' fp' g = Ok r' -> r' <= r.
Proof.
  intros tp fp tp' fp' g r r' H1 H2 H3 G P E E'. unfold fl_qg, fl_fdiv in E, E'. destruct (Req_EM_T _ 0) as [|N]; [discriminate|]. injection E as <-.
  destruct (Req_EM_T _ 0) as [|N'] in E'; [discriminate|]. injection E' as <-.
  assert (Ei : fl_int fp = IZR fp) by (apply b64_int; lia). assert (Ei' : fl_int fp' = IZR fp') by (apply b64_int; lia). rewrite Ei, Ei' in *.
  assert (F : 0 <= IZR fp <= IZR fp') by (split; apply IZR_le; lia).
  assert (P1 : 0 < b64 (IZR fp + g)) by (apply Rlt_le_trans with g; [exact P|]; replace g with (b64 g) at 1 by exact G; apply b64_mono; Lra.lra).
  assert (P2 : b64 (IZR fp + g) <= b64 (IZR fp' + g)) by (apply b64_mono; Lra.lra).
  apply b64_mono. apply Rmult_le_compat; [apply b64_nonneg, IZR_le; lia|left; apply Rinv_0_lt_compat; Lra.lra|apply b64_mono, IZR_le; lia|apply Rinv_le_contravar; Lra.lra].
Qed.
Print Assumptions C75_qg_monotone.
Example C75_qg_nonvacuous : is_float (Q2R (1 # 2)) /\ exists r, fl_qg 3 1 (Q2R (1 # 2)) = Ok r /\ r = 2.
Proof.
  assert (H : Q2R (1 # 2) = 1 / 2) by (unfold Q2R; cbn; Lra.lra). rewrite H. split; [apply b64_half|]. unfold fl_qg, fl_int. rewrite (b64_int 3), (b64_int 1) by lia.
  assert (S : b64 (1 + 1 / 2) = 1 + 1 / 2). { replace (1 + 1 / 2) with (6 / 4) by Lra.lra. apply (b64_quarter 6). lia. } rewrite S, fl_fdiv_nz by Lra.lra.
  eexists. split; [reflexivity|]. replace (3 / (1 + 1 / 2)) with 2 by Lra.lra. apply (b64_int 2). lia.
Qed.

(** With an integer [g] the computed value is the exact one rounded to the nearest binary64 number. *)
Theorem C75_qg_int : forall tp fp g, match fl_qg_int tp fp g, compute Qg [("tp", inject_Z tp); ("fp", inject_Z fp); ("g", inject_Z g)] with
  | Ok r, Ok q => r = b64 (Q2R q)
  | Err e, Err e' => e = ZeroDivisionError /\ e' = ZeroDivisionError /\ (fp + g = 0)%Z
  | _, _ => False
  end.
Proof.
  intros tp fp g. unfold fl_qg_int, fl_div. cbn [compute]. unfold qg_m. cbn. destruct (qdiv_spec (inject_Z tp) (inject_Z fp + inject_Z g)) as [[E ->]|[E ->]].
  - rewrite <- inject_Z_plus in E. change 0%Q with (inject_Z 0) in E. apply -> inject_Z_injective in E. rewrite E. cbn. auto.
  - destruct (fp + g =? 0)%Z eqn:K.
    + exfalso. apply E. rewrite <- inject_Z_plus. apply Z.eqb_eq in K. rewrite K. reflexivity.
    + f_equal. rewrite Q2R_div by exact E. rewrite Q2R_plus, !Q2R_int, <- plus_IZR. reflexivity.
Qed.
Print Assumptions C75_qg_int.
Example C75_qg_int_nonvacuous : fl_qg_int 4 1 1 = Ok 2.
Proof. unfold fl_qg_int, fl_div. cbn. f_equal. replace (4 / 2) with 2 by Lra.lra. apply (b64_int 2). lia. Qed.
