(** Theorems C68-C69: the quality measures in binary64 arithmetic. *)
From Coq Require Import Reals Qreals Lia Lqa Lra Psatz.
From Verif Require Import QualitySpec QualityProofs FloatModel FloatProofs.
Open Scope string_scope.
Open Scope R_scope.

(** A contingency table of counts, with fewer than 2^53 rows. *)
Definition counted (tp fp TP FP : Z) : Prop := (0 <= tp <= TP)%Z /\ (0 <= fp <= FP)%Z /\ (TP + FP < 2 ^ 53)%Z.
Definition int_table (tp fp TP FP : Z) : params := [("tp", inject_Z tp); ("fp", inject_Z fp); ("TP", inject_Z TP); ("FP", inject_Z FP)].

Lemma Q2R_int : forall z, Q2R (inject_Z z) = IZR z.
Proof. intros z. unfold Q2R, inject_Z. cbn. lra. Qed.
Lemma qdiv_real : forall x y a b, Q2R x = IZR a -> Q2R y = IZR b ->
  (b = 0%Z /\ fl_div a b = Err ZeroDivisionError /\ qdiv x y = Err ZeroDivisionError) \/
  (b <> 0%Z /\ fl_div a b = Ok (b64 (IZR a / IZR b)) /\ exists q, qdiv x y = Ok q /\ Q2R q = IZR a / IZR b).
Proof.
  intros x y a b Hx Hy. destruct (Z.eq_dec b 0) as [->|N].
  - left. split; auto. split; auto. unfold qdiv. replace (Qeq_bool y 0) with true; [reflexivity|]. symmetry. apply Qeq_bool_iff. apply eqR_Qeq. rewrite Hy. symmetry. apply RMicromega.Q2R_0.
  - right. split; auto. split; [apply fl_div_ok; auto|]. unfold qdiv. destruct (Qeq_bool y 0) eqn:E.
    + exfalso. apply Qeq_bool_iff in E. apply Qeq_eqR in E. rewrite Hy, RMicromega.Q2R_0 in E. apply eq_IZR in E. auto.
    + exists (x / y)%Q. split; auto. rewrite Q2R_div, Hx, Hy; auto. intros K. apply Qeq_bool_iff in K. congruence.
Qed.
Lemma lookups : forall tp fp TP FP, let d := int_table tp fp TP FP in
  pget SubgroupParameterNotFoundError d "tp" = Ok (inject_Z tp) /\ pget SubgroupParameterNotFoundError d "fp" = Ok (inject_Z fp) /\
  pget SubgroupParameterNotFoundError d "TP" = Ok (inject_Z TP) /\ pget SubgroupParameterNotFoundError d "FP" = Ok (inject_Z FP).
Proof. intros. repeat split. Qed.
Lemma Q2R_2 : Q2R 2 = 2.
Proof. change 2%Q with (inject_Z 2). apply Q2R_int. Qed.
Ltac cast := repeat first [rewrite Q2R_plus|rewrite Q2R_minus|rewrite Q2R_mult|rewrite Q2R_int|rewrite plus_IZR|rewrite minus_IZR|rewrite mult_IZR|rewrite Q2R_2]; try reflexivity.
Ltac dv := match goal with |- context [fl_div ?a ?b] => match goal with |- context [qdiv ?x ?y] => let N := fresh "N" in let q := fresh "q" in let V := fresh "V" in
  destruct (qdiv_real x y a b) as [(N & -> & ->)|(N & -> & q & -> & V)]; [cast; fail|cast; fail|cbn [bind]; try reflexivity|cbn [bind]] end end.

(** * C68: how far the computed value is from the exact one *)
(** The unit: 2^-53 for the measures with values in [-1, 1], times the number of rows of the subgroup for the others. *)
Definition unit_of (m : measure) (n : Z) : R :=
  match m with
  | PiatetskyShapiro | PSOptimisticEstimate1 | PSOptimisticEstimate2 | WRAccOptimisticEstimate1 => IZR n / IZR (2 ^ 53)
  | _ => 1 / IZR (2 ^ 53)
  end.
Lemma unit_u : forall m n, unit_of m n = (match m with PiatetskyShapiro | PSOptimisticEstimate1 | PSOptimisticEstimate2 | WRAccOptimisticEstimate1 => IZR n | _ => 1 end) * u.
Proof. intros m n. destruct m; unfold unit_of, u, Rdiv; reflexivity. Qed.
Theorem C68_error : forall m tp fp TP FP, m <> Qg -> counted tp fp TP FP ->
  match fl_measure m tp fp TP FP, compute m (int_table tp fp TP FP) with
  | Ok r, Ok q => Rabs (r - Q2R q) <= 5 * unit_of m (tp + fp)
  | Err e, Err e' => e = e'
  | _, _ => False
  end.
Proof.
  intros m tp fp TP FP Hm (H1 & H2 & H3). destruct (lookups tp fp TP FP) as (L1 & L2 & L3 & L4). pose proof u_pos as U. rewrite unit_u.
  assert (PR : forall a b : Z, (0 <= a <= b)%Z -> b <> 0%Z -> 0 <= IZR a / IZR b <= 1 /\ 0 <= b64 (IZR a / IZR b) <= 1 /\ Rabs (b64 (IZR a / IZR b) - IZR a / IZR b) <= u).
  { intros a b Ha Hb. assert (Pb : (0 < b)%Z) by lia. split; [apply quot_01; auto|apply prop_err; auto]. }
  assert (ONE : forall c c' : R, 0 <= c <= 1 -> 0 <= c' <= 1 -> Rabs (c' - c) <= u -> -1 <= b64 (1 - c') <= 1 /\ Rabs (b64 (1 - c') - (1 - c)) <= 3 * u).
  { intros c c' Hc Hc' E. apply diff_err; try lra; auto. replace (1 - 1) with 0 by ring. rewrite Rabs_R0. lra. }
  destruct m; try congruence; cbn [compute fl_measure]; unfold coverage_m, support_m, ppv_m, npv_m, sensitivity_m, specificity_m, f1_m, irr_m, youden_m, wracc_m, absolute_wracc_m, ps_m, ps_oe1_m, ps_oe2_m, wracc_oe1_m, wracc_m; rewrite ?L1, ?L2, ?L3, ?L4; cbn [bind].
  all: repeat dv.
  all: try (match goal with V : Q2R ?q = _ |- Rabs (_ - Q2R ?q) <= _ => rewrite V end; match goal with |- Rabs (b64 (IZR ?a / IZR ?b) - _) <= _ => destruct (PR a b) as (_ & _ & K); [lia|auto|lra] end).
  - (* IRR *)
    destruct (PR tp (tp + fp)%Z) as (A1 & A2 & A3); [lia|auto|]. destruct (PR (FP - fp)%Z FP) as (B1 & B2 & B3); [lia|auto|]. rewrite Q2R_plus, Q2R_minus, RMicromega.Q2R_1, V, V0.
    set (a := IZR tp / IZR (tp + fp)) in *. set (b := IZR (FP - fp) / IZR FP) in *.
    assert (E1 : Rabs (b64 (b64 a - 1) - (b64 a - 1)) <= u) by (apply b64_err1, abs_le; lra).
    assert (R1 : -1 <= b64 (b64 a - 1) <= 0) by (split; [apply b64_ge_m1; lra|rewrite <- b64_0; apply b64_mono; lra]).
    assert (E2 := b64_err1 (b64 (b64 a - 1) + b64 b) ltac:(apply abs_le; lra)). apply abs_inv in A3, B3, E1, E2. apply abs_le. lra.
  - (* Youden *)
    destruct (PR tp TP) as (A1 & A2 & A3); [lia|auto|]. destruct (PR (FP - fp)%Z FP) as (B1 & B2 & B3); [lia|auto|]. rewrite Q2R_minus, Q2R_plus, RMicromega.Q2R_1, V, V0.
    set (a := IZR tp / IZR TP) in *. set (b := IZR (FP - fp) / IZR FP) in *.
    assert (E1 : Rabs (b64 (b64 a + b64 b) - (b64 a + b64 b)) <= 2 * u) by (apply b64_err; [lra|apply abs_le; lra]).
    assert (R1 : 0 <= b64 (b64 a + b64 b) <= 2) by (split; [apply b64_nonneg; lra|rewrite <- (b64_int 2) by reflexivity; apply b64_mono; lra]).
    assert (E2 := b64_err1 (b64 (b64 a + b64 b) - 1) ltac:(apply abs_le; lra)). apply abs_inv in A3, B3, E1, E2. apply abs_le. lra.
  - (* WRAcc *)
    destruct (PR (tp + fp)%Z (TP + FP)%Z) as (A1 & A2 & A3); [lia|auto|]. destruct (PR tp (tp + fp)%Z) as (B1 & B2 & B3); [lia|auto|]. destruct (PR TP (TP + FP)%Z) as (C1 & C2 & C3); [lia|auto|].
    rewrite Q2R_mult, Q2R_minus, V, V0, V1. destruct (diff_err _ _ _ _ B1 C1 B2 C2 B3 C3) as [D1 D2].
    destruct (prod_err _ _ _ _ 3 A1 ltac:(split; [instantiate (1 := IZR tp / IZR (tp + fp) - IZR TP / IZR (TP + FP))|]; lra) A2 D1 A3 D2) as [_ E]. lra.
  - (* AbsoluteWRAcc *)
    destruct (PR (tp + fp)%Z (TP + FP)%Z) as (A1 & A2 & A3); [lia|auto|]. destruct (PR tp (tp + fp)%Z) as (B1 & B2 & B3); [lia|auto|]. destruct (PR TP (TP + FP)%Z) as (C1 & C2 & C3); [lia|auto|].
    destruct (diff_err _ _ _ _ B1 C1 B2 C2 B3 C3) as [D1 D2].
    destruct (prod_err _ _ _ _ 3 A1 ltac:(split; [instantiate (1 := IZR tp / IZR (tp + fp) - IZR TP / IZR (TP + FP))|]; lra) A2 D1 A3 D2) as [_ E].
    assert (QA : Q2R (Qabs (q * (q0 - q1))) = Rabs (Q2R (q * (q0 - q1)))).
    { apply Qabs_case; intros K; apply Qle_Rle in K; rewrite RMicromega.Q2R_0 in K; [rewrite Rabs_pos_eq; auto|rewrite Rabs_left1, Q2R_opp; auto]. }
    rewrite QA, Q2R_mult, Q2R_minus, V, V0, V1. eapply Rle_trans; [apply Rabs_triang_inv2|]. lra.
  - (* PiatetskyShapiro *)
    destruct (PR tp (tp + fp)%Z) as (B1 & B2 & B3); [lia|auto|]. destruct (PR TP (TP + FP)%Z) as (C1 & C2 & C3); [lia|auto|].
    rewrite Q2R_mult, Q2R_plus, !Q2R_int, Q2R_minus, V, V0, <- plus_IZR. unfold fl_int. rewrite b64_int by lia. destruct (diff_err _ _ _ _ B1 C1 B2 C2 B3 C3) as [D1 D2].
    assert (N1 : 1 <= IZR (tp + fp)) by (apply IZR_le; lia).
    assert (E := scale_err _ (IZR tp / IZR (tp + fp) - IZR TP / IZR (TP + FP)) _ 3 N1 ltac:(lra) D1 D2). assert (P : 0 < IZR (tp + fp) * u) by (apply Rmult_lt_0_compat; lra). lra.
  - (* PSOptimisticEstimate1 *)
    destruct (PR TP (TP + FP)%Z) as (C1 & C2 & C3); [lia|auto|]. rewrite Q2R_mult, Q2R_plus, !Q2R_int, Q2R_minus, RMicromega.Q2R_1, V, <- plus_IZR. unfold fl_int. rewrite b64_int by lia. destruct (ONE _ _ C1 C2 C3) as [D1 D2].
    destruct (Z.eq_dec (tp + fp) 0) as [Z0|Z0]; [rewrite Z0, !Rmult_0_l, b64_0; replace (0 - 0) with 0 by ring; rewrite Rabs_R0; lra|].
    assert (N1 : 1 <= IZR (tp + fp)) by (apply IZR_le; lia).
    assert (E := scale_err _ (1 - IZR TP / IZR (TP + FP)) _ 3 N1 ltac:(lra) D1 D2). assert (P : 0 < IZR (tp + fp) * u) by (apply Rmult_lt_0_compat; lra). lra.
  - (* PSOptimisticEstimate2 *)
    destruct (PR TP (TP + FP)%Z) as (C1 & C2 & C3); [lia|auto|]. rewrite Q2R_mult, !Q2R_int, Q2R_minus, RMicromega.Q2R_1, V. unfold fl_int. rewrite b64_int by lia. destruct (ONE _ _ C1 C2 C3) as [D1 D2].
    assert (NN : IZR tp <= IZR (tp + fp)) by (apply IZR_le; lia). assert (T0 : 0 <= IZR tp) by (apply IZR_le; lia). assert (P2 : IZR tp * u <= IZR (tp + fp) * u) by (apply Rmult_le_compat_r; lra).
    destruct (Z.eq_dec tp 0) as [Z0|Z0]; [rewrite Z0, !Rmult_0_l, b64_0; replace (0 - 0) with 0 by ring; rewrite Rabs_R0; rewrite Z0 in P2; lra|].
    assert (N1 : 1 <= IZR tp) by (apply IZR_le; lia).
    assert (E := scale_err _ (1 - IZR TP / IZR (TP + FP)) _ 3 N1 ltac:(lra) D1 D2). assert (P : 0 < IZR tp * u) by (apply Rmult_lt_0_compat; lra). lra.
  - (* WRAccOptimisticEstimate1 *)
    destruct (PR TP (TP + FP)%Z) as (C1 & C2 & C3); [lia|auto|]. rewrite Q2R_mult, Q2R_minus, RMicromega.Q2R_1, V, V0. destruct (ONE _ _ C1 C2 C3) as [D1 D2].
    assert (N1 : 1 <= IZR (tp + fp)) by (apply IZR_le; lia). set (n := IZR (tp + fp)) in *. set (a := IZR (tp * tp) / n) in *. set (d := 1 - IZR TP / IZR (TP + FP)) in *. set (d' := b64 (1 - b64 (IZR TP / IZR (TP + FP)))) in *.
    assert (A1 : 0 <= a <= n).
    { unfold a, n. split; [apply Rmult_le_pos; [apply IZR_le; nia|left; apply Rinv_0_lt_compat; fold n; lra]|]. apply Rmult_le_reg_r with (IZR (tp + fp)); [fold n; lra|]. unfold Rdiv. rewrite Rmult_assoc, Rinv_l by (fold n; lra). rewrite Rmult_1_r, <- mult_IZR. apply IZR_le. nia. }
    assert (A2 : 0 <= b64 a <= n) by (split; [apply b64_nonneg; lra|unfold n; rewrite <- (b64_int (tp + fp)) by lia; apply b64_mono; fold n; lra]).
    assert (A3 := b64_err a n N1 ltac:(apply abs_le; lra)).
    assert (K : Rabs (b64 a * d') <= n * 1) by (apply prod_bound; apply abs_le; lra). assert (E := b64_err (b64 a * d') n N1 ltac:(lra)).
    assert (P1 : Rabs (b64 a * (d' - d)) <= n * (2 * u)).
    { apply prod_bound; [apply abs_le; lra|]. assert (E1 : Rabs (d' - (1 - b64 (IZR TP / IZR (TP + FP)))) <= u) by (apply b64_err1, abs_le; lra). apply abs_inv in C3, E1. apply abs_le. unfold d. lra. }
    assert (P2 : Rabs ((b64 a - a) * d) <= (n * u) * 1) by (apply prod_bound; [auto|apply abs_le; unfold d; lra]).
    assert (P : 0 < n * u) by (apply Rmult_lt_0_compat; lra). apply abs_inv in E, P1, P2. apply abs_le. replace (b64 (b64 a * d') - a * d) with ((b64 (b64 a * d') - b64 a * d') + b64 a * (d' - d) + (b64 a - a) * d) by ring. lra.
Qed.
(** * C68: the documented ranges hold for the computed values *)
(** The largest number of rows for which the range of the measure is claimed: 2^24 where the bound is attained by cancelling differences. *)
Definition range_limit (m : measure) : Z := match m with WRAcc | AbsoluteWRAcc | PiatetskyShapiro => 2 ^ 24 | _ => 2 ^ 53 - 1 end.
Lemma quot_same : forall z : Z, z <> 0%Z -> IZR z / IZR z = 1.
Proof. intros z H. unfold Rdiv. apply Rinv_r. apply not_0_IZR; auto. Qed.
Lemma quot_half : forall z : Z, z <> 0%Z -> IZR z / IZR (z + z) = 1 / 2.
Proof. intros z H. rewrite plus_IZR. apply not_0_IZR in H. field. lra. Qed.
Lemma gap : forall N, (0 < N <= 2 ^ 24)%Z -> 16 * u <= / (IZR N * IZR N).
Proof.
  intros N [P H]. assert (P' : 0 < IZR N * IZR N) by (apply Rmult_lt_0_compat; apply IZR_lt; auto). apply Rmult_le_reg_r with (IZR N * IZR N); auto. rewrite Rinv_l by lra.
  assert (K : IZR (N * N) <= IZR (2 ^ 48)) by (apply IZR_le; nia). rewrite mult_IZR in K.
  apply Rle_trans with (16 * u * IZR (2 ^ 48)); [apply Rmult_le_compat_l; [pose proof u_pos; lra|exact K]|]. unfold u. change (2 ^ 53)%Z with 9007199254740992%Z. change (2 ^ 48)%Z with 281474976710656%Z. lra.
Qed.
(** The three computed factors of WRAcc. *)
Lemma wracc_computed : forall tp fp TP FP, (0 <= tp <= TP)%Z -> (0 <= fp <= FP)%Z -> (0 < tp + fp)%Z -> (TP + FP <= 2 ^ 24)%Z ->
  let d := b64 (b64 (IZR tp / IZR (tp + fp)) - b64 (IZR TP / IZR (TP + FP))) in
  - (1 / 4) <= b64 (b64 (IZR (tp + fp) / IZR (TP + FP)) * d) <= 1 / 4 /\ - (IZR (TP + FP) / 4) <= b64 (IZR (tp + fp) * d) <= IZR (TP + FP) / 4.
Proof.
  intros tp fp TP FP H1 H2 P L d. pose proof u_pos as U.
  assert (B4 : b64 (1 / 4) = 1 / 4) by (apply (b64_quarter 1); reflexivity).
  assert (BN : b64 (IZR (TP + FP) / 4) = IZR (TP + FP) / 4) by (apply b64_quarter; lia).
  destruct (numerator tp fp TP FP H1 H2 ltac:(lia)) as [(E1 & E2 & E3)|[(E1 & E2 & E3)|D]].
  - subst fp tp TP. assert (F : FP <> 0%Z) by lia. unfold d. rewrite Z.add_0_r in *. rewrite !quot_half, !quot_same by auto. rewrite b64_1, b64_half. replace (1 - 1 / 2) with (1 / 2) by lra. rewrite b64_half.
    replace (1 / 2 * (1 / 2)) with (1 / 4) by lra. rewrite B4. replace (IZR FP * (1 / 2)) with (IZR (FP + FP) / 4) by (rewrite plus_IZR; lra). rewrite BN.
    assert (0 < IZR (FP + FP)) by (apply IZR_lt; lia). lra.
  - subst fp tp TP. assert (F : FP <> 0%Z) by lia. unfold d. rewrite Z.add_0_l in *. rewrite !quot_half by auto. replace (0 / IZR FP) with 0 by (unfold Rdiv; ring). rewrite b64_0, b64_half. replace (0 - 1 / 2) with (- (1 / 2)) by lra. rewrite b64_opp, b64_half.
    replace (1 / 2 * - (1 / 2)) with (- (1 / 4)) by lra. rewrite b64_opp, B4. replace (IZR FP * - (1 / 2)) with (- (IZR (FP + FP) / 4)) by (rewrite plus_IZR; lra). rewrite b64_opp, BN.
    assert (0 < IZR (FP + FP)) by (apply IZR_lt; lia). lra.
  - set (N := (TP + FP)%Z) in *. assert (NP : (0 < N)%Z) by (unfold N; lia). assert (NR : 0 < IZR N) by (apply IZR_lt; auto).
    destruct (prop_err (tp + fp) N ltac:(unfold N; lia) NP) as [A2 A3]. destruct (prop_err tp (tp + fp) ltac:(lia) P) as [B2 B3]. destruct (prop_err TP N ltac:(unfold N; lia) NP) as [C2 C3].
    assert (A1 := quot_01 (tp + fp) N ltac:(unfold N; lia) NP). assert (B1 := quot_01 tp (tp + fp) ltac:(lia) P). assert (C1 := quot_01 TP N ltac:(unfold N; lia) NP).
    destruct (diff_err _ _ _ _ B1 C1 B2 C2 B3 C3) as [D1 D2]. fold d in D1, D2. assert (G := gap N ltac:(lia)).
    set (D0 := (tp * FP - fp * TP)%Z) in *. set (e := IZR tp / IZR (tp + fp) - IZR TP / IZR N) in *.
    assert (X : IZR (tp + fp) * e = IZR D0 / IZR N) by (apply exact_difference; auto).
    assert (DB : Rabs (IZR D0) <= (IZR N * IZR N - 1) / 4). { rewrite <- abs_IZR. apply IZR_le in D. rewrite mult_IZR, minus_IZR, mult_IZR in D. lra. }
    assert (II : / IZR N > 0) by (apply Rinv_0_lt_compat; auto). assert (INV : IZR N * / IZR N = 1) by (apply Rinv_r; lra).
    assert (I2 : / (IZR N * IZR N) = / IZR N * / IZR N) by (apply Rinv_mult). rewrite I2 in G.
    assert (X1 : Rabs (IZR D0 / IZR N) <= IZR N / 4 - / IZR N / 4).
    { unfold Rdiv. rewrite Rabs_mult, (Rabs_pos_eq (/ IZR N)) by lra. apply Rle_trans with ((IZR N * IZR N - 1) / 4 * / IZR N); [apply Rmult_le_compat_r; lra|]. right. field. lra. }
    split.
    + assert (W : Rabs (b64 (IZR (tp + fp) / IZR N) * d - IZR (tp + fp) / IZR N * e) <= (3 + 1) * u). { apply prod_err0; auto. apply abs_inv in C3. unfold e. lra. }
      replace (IZR (tp + fp) / IZR N * e) with (IZR D0 / IZR N * / IZR N) in W by (rewrite <- X; field; lra).
      assert (X2 : Rabs (IZR D0 / IZR N * / IZR N) <= 1 / 4 - / IZR N * / IZR N / 4).
      { rewrite Rabs_mult, (Rabs_pos_eq (/ IZR N)) by lra. apply Rle_trans with ((IZR N / 4 - / IZR N / 4) * / IZR N); [apply Rmult_le_compat_r; lra|]. right. field. lra. }
      apply abs_inv in W, X2. assert (V : - (1 / 4) <= b64 (IZR (tp + fp) / IZR N) * d <= 1 / 4) by lra.
      split; [rewrite <- B4, <- b64_opp; apply b64_mono; lra|rewrite <- B4; apply b64_mono; lra].
    + assert (W : Rabs (IZR (tp + fp) * (d - e)) <= IZR N * (3 * u)). { apply prod_bound; [|exact D2]. rewrite <- abs_IZR. apply IZR_le. unfold N. lia. }
      replace (IZR (tp + fp) * (d - e)) with (IZR (tp + fp) * d - IZR D0 / IZR N) in W by (rewrite <- X; ring).
      assert (G2 : IZR N * (16 * u) <= / IZR N). { apply Rle_trans with (IZR N * (/ IZR N * / IZR N)); [apply Rmult_le_compat_l; lra|]. right. field. lra. }
      assert (NU : 0 < IZR N * u) by (apply Rmult_lt_0_compat; lra).
      apply abs_inv in W, X1. assert (V : - (IZR N / 4) <= IZR (tp + fp) * d <= IZR N / 4) by lra.
      split; [rewrite <- BN, <- b64_opp; apply b64_mono; lra|rewrite <- BN; apply b64_mono; lra].
Qed.
Theorem C68_ranges : forall m tp fp TP FP r, counted tp fp TP FP -> (TP + FP <= range_limit m)%Z -> fl_measure m tp fp TP FP = Ok r ->
  Q2R (lower m (inject_Z TP) (inject_Z FP)) <= r /\ match upper m (inject_Z TP) (inject_Z FP) with Some b => r <= Q2R b | None => True end.
Proof.
  intros m tp fp TP FP r (H1 & H2 & H3) L E. pose proof u_pos as U.
  assert (Z0 : Q2R 0 = 0) by apply RMicromega.Q2R_0. assert (Z1 : Q2R 1 = 1) by apply RMicromega.Q2R_1.
  assert (Q4 : Q2R (1 # 4) = 1 / 4) by (unfold Q2R; cbn; lra).
  assert (QN : Q2R ((inject_Z TP + inject_Z FP) / 4) = IZR (TP + FP) / 4). { rewrite Q2R_div, Q2R_plus, !Q2R_int, plus_IZR by (intro; discriminate). change 4%Q with (inject_Z 4). rewrite Q2R_int. reflexivity. }
  assert (PR : forall a b r, (0 <= a <= b)%Z -> fl_div a b = Ok r -> 0 <= r <= 1).
  { intros a b r' Ha Hb. apply fl_div_inv in Hb. destruct Hb as [Hb ->]. apply prop_err; lia. }
  assert (ONE : forall a b r, (0 <= a <= b)%Z -> fl_div a b = Ok r -> 0 <= b64 (1 - r)).
  { intros a b r' Ha Hb. apply PR in Hb; auto. apply b64_nonneg. lra. }
  destruct m; cbn [lower upper fl_measure range_limit] in *; rewrite ?Q2R_opp, ?Z0, ?Z1, ?Q4, ?QN; try discriminate.
  1-7: apply PR in E; [lra|lia].
  all: repeat match type of E with context [fl_div ?a ?b] => let N := fresh "N" in let T := fresh "T" in let v := fresh "v" in destruct (fl_div a b) as [v|] eqn:T; cbn [bind] in E; [|discriminate] end; injection E as <-.
  - apply PR in T, T0; try lia. assert (K : -1 <= b64 (v - 1) <= 0) by (split; [apply b64_ge_m1; lra|rewrite <- b64_0; apply b64_mono; lra]). split; [apply b64_ge_m1; lra|apply b64_le_1; lra].
  - apply PR in T, T0; try lia. assert (K : 0 <= b64 (v + v0) <= 2) by (split; [apply b64_nonneg; lra|rewrite <- (b64_int 2) by reflexivity; apply b64_mono; lra]). split; [apply b64_ge_m1; lra|apply b64_le_1; lra].
  - apply fl_div_inv in T, T0, T1. destruct T as [T ->], T0 as [T0 ->], T1 as [T1 ->]. destruct (wracc_computed tp fp TP FP) as [K _]; lia || lra.
  - apply fl_div_inv in T, T0, T1. destruct T as [T ->], T0 as [T0 ->], T1 as [T1 ->]. destruct (wracc_computed tp fp TP FP) as [K _]; try lia. split; [apply Rabs_pos|apply abs_le; lra].
  - apply fl_div_inv in T, T0. destruct T as [T ->], T0 as [T0 ->]. unfold fl_int. rewrite b64_int by lia. destruct (wracc_computed tp fp TP FP) as [_ K]; lia || lra.
  - split; auto. apply b64_nonneg, Rmult_le_pos; [apply b64_nonneg, IZR_le; lia|apply (ONE _ _ _) in T; [auto|lia]].
  - split; auto. apply b64_nonneg, Rmult_le_pos; [apply b64_nonneg, IZR_le; lia|apply (ONE _ _ _) in T; [auto|lia]].
  - split; auto. apply b64_nonneg, Rmult_le_pos; [|apply (ONE _ _ _) in T0; [auto|lia]]. apply fl_div_inv in T. destruct T as [T ->]. apply b64_nonneg. apply Rmult_le_pos; [apply IZR_le; nia|left; apply Rinv_0_lt_compat, IZR_lt; lia].
Qed.
(** * C68: the sign of the computed value *)
Lemma quot_mono : forall a b c d : Z, (0 < b)%Z -> (0 < d)%Z -> (a * d <= c * b)%Z -> IZR a / IZR b <= IZR c / IZR d.
Proof.
  intros a b c d Hb Hd H. apply IZR_le in H. rewrite !mult_IZR in H. apply IZR_lt in Hb, Hd. apply Rmult_le_reg_r with (IZR b * IZR d); [apply Rmult_lt_0_compat; auto|].
  replace (IZR a / IZR b * (IZR b * IZR d)) with (IZR a * IZR d) by (field; lra). replace (IZR c / IZR d * (IZR b * IZR d)) with (IZR c * IZR b) by (field; lra). exact H.
Qed.
(** Two proportions with denominators of at most 2^25 that differ, differ by more than 8 units. *)
Lemma quot_gap : forall a b c d : Z, (0 < b <= 2 ^ 25)%Z -> (0 < d <= 2 ^ 25)%Z -> (a * d < c * b)%Z -> IZR a / IZR b + 8 * u <= IZR c / IZR d.
Proof.
  intros a b c d Hb Hd H. assert (B : 0 < IZR b) by (apply IZR_lt; lia). assert (D : 0 < IZR d) by (apply IZR_lt; lia).
  assert (K : IZR (a * d) + 1 <= IZR (c * b)) by (rewrite <- plus_IZR; apply IZR_le; lia). rewrite !mult_IZR in K.
  assert (P : 0 < IZR b * IZR d) by (apply Rmult_lt_0_compat; auto). apply Rmult_le_reg_r with (IZR b * IZR d); auto.
  replace ((IZR a / IZR b + 8 * u) * (IZR b * IZR d)) with (IZR a * IZR d + 8 * u * (IZR b * IZR d)) by (field; lra). replace (IZR c / IZR d * (IZR b * IZR d)) with (IZR c * IZR b) by (field; lra).
  assert (BD : IZR (b * d) <= IZR (2 ^ 50)) by (apply IZR_le; nia). rewrite mult_IZR in BD. assert (8 * u * (IZR b * IZR d) <= 1); [|lra].
  apply Rle_trans with (8 * u * IZR (2 ^ 50)); [apply Rmult_le_compat_l; [pose proof u_pos; lra|exact BD]|]. unfold u. change (2 ^ 53)%Z with 9007199254740992%Z. change (2 ^ 50)%Z with 1125899906842624%Z. lra.
Qed.

Lemma computed_sign : forall tp fp TP FP, (0 <= tp <= TP)%Z -> (0 <= fp <= FP)%Z -> (0 < tp + fp)%Z -> (TP + FP <= 2 ^ 25)%Z ->
  let d := b64 (b64 (IZR tp / IZR (tp + fp)) - b64 (IZR TP / IZR (TP + FP))) in
  ((fp * TP < tp * FP)%Z -> 5 * u <= d) /\ ((tp * FP < fp * TP)%Z -> d <= - (5 * u)) /\ ((tp * FP = fp * TP)%Z -> d = 0).
Proof.
  intros tp fp TP FP H1 H2 P L d. pose proof u_pos as U. assert (NP : (0 < TP + FP)%Z) by lia.
  destruct (prop_err tp (tp + fp) ltac:(lia) P) as [B2 B3]. destruct (prop_err TP (TP + FP) ltac:(lia) NP) as [C2 C3].
  assert (B1 := quot_01 tp (tp + fp) ltac:(lia) P). assert (C1 := quot_01 TP (TP + FP) ltac:(lia) NP).
  destruct (diff_err _ _ _ _ B1 C1 B2 C2 B3 C3) as [D1 D2]. fold d in D1, D2. apply abs_inv in D2. repeat split.
  - intros K. assert (G := quot_gap TP (TP + FP) tp (tp + fp) ltac:(lia) ltac:(lia) ltac:(lia)). lra.
  - intros K. assert (G := quot_gap tp (tp + fp) TP (TP + FP) ltac:(lia) ltac:(lia) ltac:(lia)). lra.
  - intros K. unfold d. replace (IZR tp / IZR (tp + fp)) with (IZR TP / IZR (TP + FP)); [rewrite Rminus_diag_eq, b64_0; auto|].
    apply Rle_antisym; apply quot_mono; lia.
Qed.
Theorem C68_sign : forall m tp fp TP FP r q, In m [WRAcc; PiatetskyShapiro] -> counted tp fp TP FP -> (TP + FP <= 2 ^ 25)%Z ->
  fl_measure m tp fp TP FP = Ok r -> compute m (int_table tp fp TP FP) = Ok q ->
  (0 < r <-> (0 < q)%Q) /\ (r < 0 <-> (q < 0)%Q) /\ (r = 0 <-> (q == 0)%Q).
Proof.
  intros m tp fp TP FP r q Hm (H1 & H2 & H3) L Hr Hq. pose proof u_pos as U.
  assert (P : (0 < tp + fp)%Z /\ exists k, 0 < k /\ Q2R q = k * (IZR tp / IZR (tp + fp) - IZR TP / IZR (TP + FP)) /\ exists k', u <= k' /\ r = b64 (k' * b64 (b64 (IZR tp / IZR (tp + fp)) - b64 (IZR TP / IZR (TP + FP))))).
  { destruct (lookups tp fp TP FP) as (L1 & L2 & L3 & L4). revert Hr Hq.
    destruct Hm as [<-|[<-|[]]]; cbn [compute fl_measure]; unfold wracc_m, ps_m; rewrite ?L1, ?L2, ?L3, ?L4; cbn [bind]; repeat dv; try discriminate; intros Hr Hq; injection Hr as <-; injection Hq as <-.
    - assert (P : (0 < tp + fp)%Z) by lia. split; auto. exists (IZR (tp + fp) / IZR (TP + FP)). assert (G := quot_gap 0 1 (tp + fp) (TP + FP) ltac:(lia) ltac:(lia) ltac:(lia)). replace (0 / 1) with 0 in G by (unfold Rdiv; ring).
      split; [lra|]. split; [rewrite Q2R_mult, Q2R_minus, V, V0, V1; reflexivity|]. eexists. split; [|reflexivity]. destruct (prop_err (tp + fp) (TP + FP) ltac:(lia) ltac:(lia)) as [_ E]. apply abs_inv in E. lra.
    - assert (P : (0 < tp + fp)%Z) by lia. split; auto. exists (IZR (tp + fp)). assert (G : 1 <= IZR (tp + fp)) by (apply IZR_le; lia).
      split; [lra|]. split; [rewrite Q2R_mult, Q2R_plus, !Q2R_int, Q2R_minus, V, V0, plus_IZR; reflexivity|]. eexists. split; [|reflexivity]. unfold fl_int. rewrite b64_int by lia. unfold u. apply Rle_trans with 1; auto. change (2 ^ 53)%Z with 9007199254740992%Z. lra. }
  destruct P as (P & k & K0 & EQ & k' & K1 & ER). destruct (computed_sign tp fp TP FP H1 H2 P L) as (S1 & S2 & S3). cbv zeta in S1, S2, S3.
  set (d' := b64 (b64 (IZR tp / IZR (tp + fp)) - b64 (IZR TP / IZR (TP + FP)))) in *. set (d := IZR tp / IZR (tp + fp) - IZR TP / IZR (TP + FP)) in *.
  assert (T : (0 < r /\ 0 < Q2R q) \/ (r < 0 /\ Q2R q < 0) \/ (r = 0 /\ Q2R q = 0)).
  { destruct (Z.lt_trichotomy (fp * TP) (tp * FP)) as [K|[K|K]].
    - left. split; [rewrite ER; apply b64_pos; apply Rmult_le_compat; try lra; specialize (S1 K); lra|]. rewrite EQ. apply Rmult_lt_0_compat; auto. assert (G := quot_gap TP (TP + FP) tp (tp + fp) ltac:(lia) ltac:(lia) ltac:(lia)). unfold d. lra.
    - right; right. split; [rewrite ER, S3, Rmult_0_r by lia; apply b64_0|]. rewrite EQ. replace d with 0; [ring|]. unfold d. assert (IZR tp / IZR (tp + fp) = IZR TP / IZR (TP + FP)); [|lra]. apply Rle_antisym; apply quot_mono; lia.
    - right; left. split.
      + rewrite ER. apply b64_neg. specialize (S2 K). assert (u * u <= k' * (- d')) by (apply Rmult_le_compat; lra). lra.
      + rewrite EQ. assert (G := quot_gap tp (tp + fp) TP (TP + FP) ltac:(lia) ltac:(lia) ltac:(lia)). assert (0 < k * (- d)); [apply Rmult_lt_0_compat; auto; unfold d; lra|lra]. }
  assert (A1 : (0 < q)%Q <-> 0 < Q2R q). { split; intros K; [apply Qlt_Rlt in K; rewrite RMicromega.Q2R_0 in K; exact K|apply Rlt_Qlt; rewrite RMicromega.Q2R_0; exact K]. }
  assert (A2 : (q < 0)%Q <-> Q2R q < 0). { split; intros K; [apply Qlt_Rlt in K; rewrite RMicromega.Q2R_0 in K; exact K|apply Rlt_Qlt; rewrite RMicromega.Q2R_0; exact K]. }
  assert (A3 : (q == 0)%Q <-> Q2R q = 0). { split; intros K; [apply Qeq_eqR in K; rewrite RMicromega.Q2R_0 in K; exact K|apply eqR_Qeq; rewrite RMicromega.Q2R_0; exact K]. }
  rewrite A1, A2, A3. destruct T as [[T1 T2]|[[T1 T2]|[T1 T2]]]; repeat split; intros; lra.
Qed.

(** * C68: the order of the computed values *)
(** The exact value as a quotient of ints. *)
Definition num (m : measure) (tp fp TP FP : Z) : Z :=
  match m with
  | Coverage => tp + fp | Support | PPV | Sensitivity => tp | NPV | Specificity => FP - fp | F1Score => 2 * tp
  | Youden => tp * FP - fp * TP | WRAcc | PiatetskyShapiro => tp * FP - fp * TP | AbsoluteWRAcc => Z.abs (tp * FP - fp * TP)
  | PSOptimisticEstimate1 => (tp + fp) * FP | PSOptimisticEstimate2 => tp * FP | _ => 0
  end.
Definition den (m : measure) (tp fp TP FP : Z) : Z :=
  match m with
  | Coverage | Support => TP + FP | PPV => tp + fp | NPV => FP - fp + TP - tp | Sensitivity => TP | Specificity => FP | F1Score => tp + fp + TP
  | Youden => TP * FP | WRAcc | AbsoluteWRAcc => (TP + FP) * (TP + FP) | _ => TP + FP
  end.
(** The measures that are quotients with a denominator that is small or depends on the dataset only. *)
Definition orderly : list measure := [Coverage; Support; PPV; NPV; Sensitivity; Specificity; F1Score; Youden; WRAcc; AbsoluteWRAcc; PiatetskyShapiro; PSOptimisticEstimate1; PSOptimisticEstimate2].
Lemma exact_quotient : forall m tp fp TP FP q, In m orderly -> (0 <= tp <= TP)%Z -> (0 <= fp <= FP)%Z -> compute m (int_table tp fp TP FP) = Ok q ->
  (0 < den m tp fp TP FP)%Z /\ Q2R q = IZR (num m tp fp TP FP) / IZR (den m tp fp TP FP).
Proof.
  intros m tp fp TP FP q Hm H1 H2. destruct (lookups tp fp TP FP) as (L1 & L2 & L3 & L4).
  assert (QD : forall x y q0, qdiv x y = Ok q0 -> forall a b, Q2R x = IZR a -> Q2R y = IZR b -> b <> 0%Z /\ Q2R q0 = IZR a / IZR b).
  { intros x y q0 E a b Hx Hy. destruct (qdiv_real x y a b Hx Hy) as [(_ & _ & K)|(N & _ & q' & K & V)]; [congruence|]. split; auto. congruence. }
  assert (DEC : forall a : Z, a <> 0%Z -> IZR a <> 0) by (intros; apply not_0_IZR; auto).
  assert (WR : forall q q0 q1, (tp + fp <> 0)%Z -> (TP + FP <> 0)%Z -> Q2R q = IZR (tp + fp) / IZR (TP + FP) -> Q2R q0 = IZR tp / IZR (tp + fp) -> Q2R q1 = IZR TP / IZR (TP + FP) -> Q2R (q * (q0 - q1)) = IZR (tp * FP - fp * TP) / IZR ((TP + FP) * (TP + FP))).
  { intros q' q0 q1 N1 N2 V1 V2 V3. rewrite Q2R_mult, Q2R_minus, V1, V2, V3. assert (X := exact_difference tp fp TP FP ltac:(lia) ltac:(lia)).
    rewrite mult_IZR. apply DEC in N2. replace (IZR (tp * FP - fp * TP) / (IZR (TP + FP) * IZR (TP + FP))) with (IZR (tp * FP - fp * TP) / IZR (TP + FP) * / IZR (TP + FP)) by (field; auto). rewrite <- X. field. split; auto. }
  destruct Hm as [<-|[<-|[<-|[<-|[<-|[<-|[<-|[<-|[<-|[<-|[<-|[<-|[<-|[]]]]]]]]]]]]]]; cbn [compute num den]; unfold coverage_m, support_m, ppv_m, npv_m, sensitivity_m, specificity_m, f1_m, youden_m, wracc_m, absolute_wracc_m, ps_m, ps_oe1_m, ps_oe2_m, wracc_m; rewrite ?L1, ?L2, ?L3, ?L4; cbn [bind].
  1-7: intros E; match goal with |- context [IZR ?a / IZR ?b] => destruct (QD _ _ _ E a b ltac:(cast) ltac:(cast)) as [N V] end; split; [lia|auto].
  all: repeat match goal with |- context [qdiv ?x ?y] => let E := fresh "E" in destruct (qdiv x y) eqn:E; cbn [bind]; [|discriminate] end; intros EE; match type of EE with Ok ?x = Ok ?y => assert (EQ : x = y) by (clear -EE; congruence) end; clear EE; subst q.
  - destruct (QD _ _ _ E tp TP ltac:(cast) ltac:(cast)) as [N V]. destruct (QD _ _ _ E0 (FP - fp)%Z FP ltac:(cast) ltac:(cast)) as [N0 V0]. split; [nia|].
    rewrite Q2R_minus, Q2R_plus, V, V0, RMicromega.Q2R_1, minus_IZR, minus_IZR, !mult_IZR. field. split; apply DEC; auto.
  - destruct (QD _ _ _ E (tp + fp)%Z (TP + FP)%Z ltac:(cast) ltac:(cast)) as [N V]. destruct (QD _ _ _ E0 tp (tp + fp)%Z ltac:(cast) ltac:(cast)) as [N0 V0]. destruct (QD _ _ _ E1 TP (TP + FP)%Z ltac:(cast) ltac:(cast)) as [N1 V1]. split; [nia|]. apply WR; auto.
  - destruct (QD _ _ _ E (tp + fp)%Z (TP + FP)%Z ltac:(cast) ltac:(cast)) as [N V]. destruct (QD _ _ _ E0 tp (tp + fp)%Z ltac:(cast) ltac:(cast)) as [N0 V0]. destruct (QD _ _ _ E1 TP (TP + FP)%Z ltac:(cast) ltac:(cast)) as [N1 V1]. split; [nia|].
    assert (X := WR _ _ _ N0 N V V0 V1).
    assert (QA : forall z, Q2R (Qabs z) = Rabs (Q2R z)).
    { intros z. apply Qabs_case; intros K; apply Qle_Rle in K; rewrite RMicromega.Q2R_0 in K; [rewrite Rabs_pos_eq; auto|rewrite Rabs_left1, Q2R_opp; auto]. }
    rewrite QA, X, abs_IZR. unfold Rdiv. rewrite Rabs_mult. f_equal. apply Rabs_pos_eq. left. apply Rinv_0_lt_compat, IZR_lt. nia.
  - destruct (QD _ _ _ E tp (tp + fp)%Z ltac:(cast) ltac:(cast)) as [N0 V0]. destruct (QD _ _ _ E0 TP (TP + FP)%Z ltac:(cast) ltac:(cast)) as [N1 V1]. split; [lia|]. rewrite Q2R_mult, Q2R_plus, !Q2R_int, Q2R_minus, V0, V1, <- plus_IZR. apply exact_difference; lia.
  - destruct (QD _ _ _ E TP (TP + FP)%Z ltac:(cast) ltac:(cast)) as [N1 V1]. split; [lia|]. rewrite Q2R_mult, Q2R_plus, !Q2R_int, Q2R_minus, RMicromega.Q2R_1, V1, mult_IZR. apply DEC in N1. rewrite !plus_IZR in *. field. auto.
  - destruct (QD _ _ _ E TP (TP + FP)%Z ltac:(cast) ltac:(cast)) as [N1 V1]. split; [lia|]. rewrite Q2R_mult, !Q2R_int, Q2R_minus, RMicromega.Q2R_1, V1, mult_IZR. apply DEC in N1. rewrite !plus_IZR in *. field. auto.
Qed.
Lemma unit_le : forall m tp fp TP FP, (0 <= tp <= TP)%Z -> (0 <= fp <= FP)%Z -> 
  unit_of m (tp + fp) <= match m with PiatetskyShapiro | PSOptimisticEstimate1 | PSOptimisticEstimate2 | WRAccOptimisticEstimate1 => IZR (TP + FP) * u | _ => u end.
Proof.
  intros m tp fp TP FP H1 H2. rewrite unit_u. assert (U := u_pos). assert (K : IZR (tp + fp) * u <= IZR (TP + FP) * u) by (apply Rmult_le_compat_r; [lra|apply IZR_le; lia]). destruct m; lra.
Qed.
Theorem C68_order : forall m tp fp tp' fp' TP FP r r' q q', In m orderly -> counted tp fp TP FP -> counted tp' fp' TP FP -> (TP + FP <= 2 ^ 23)%Z ->
  fl_measure m tp fp TP FP = Ok r -> compute m (int_table tp fp TP FP) = Ok q ->
  fl_measure m tp' fp' TP FP = Ok r' -> compute m (int_table tp' fp' TP FP) = Ok q' -> (q < q')%Q -> r < r'.
Proof.
  intros m tp fp tp' fp' TP FP r r' q q' Hm (A1 & A2 & A3) (B1 & B2 & _) L Er Eq Er' Eq' LT. pose proof u_pos as U.
  assert (NQ : m <> Qg) by (intros ->; cbn in Hm; intuition discriminate).
  assert (X := C68_error m tp fp TP FP NQ (conj A1 (conj A2 A3))). assert (X' := C68_error m tp' fp' TP FP NQ (conj B1 (conj B2 A3))). rewrite Er, Eq in X. rewrite Er', Eq' in X'.
  destruct (exact_quotient m tp fp TP FP q Hm A1 A2 Eq) as [P V]. destruct (exact_quotient m tp' fp' TP FP q' Hm B1 B2 Eq') as [P' V'].
  assert (W := unit_le m tp fp TP FP A1 A2). assert (W' := unit_le m tp' fp' TP FP B1 B2). apply Qlt_Rlt in LT. apply abs_inv in X, X'.
  assert (CR : (num m tp fp TP FP * den m tp' fp' TP FP < num m tp' fp' TP FP * den m tp fp TP FP)%Z).
  { apply Z.nle_gt. intros K. rewrite V, V' in LT. assert (Y := quot_mono _ _ _ _ P' P K). lra. }
  clear LT Eq Eq' Er Er'. set (a := num m tp fp TP FP) in *. set (b := den m tp fp TP FP) in *. set (c := num m tp' fp' TP FP) in *. set (d := den m tp' fp' TP FP) in *.
  (* denominators of at most 2^25 *)
  assert (SM : (b <= 2 ^ 24)%Z -> (d <= 2 ^ 24)%Z -> Q2R q + 32 * u <= Q2R q').
  { intros Lb Ld. rewrite V, V'. assert (PB : 0 < IZR b) by (apply IZR_lt; auto). assert (PD : 0 < IZR d) by (apply IZR_lt; auto). assert (K : IZR (a * d) + 1 <= IZR (c * b)) by (rewrite <- plus_IZR; apply IZR_le; lia). rewrite !mult_IZR in K.
    assert (PP : 0 < IZR b * IZR d) by (apply Rmult_lt_0_compat; auto). apply Rmult_le_reg_r with (IZR b * IZR d); auto.
    replace ((IZR a / IZR b + 32 * u) * (IZR b * IZR d)) with (IZR a * IZR d + 32 * u * (IZR b * IZR d)) by (field; lra). replace (IZR c / IZR d * (IZR b * IZR d)) with (IZR c * IZR b) by (field; lra).
    assert (BD : IZR (b * d) <= IZR (2 ^ 48)) by (apply IZR_le; nia). rewrite mult_IZR in BD. assert (32 * u * (IZR b * IZR d) <= 1); [|lra].
    apply Rle_trans with (32 * u * IZR (2 ^ 48)); [apply Rmult_le_compat_l; [lra|exact BD]|]. unfold u. change (2 ^ 53)%Z with 9007199254740992%Z. change (2 ^ 48)%Z with 281474976710656%Z. lra. }
  (* the same denominator *)
  assert (SD : b = d -> Q2R q + / IZR b <= Q2R q').
  { intros E. rewrite V, V', <- E. assert (PB : 0 < IZR b) by (apply IZR_lt; auto). assert (K : IZR a + 1 <= IZR c) by (rewrite <- plus_IZR; apply IZR_le; nia).
    replace (IZR a / IZR b + / IZR b) with ((IZR a + 1) / IZR b) by (field; lra). unfold Rdiv. apply Rmult_le_compat_r; auto. left. apply Rinv_0_lt_compat; auto. }
  assert (BIG : forall z, (0 < z <= 2 ^ 46)%Z -> 128 * u <= / IZR z).
  { intros z [Z1 Z2]. assert (ZP : 0 < IZR z) by (apply IZR_lt; auto). apply Rmult_le_reg_r with (IZR z); auto. rewrite Rinv_l by lra. apply IZR_le in Z2. apply Rle_trans with (128 * u * IZR (2 ^ 46)); [apply Rmult_le_compat_l; lra|]. unfold u. change (2 ^ 53)%Z with 9007199254740992%Z. change (2 ^ 46)%Z with 70368744177664%Z. lra. }
  assert (NN : (0 < TP + FP)%Z -> 128 * (IZR (TP + FP) * u) <= / IZR (TP + FP)).
  { intros NP. assert (Y := BIG ((TP + FP) * (TP + FP))%Z ltac:(nia)). rewrite mult_IZR, Rinv_mult in Y. assert (ZP : 0 < IZR (TP + FP)) by (apply IZR_lt; auto). apply (Rmult_le_compat_l (IZR (TP + FP))) in Y; [|lra].
    replace (IZR (TP + FP) * (/ IZR (TP + FP) * / IZR (TP + FP))) with (/ IZR (TP + FP)) in Y by (field; lra). lra. }
  assert (NU : (0 < TP + FP)%Z -> 0 < IZR (TP + FP) * u) by (intros NP; apply Rmult_lt_0_compat; auto; apply IZR_lt; auto).
  destruct Hm as [<-|[<-|[<-|[<-|[<-|[<-|[<-|[<-|[<-|[<-|[<-|[<-|[<-|[]]]]]]]]]]]]]]; cbn [num den] in *; unfold b, d in *.
  1-7: specialize (SM ltac:(lia) ltac:(lia)); lra.
  1-3: specialize (SD eq_refl); match type of SD with _ + / IZR ?z <= _ => specialize (BIG z ltac:(nia)) end; lra.
  all: specialize (SD eq_refl); specialize (NN P); specialize (NU P); lra.
Qed.
(** * C69: the optimistic estimates bound the computed quality of every refinement *)
Theorem C69_estimates_bound : forall m q tp fp tp' fp' TP FP oe r, In q (optimistic_estimate_of m) ->
  counted tp fp TP FP -> (TP + FP <= 2 ^ 25)%Z -> (0 <= tp' <= tp)%Z -> (0 <= fp' <= fp)%Z ->
  fl_measure m tp fp TP FP = Ok oe -> fl_measure q tp' fp' TP FP = Ok r -> r <= oe.
Proof.
  intros m q tp fp tp' fp' TP FP oe r Hq (H1 & H2 & H3) L R1 R2 Ho Hr. pose proof u_pos as U.
  assert (GEN : (0 < tp' + fp')%Z -> let d' := b64 (b64 (IZR tp' / IZR (tp' + fp')) - b64 (IZR TP / IZR (TP + FP))) in let e := b64 (1 - b64 (IZR TP / IZR (TP + FP))) in
     0 <= e /\ d' <= e /\ IZR (tp' + fp') * d' <= IZR tp' * e /\ b64 (IZR (tp' + fp') / IZR (TP + FP)) * d' <= b64 (IZR tp' / IZR (TP + FP)) * e).
  { intros P d' e. assert (NP : (0 < TP + FP)%Z) by lia. 
    destruct (prop_err (tp' + fp') (TP + FP) ltac:(lia) NP) as [A2 A3]. destruct (prop_err tp' (tp' + fp') ltac:(lia) P) as [B2 B3]. destruct (prop_err TP (TP + FP) ltac:(lia) NP) as [C2 C3]. destruct (prop_err tp' (TP + FP) ltac:(lia) NP) as [T2 T3].
    assert (A1 := quot_01 (tp' + fp') (TP + FP) ltac:(lia) NP). assert (B1 := quot_01 tp' (tp' + fp') ltac:(lia) P). assert (C1 := quot_01 TP (TP + FP) ltac:(lia) NP). assert (T1 := quot_01 tp' (TP + FP) ltac:(lia) NP).
    destruct (diff_err _ _ _ _ B1 C1 B2 C2 B3 C3) as [D1 D2]. fold d' in D1, D2.
    assert (E0 : 0 <= e <= 1) by (split; [apply b64_nonneg; lra|apply b64_le_1; lra]). assert (DE : d' <= e) by (apply b64_mono; lra). split; [lra|]. split; [exact DE|].
    destruct (Z.eq_dec fp' 0) as [F0|F0].
    - subst fp'. rewrite Z.add_0_r in *. assert (TN : 0 <= IZR tp') by (apply IZR_le; lia). split; apply Rmult_le_compat_l; lra.
    - destruct (Z.eq_dec TP 0) as [T0|T0].
      + assert (tp' = 0)%Z by lia. subst tp' TP. unfold d', e in *. replace (0 / IZR (0 + fp')) with 0 by (unfold Rdiv; ring). replace (0 / IZR (0 + FP)) with 0 by (unfold Rdiv; ring). rewrite b64_0. replace (0 - 0) with 0 by ring. rewrite b64_0, !Rmult_0_r, !Rmult_0_l. lra.
      + set (N := IZR (TP + FP)) in *. assert (N0 : 0 < N) by (apply IZR_lt; auto). set (c := IZR TP / N) in *. set (n' := IZR (tp' + fp')) in *.
        assert (N' : 0 < n') by (apply IZR_lt; auto). assert (NL : n' <= N) by (apply IZR_le; lia). assert (TL : IZR tp' <= N) by (apply IZR_le; lia). assert (TN : 0 <= IZR tp') by (apply IZR_le; lia).
        assert (E2 : Rabs (e - (1 - c)) <= 2 * u). { assert (X : Rabs (e - (1 - b64 c)) <= u) by (apply b64_err1, abs_le; lra). apply abs_inv in X, C3. apply abs_le. lra. }
        (* the slack *)
        assert (SL : n' * (IZR tp' / n' - c) + 1 / N <= IZR tp' * (1 - c)).
        { replace (n' * (IZR tp' / n' - c)) with (IZR tp' - n' * c) by (field; lra). assert (X : IZR fp' * IZR TP >= 1) by (rewrite <- mult_IZR; apply Rle_ge, IZR_le; nia).
          unfold n'. rewrite plus_IZR. assert (1 / N <= IZR fp' * c); [|lra]. unfold c. apply Rmult_le_reg_r with N; auto. replace (1 / N * N) with 1 by (field; lra). replace (IZR fp' * (IZR TP / N) * N) with (IZR fp' * IZR TP) by (field; lra). lra. }
        assert (GAP : 8 * u * N <= 1 / N).
        { assert (BD : IZR ((TP + FP) * (TP + FP)) <= IZR (2 ^ 50)) by (apply IZR_le; nia). rewrite mult_IZR in BD. fold N in BD. apply Rmult_le_reg_r with N; auto. replace (1 / N * N) with 1 by (field; lra). rewrite Rmult_assoc.
          apply Rle_trans with (8 * u * IZR (2 ^ 50)); [apply Rmult_le_compat_l; [lra|exact BD]|]. unfold u. change (2 ^ 53)%Z with 9007199254740992%Z. change (2 ^ 50)%Z with 1125899906842624%Z. lra. }
        apply abs_inv in D2, E2. split.
        * assert (X1 : n' * d' <= n' * (IZR tp' / n' - c) + N * (3 * u)). { apply Rle_trans with (n' * (IZR tp' / n' - c + 3 * u)); [apply Rmult_le_compat_l; lra|]. rewrite Rmult_plus_distr_l. apply Rplus_le_compat_l. apply Rmult_le_compat_r; lra. }
          assert (X2 : IZR tp' * (1 - c) - N * (2 * u) <= IZR tp' * e). { apply Rle_trans with (IZR tp' * (1 - c - 2 * u)); [|apply Rmult_le_compat_l; lra]. assert (IZR tp' * (2 * u) <= N * (2 * u)) by (apply Rmult_le_compat_r; lra). lra. }
          assert (0 < u * N) by (apply Rmult_lt_0_compat; lra). lra.
        * assert (X1 : Rabs (b64 (n' / N) * d' - n' / N * (IZR tp' / n' - c)) <= (3 + 1) * u) by (apply prod_err0; [fold c; lra|exact A2|exact A3|apply abs_le; lra]).
          assert (X2 : Rabs (b64 (IZR tp' / N) * e - IZR tp' / N * (1 - c)) <= (2 + 1) * u) by (apply prod_err0; [lra|exact T2|exact T3|apply abs_le; lra]).
          assert (SL2 : n' / N * (IZR tp' / n' - c) + 1 / N * / N <= IZR tp' / N * (1 - c)).
          { apply Rmult_le_reg_r with N; auto. replace ((n' / N * (IZR tp' / n' - c) + 1 / N * / N) * N) with (n' * (IZR tp' / n' - c) + 1 / N) by (field; lra). replace (IZR tp' / N * (1 - c) * N) with (IZR tp' * (1 - c)) by (field; lra). exact SL. }
          assert (GAP2 : 8 * u <= 1 / N * / N). { apply Rmult_le_reg_r with N; auto. replace (1 / N * / N * N) with (1 / N) by (field; lra). exact GAP. }
          apply abs_inv in X1, X2. lra. }
  destruct m; cbn [optimistic_estimate_of In] in Hq; try contradiction; destruct Hq as [<-|[]]; cbn [fl_measure] in *.
  all: repeat match type of Hr with context [fl_div ?a ?b] => let T := fresh "T" in let v := fresh "v" in let N := fresh "N" in destruct (fl_div a b) as [v|] eqn:T; cbn [bind] in Hr; [|discriminate]; apply fl_div_inv in T; destruct T as [N ->] end; injection Hr as <-.
  all: destruct (GEN ltac:(lia)) as (G1 & G2 & G3 & G4); clear GEN.
  all: repeat match type of Ho with context [fl_div ?a ?b] => let T := fresh "T" in let v := fresh "v" in let N := fresh "N" in destruct (fl_div a b) as [v|] eqn:T; cbn [bind] in Ho; [|discriminate]; apply fl_div_inv in T; destruct T as [N ->] end; injection Ho as <-.
  all: apply b64_mono; unfold fl_int; rewrite ?b64_int by lia.
  - apply Rle_trans with (IZR (tp' + fp') * b64 (1 - b64 (IZR TP / IZR (TP + FP)))); [apply Rmult_le_compat_l; auto; apply IZR_le; lia|apply Rmult_le_compat_r; auto; apply IZR_le; lia].
  - eapply Rle_trans; [apply G3|]. apply Rmult_le_compat_r; auto; apply IZR_le; lia.
  - eapply Rle_trans; [apply G4|]. apply Rmult_le_compat_r; auto. apply b64_mono. apply quot_mono; try lia.
    assert (X1 : (tp' * (tp + fp) <= tp * (TP + FP))%Z) by (apply Z.mul_le_mono_nonneg; lia). assert (X2 : (tp * (TP + FP) <= tp * tp * (TP + FP))%Z) by (apply Z.mul_le_mono_nonneg_r; nia). lia.
Qed.
(** The estimates of Piatetsky-Shapiro do not grow under refinement. *)
Theorem C69_ps_estimates_antimonotone : forall m tp fp tp' fp' TP FP oe oe', In PiatetskyShapiro (optimistic_estimate_of m) ->
  counted tp fp TP FP -> (0 <= tp' <= tp)%Z -> (0 <= fp' <= fp)%Z ->
  fl_measure m tp fp TP FP = Ok oe -> fl_measure m tp' fp' TP FP = Ok oe' -> oe' <= oe.
Proof.
  intros m tp fp tp' fp' TP FP oe oe' Hm (H1 & H2 & H3) R1 R2 Ho Ho'.
  destruct m; cbn [optimistic_estimate_of In] in Hm; try contradiction; try (destruct Hm as [Hm|[]]; discriminate); cbn [fl_measure] in *.
  all: destruct (fl_div TP (TP + FP)) as [v|] eqn:T; cbn [bind] in *; [|discriminate]; injection Ho as <-; injection Ho' as <-; apply fl_div_inv in T; destruct T as [N ->].
  all: destruct (prop_err TP (TP + FP) ltac:(lia) ltac:(lia)) as [C2 _]; apply b64_mono; apply Rmult_le_compat_r; [apply b64_nonneg; lra|apply b64_mono, IZR_le; lia].
Qed.
Print Assumptions C68_error.
Print Assumptions C68_ranges.
Print Assumptions C68_sign.
Print Assumptions C69_estimates_bound.
Print Assumptions C69_ps_estimates_antimonotone.
Print Assumptions C68_order.

(** * C68: ties *)
From Flocq Require Import Core.
(** Ties are not preserved: on a dataset with 2 positives and 2 negatives, the subgroups (1, 0) and (2, 1) have the same WRAcc, 1/8, but the
    computed value of the second is smaller, so that it is below a threshold of 0.125 that it reaches. *)
Theorem C68_ties_refuted : exists r r' q q', counted 1 0 2 2 /\ counted 2 1 2 2 /\
  fl_measure WRAcc 1 0 2 2 = Ok r /\ compute WRAcc (int_table 1 0 2 2) = Ok q /\ fl_measure WRAcc 2 1 2 2 = Ok r' /\ compute WRAcc (int_table 2 1 2 2) = Ok q' /\
  (q == 1 # 8)%Q /\ (q' == 1 # 8)%Q /\ r = 1 / 8 /\ r' < 1 / 8.
Proof.
  assert (H : b64 (2 / 4) = 1 / 2) by (replace (2 / 4) with (1 / 2) by lra; apply b64_half).
  exists (1 / 8), (4503599627370495 / 36028797018963968). do 2 eexists. split; [unfold counted; lia|]. split; [unfold counted; lia|].
  split; [|split; [reflexivity|split; [|split; [reflexivity|]]]].
  - cbn. f_equal. rewrite H. replace (1 / 1) with 1 by lra. rewrite b64_1. replace (1 - 1 / 2) with (1 / 2) by lra. rewrite b64_half, (b64_quarter 1) by reflexivity. replace (1 / 4 * (1 / 2)) with (IZR 1 * bpow radix2 (-3)) by (cbn; lra). rewrite b64_scaled by (reflexivity || lia). cbn. lra.
  - cbn. f_equal. rewrite H, b64_two_thirds. replace (6004799503160661 / 9007199254740992 - 1 / 2) with (IZR 1501199875790165 * bpow radix2 (-53)) by (change (bpow radix2 (-53)) with (/ 9007199254740992); lra). rewrite b64_scaled by (reflexivity || lia).
    rewrite (b64_quarter 3) by reflexivity. replace (3 / 4 * (IZR 1501199875790165 * bpow radix2 (-53))) with (IZR 4503599627370495 * bpow radix2 (-55)) by (change (bpow radix2 (-53)) with (/ 9007199254740992); change (bpow radix2 (-55)) with (/ 36028797018963968); lra). rewrite b64_scaled by (reflexivity || lia). reflexivity.
  - split; [vm_compute; reflexivity|]. split; [vm_compute; reflexivity|]. split; lra.
Qed.
Print Assumptions C68_ties_refuted.
