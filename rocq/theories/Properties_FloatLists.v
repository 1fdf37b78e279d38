(** Theorem C42 with the overlap factors as Python computes them: the quotients rounded to binary64 before the comparison. *)
From Coq Require Import Reals QArith Qreals.
From Flocq Require Import Core.
From Verif Require Import FloatModel FloatProofs Properties_Float ListSpec ListProofs Properties_Lists.
From Coq Require Import Lra Lia.
Open Scope list_scope.
Open Scope nat_scope.

(** dslm.py:71, 95, 170: [subgroup_sum/total_sum <= maximum_..._overlap], the quotient correctly rounded. *)
Definition double_limit (ok : Q -> bool) (limit : R) : Prop := forall f, ok f = true <-> (b64 (Q2R f) <= limit)%R.

Lemma ratio_real : forall a b, a <= b -> b <> 0 -> Q2R (ratio a b) = (IZR (Z.of_nat a) / IZR (Z.of_nat b))%R.
Proof.
  intros a b L N. unfold ratio. destruct (Nat.eqb_spec b 0) as [E|_]; [contradiction|]. unfold nat_Q. rewrite Q2R_div, !Q2R_int; auto.
  intros E. assert (X : inject_Z (Z.of_nat b) == inject_Z 0) by exact E. rewrite inject_Z_injective in X. lia.
Qed.
Lemma ratio_unit : forall a b, a <= b -> (0 <= Q2R (ratio a b) <= 1)%R.
Proof.
  intros a b L. destruct (Nat.eq_dec b 0) as [E|N].
  - unfold ratio. rewrite E. cbn [Nat.eqb]. rewrite RMicromega.Q2R_0. Lra.lra.
  - rewrite ratio_real by auto. apply quot_01; lia.
Qed.
Lemma sum_filter : forall (f : nat -> nat) p l, list_sum (map f (filter p l)) <= list_sum (map f l).
Proof. intros f p. induction l as [|z l IH]; cbn [filter map]; auto. unfold list_sum in *. destruct (p z); cbn [map fold_right]; lia. Qed.
Lemma overlap_unit : forall df st x, (0 <= Q2R (overlap_pos df st x) <= 1)%R /\ (0 <= Q2R (overlap_neg df st x) <= 1)%R.
Proof.
  intros df st x. unfold overlap_pos, overlap_neg. split; (destruct (existsb _ _); [apply ratio_unit, sum_filter|]);
  [rewrite RMicromega.Q2R_1|rewrite RMicromega.Q2R_0]; Lra.lra.
Qed.
Lemma within : forall x limit, (0 <= x <= 1)%R -> (b64 x <= limit)%R -> (x <= limit + / 2 ^ 53)%R.
Proof.
  intros x limit Hx H. assert (E : (Rabs (b64 x - x) <= u)%R) by (apply b64_err1; apply abs_le; Lra.lra). apply abs_inv in E.
  assert (U : u = (/ 2 ^ 53)%R) by (unfold u; Lra.lra || auto). Lra.lra.
Qed.
Lemma tiny : forall a b, a <= b -> (Z.of_nat b <= 2 ^ 1074)%Z -> (b64 (Q2R (ratio a b)) <= 0)%R -> a = 0.
Proof.
  intros a b L Hb H. destruct (Nat.eq_dec a 0) as [E|N]; auto. exfalso. assert (Nb : b <> 0) by lia. rewrite ratio_real in H by auto.
  assert (P : (0 < IZR (Z.of_nat b))%R) by (apply IZR_lt; lia).
  assert (G : (bpow radix2 (-1074) <= IZR (Z.of_nat a) / IZR (Z.of_nat b))%R).
  { apply Rle_trans with (/ IZR (Z.of_nat b))%R.
    - change (-1074)%Z with (- (1074))%Z. rewrite bpow_opp. apply Rinv_le; auto. change (bpow radix2 1074) with (IZR (2 ^ 1074)). apply IZR_le; auto.
    - unfold Rdiv. rewrite <- (Rmult_1_l (/ IZR (Z.of_nat b))) at 1. apply Rmult_le_compat_r; [apply Rlt_le, Rinv_0_lt_compat; auto|]. apply IZR_le. lia. }
  apply b64_mono in G. rewrite <- (Rmult_1_l (bpow radix2 (-1074))) in G. rewrite (b64_scaled 1) in G by (cbn; lia).
  pose proof (bpow_gt_0 radix2 (-1074)). Lra.lra.
Qed.

(** Every member satisfied the comparison as computed; the exact factor exceeds the limit by less than 2^-53 at most, and a
    factor that does not exceed the limit (a double) is never refused. *)
Theorem C42_double : forall {G} (c : list_config G) mp mn df tcol tval xs out l st x rest, learner_input c df tcol xs -> lc_class c = DSLM ->
  double_limit (lc_pos_ok c) mp -> double_limit (lc_neg_ok c) mn ->
  learner_fit c df tcol tval xs = Ok out -> In l out -> members l = st ++ x :: rest ->
  (b64 (Q2R (overlap_pos df st x)) <= mp /\ b64 (Q2R (overlap_neg df st x)) <= mn /\
   Q2R (overlap_pos df st x) <= mp + / 2 ^ 53 /\ Q2R (overlap_neg df st x) <= mn + / 2 ^ 53)%R /\
  0 < fst (own_rows df (target_bits df tcol tval) st x) /\
  (b64 mp = mp -> forall f, (Q2R f <= mp)%R -> lc_pos_ok c f = true) /\ (b64 mn = mn -> forall f, (Q2R f <= mn)%R -> lc_neg_ok c f = true).
Proof.
  intros G c mp mn df tcol tval xs out l st x rest HI Hc Hp Hn E Il Em. destruct (C42_admitted c df tcol tval xs out l st x rest HI Hc E Il Em) as (P & N & O).
  apply Hp in P. apply Hn in N. destruct (overlap_unit df st x) as [U1 U2]. split; [repeat split; auto; apply within; auto|]. split; auto.
  split; intros Eb f Hf; [apply Hp; rewrite <- Eb|apply Hn; rewrite <- Eb]; apply b64_mono; auto.
Qed.
(** Limit 0 (fewer than 2^1074 rows times members): disjoint rows, as with exact quotients. *)
Theorem C42_double_zero : forall {G} (c : list_config G) mp mn df tcol tval xs out l st x rest, learner_input c df tcol xs -> lc_class c = DSLM ->
  double_limit (lc_pos_ok c) mp -> double_limit (lc_neg_ok c) mn ->
  learner_fit c df tcol tval xs = Ok out -> In l out -> members l = st ++ x :: rest -> (Z.of_nat (df_n df * length st) <= 2 ^ 1074)%Z ->
  (mp = 0%R -> forall y i, In y st -> i < df_n df -> bit (c_pos x) i = true -> bit (c_pos y) i = false) /\
  (mn = 0%R -> forall y i, In y st -> i < df_n df -> bit (c_neg x) i = true -> bit (c_neg y) i = false).
Proof.
  intros G c mp mn df tcol tval xs out l st x rest HI Hc Hp Hn E Il Em Hsz.
  destruct (only_zero_disjoint c df tcol tval xs out l st x rest HI Hc E Il Em) as [P N]. split; intros ->; [apply P|apply N]; intros a b L B H;
  [apply Hp in H|apply Hn in H]; apply (tiny a b); auto; lia.
Qed.
(** Without the rounding the claim is false of the code: with the limit 0.3 a factor of exactly 3/10 is admitted, although the
    double 0.3 is below 3/10. *)
Theorem C42_exact_limit_refuted : exists (limit : R) (f : Q), b64 limit = limit /\ (b64 (Q2R f) <= limit)%R /\ (limit < Q2R f)%R /\ f = (3 # 10).
Proof.
  exists (IZR 5404319552844595 * bpow radix2 (-54))%R, (3 # 10). 
  assert (B : bpow radix2 (-54) = (/ 18014398509481984)%R) by reflexivity.
  assert (Q3 : Q2R (3 # 10) = (3 / 10)%R) by (unfold Q2R; cbn; Lra.lra).
  split; [apply b64_scaled; cbn; lia|]. split; [|split; [|reflexivity]].
  - rewrite Q3. unfold b64, round, scaled_mantissa, cexp. rewrite (mag_unique _ _ (-1)).
    2: { rewrite Rabs_pos_eq by Lra.lra. cbn. Lra.lra. }
    change (FLT_exp (-1074) 53 (-1)) with (-54)%Z. unfold F2R. cbn [Fnum Fexp]. apply Rmult_le_compat_r; [apply bpow_ge_0|]. apply IZR_le.
    rewrite (Znearest_imp _ _ 5404319552844595); [lia|]. change (bpow radix2 (- -54)) with 18014398509481984%R. rewrite Rabs_pos_eq; Lra.lra.
  - rewrite Q3, B. Lra.lra.
Qed.

(** A case: the limit 1/2.  The doubles near 1/2 are 2^-53 apart, so the quotients up to 1/2 + 2^-54 pass. *)
Definition half_ok (f : Q) : bool := Qle_bool f (9007199254740993 # 18014398509481984).
Lemma half_limit : double_limit half_ok (1 / 2)%R.
Proof.
  intros f. unfold half_ok. rewrite Qle_bool_iff. set (m := (9007199254740993 # 18014398509481984)%Q).
  assert (Hm : Q2R m = (1 / 2 + / 18014398509481984)%R) by (unfold Q2R, m; cbn; Lra.lra).
  assert (Bh : b64 (1 / 2) = (1 / 2)%R) by (replace (1 / 2)%R with (1 * bpow radix2 (-1))%R by (cbn; Lra.lra); apply (b64_scaled 1); cbn; lia).
  assert (Bg : b64 (1 / 2 + / 9007199254740992) = (1 / 2 + / 9007199254740992)%R).
  { replace (1 / 2 + / 9007199254740992)%R with (IZR 4503599627370497 * bpow radix2 (-53))%R by (cbn; Lra.lra). apply b64_scaled; cbn; lia. }
  assert (Bm : b64 (Q2R m) = (1 / 2)%R).
  { rewrite Hm. unfold b64, round, scaled_mantissa, cexp. rewrite (mag_unique _ _ 0). 2: { rewrite Rabs_pos_eq by Lra.lra. cbn. Lra.lra. }
    change (FLT_exp (-1074) 53 0) with (-53)%Z. unfold F2R. cbn [Fnum Fexp].
    replace ((1 / 2 + / 18014398509481984) * bpow radix2 (- -53))%R with (4503599627370496 + / 2)%R by (cbn; Lra.lra).
    assert (F : Zfloor (4503599627370496 + / 2) = 4503599627370496%Z) by (apply Zfloor_imp; rewrite plus_IZR; Lra.lra).
    unfold Znearest. rewrite F, Rcompare_Eq by Lra.lra. cbn. Lra.lra. }
  split; intros H.
  - apply Qle_Rle in H. apply b64_mono in H. rewrite Bm in H. exact H.
  - apply Rle_Qle. destruct (Rle_or_lt (Q2R f) (Q2R m)) as [L|L]; auto. exfalso. rewrite Hm in L.
    destruct (Rle_or_lt (1 / 2 + / 9007199254740992) (Q2R f)) as [G|G].
    + apply b64_mono in G. rewrite Bg in G. Lra.lra.
    + destruct (round_N_pt radix2 (FLT_exp (-1074) 53) (fun z => negb (Z.even z)) (Q2R f)) as [_ N].
      specialize (N (1 / 2 + / 9007199254740992)%R). fold (b64 (Q2R f)) in N.
      assert (Fg : generic_format radix2 (FLT_exp (-1074) 53) (1 / 2 + / 9007199254740992)).
      { rewrite <- Bg. apply generic_format_round; [apply FLT.FLT_exp_valid; reflexivity|apply valid_rnd_N]. }
      apply N in Fg. rewrite (Rabs_pos_eq (1 / 2 + / 9007199254740992 - Q2R f)) in Fg by Lra.lra. rewrite (Rabs_left1 (b64 (Q2R f) - Q2R f)) in Fg by Lra.lra. Lra.lra.
Qed.
Definition half_conf : list_config Z :=
  LC DSLM Z.gtb 0%Z (fun _ _ _ _ own => Z.of_nat (fst own + snd own)) (fun _ _ _ => Ok 0%Z) (fun m d _ => (m + d)%Z)
     (fun g po no => if Qle_bool 1 po || Qle_bool 1 no then 0%Z else g) 2 5 half_ok half_ok (fun s => Z.of_nat (String.length s)).
Example C42_double_nonvacuous : exists out l x y, learner_input half_conf six "class"%string six_cands /\
  double_limit (lc_pos_ok half_conf) (1 / 2)%R /\ double_limit (lc_neg_ok half_conf) (1 / 2)%R /\
  learner_fit half_conf six "class"%string "p"%string six_cands = Ok out /\ In l out /\ members l = [x; y] /\
  c_group x = gx [("b", "w")]%string /\ c_group y = gx [("b", "u")]%string /\ (overlap_pos six [x] y == 0)%Q.
Proof.
  do 4 eexists. split; [exact (six_input DSLM 2%Z 5%Z 0%Q 0%Q)|]. split; [exact half_limit|]. split; [exact half_limit|]. split; [vm_compute; reflexivity|]. split; [left; reflexivity|]. split; [vm_compute; reflexivity|]. repeat split; vm_compute; reflexivity.
Qed.
Print Assumptions C42_double. Print Assumptions C42_double_zero. Print Assumptions C42_exact_limit_refuted.
