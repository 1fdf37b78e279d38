(** Identities of Abel for binomial sums, over the reals. *)
From Coq Require Import Reals Lra Lia Arith FunctionalExtensionality.
Open Scope R_scope.

(** * Sums *)
Lemma sum_eq' : forall f g n, (forall i, (i <= n)%nat -> f i = g i) -> sum_f_R0 f n = sum_f_R0 g n.
Proof. intros. apply sum_eq. auto. Qed.
Lemma sum_shift : forall f n, sum_f_R0 f (S n) = f 0%nat + sum_f_R0 (fun i => f (S i)) n.
Proof. intros. rewrite decomp_sum by lia. reflexivity. Qed.
Lemma sum_rev : forall f n, sum_f_R0 (fun k => f (n - k)%nat) n = sum_f_R0 f n.
Proof.
  intros f n. revert f. induction n as [|n IH]; intros f; [reflexivity|]. rewrite sum_shift. rewrite Nat.sub_0_r.
  rewrite (sum_eq' _ (fun k => f (n - k)%nat)); [|intros; f_equal]. rewrite IH. cbn [sum_f_R0]. ring.
Qed.
Lemma sum_zero : forall n, sum_f_R0 (fun _ => 0) n = 0.
Proof. induction n as [|n IH]; cbn; lra. Qed.
Lemma sum_scale : forall c f n, sum_f_R0 (fun k => c * f k) n = c * sum_f_R0 f n.
Proof. intros. rewrite scal_sum. apply sum_eq'. intros. ring. Qed.
Lemma sum_plus' : forall f g n, sum_f_R0 (fun k => f k + g k) n = sum_f_R0 f n + sum_f_R0 g n.
Proof. intros. apply plus_sum. Qed.
(** * Derivatives *)
Lemma sum_derivable : forall (f f' : nat -> R -> R) x n, (forall k, (k <= n)%nat -> derivable_pt_lim (f k) x (f' k x)) ->
  derivable_pt_lim (fun y => sum_f_R0 (fun k => f k y) n) x (sum_f_R0 (fun k => f' k x) n).
Proof.
  intros f f' x. induction n as [|n IH]; intros H; cbn [sum_f_R0]; [apply H; lia|].
  apply (derivable_pt_lim_plus (fun y => sum_f_R0 (fun k => f k y) n) (f (S n))); [apply IH; intros; apply H; lia|apply H; lia].
Qed.
Lemma zero_derivative : forall f, (forall x, derivable_pt_lim f x 0) -> forall x y, f x = f y.
Proof.
  intros f H. assert (pr : derivable f) by (intros x; exists 0; apply H).
  apply (null_derivative_1 f pr). intros x. rewrite derive_pt_eq. apply H.
Qed.
Lemma pow_derivable : forall a n x, derivable_pt_lim (fun y => (y + a) ^ n) x (INR n * (x + a) ^ pred n).
Proof.
  intros a n x. assert (H := derivable_pt_lim_comp (fun y => y + a) (fun z => z ^ n) x 1 (INR n * (x + a) ^ pred n)).
  unfold comp in H. rewrite Rmult_1_r in H. apply H; [|apply derivable_pt_lim_pow].
  replace 1 with (1 + 0) by ring. apply (derivable_pt_lim_plus id (fct_cte a)); [apply derivable_pt_lim_id|apply derivable_pt_lim_const].
Qed.
Lemma scal_derivable : forall c f x l, derivable_pt_lim f x l -> derivable_pt_lim (fun y => c * f y) x (c * l).
Proof. intros c f x l H. apply (derivable_pt_lim_scal f c x l H). Qed.
(** * Binomial coefficients *)
Lemma fact_pos : forall n, INR (fact n) <> 0.
Proof. intros. apply INR_fact_neq_0. Qed.
Lemma fact_S : forall n, INR (fact (S n)) = INR (S n) * INR (fact n).
Proof. intros. rewrite <- mult_INR. reflexivity. Qed.
Lemma S_pos : forall n, INR (S n) <> 0.
Proof. intros. apply not_0_INR. lia. Qed.
Lemma C_absorb : forall m j, (j <= m)%nat -> C (S m) (S j) * INR (S j) = INR (S m) * C m j.
Proof.
  intros m j H. unfold C. cbn [Nat.sub]. rewrite (fact_S m), (fact_S j). field. repeat split; auto using fact_pos, S_pos.
Qed.
Lemma C_absorb2 : forall m j, (j < m)%nat -> C m j * INR (m - j) = INR m * C (pred m) j.
Proof.
  intros m j H. destruct m as [|m]; [lia|]. unfold C. cbn [pred]. replace (S m - j)%nat with (S (m - j)) by lia. rewrite (fact_S m), (fact_S (m - j)).
  field. repeat split; auto using fact_pos, S_pos.
Qed.
Lemma C_0 : forall n, C n 0 = 1.
Proof. intros. unfold C. rewrite Nat.sub_0_r. cbn. field. apply fact_pos. Qed.
Lemma C_n : forall n, C n n = 1.
Proof. intros. unfold C. rewrite Nat.sub_diag. cbn. field. apply fact_pos. Qed.
(** * Finite differences *)
Definition diff (n : nat) (f : R -> R) (x : R) : R := sum_f_R0 (fun k => C n k * (-1) ^ (n - k) * f (x + INR k)) n.
Lemma diff_S : forall n f x, diff (S n) f x = diff n f (x + 1) - diff n f x.
Proof.
  intros n f x. unfold diff. rewrite sum_shift. rewrite Nat.sub_0_r, C_0.
  assert (E : sum_f_R0 (fun i => C (S n) (S i) * (-1) ^ (S n - S i) * f (x + INR (S i))) n =
    sum_f_R0 (fun i => C n i * (-1) ^ (n - i) * f (x + 1 + INR i)) n +
    sum_f_R0 (fun i => (if (i <? n)%nat then C n (S i) else 0) * (-1) ^ (n - i) * f (x + INR (S i))) n).
  { rewrite <- sum_plus'. apply sum_eq'. intros i Hi. replace (S n - S i)%nat with (n - i)%nat by lia. replace (x + INR (S i)) with (x + 1 + INR i) by (rewrite S_INR; ring).
    destruct (i <? n)%nat eqn:L.
    - apply Nat.ltb_lt in L. rewrite <- (pascal n i L). ring.
    - apply Nat.ltb_ge in L. assert (i = n) by lia. subst i. rewrite !C_n. ring. }
  rewrite E. clear E. destruct n as [|n].
  - cbn [sum_f_R0 pow Nat.sub Nat.ltb Nat.leb INR]. rewrite C_0. replace (x + 1 + 0) with (x + 1) by ring. replace (x + 0) with x by ring. ring.
  - rewrite (sum_shift (fun k => C (S n) k * (-1) ^ (S n - k) * f (x + INR k))). rewrite C_0, Nat.sub_0_r.
    cbn [sum_f_R0 Nat.sub]. rewrite Nat.ltb_irrefl.
    rewrite (sum_eq' (fun i => (if (i <? S n)%nat then C (S n) (S i) else 0) * (-1) ^ (match i with 0%nat => S n | S l => (n - l)%nat end) * f (x + INR (S i))) (fun i => - (C (S n) (S i) * (-1) ^ (n - i) * f (x + INR (S i))))).
    + rewrite (sum_eq' (fun i => - (C (S n) (S i) * (-1) ^ (n - i) * f (x + INR (S i)))) (fun i => -1 * (C (S n) (S i) * (-1) ^ (n - i) * f (x + INR (S i))))) by (intros; ring).
      rewrite sum_scale. cbn [pow]. change (INR 0) with 0. replace (x + 0) with x by ring. ring.
    + intros i Hi. replace (i <? S n)%nat with true by (symmetry; apply Nat.ltb_lt; lia). replace (match i with 0%nat => S n | S l => (n - l)%nat end) with (S (n - i)) by (destruct i; lia). cbn [pow]. ring.
Qed.
Lemma diff_derivable : forall n m x, derivable_pt_lim (diff n (fun t => t ^ m)) x (INR m * diff n (fun t => t ^ pred m) x).
Proof.
  intros n m x. unfold diff. rewrite <- sum_scale.
  replace (sum_f_R0 (fun k => INR m * (C n k * (-1) ^ (n - k) * (x + INR k) ^ pred m)) n) with (sum_f_R0 (fun k => (fun k y => C n k * (-1) ^ (n - k) * (INR m * (y + INR k) ^ pred m)) k x) n) by (apply sum_eq'; intros; ring).
  apply (sum_derivable (fun k y => C n k * (-1) ^ (n - k) * (y + INR k) ^ m) (fun k y => C n k * (-1) ^ (n - k) * (INR m * (y + INR k) ^ pred m))). intros k Hk. apply scal_derivable, pow_derivable.
Qed.
Lemma diff_pow : forall n, (forall m x, (m < n)%nat -> diff n (fun t => t ^ m) x = 0) /\ forall x, diff n (fun t => t ^ n) x = INR (fact n).
Proof.
  induction n as [|n [IH1 IH2]].
  - split; [intros; lia|]. intros x. unfold diff. cbn. rewrite C_0. ring.
  - split.
    + intros m x Hm. rewrite diff_S. destruct (Nat.eq_dec m n) as [->|Ne]; [rewrite !IH2; ring|rewrite !IH1 by lia; ring].
    + intros x. rewrite diff_S.
      assert (K : forall y z, diff n (fun t => t ^ S n) y - INR (fact (S n)) * y = diff n (fun t => t ^ S n) z - INR (fact (S n)) * z).
      { apply (zero_derivative (fun y => diff n (fun t => t ^ S n) y - INR (fact (S n)) * y)). intros y.
        replace 0 with (INR (S n) * diff n (fun t => t ^ n) y - INR (fact (S n)) * 1) by (rewrite IH2, fact_S; ring).
        apply (derivable_pt_lim_minus (diff n (fun t => t ^ S n)) (fun y => INR (fact (S n)) * y)); [apply (diff_derivable n (S n))|apply scal_derivable, derivable_pt_lim_id]. }
      specialize (K (x + 1) x). lra.
Qed.
(** * Abel's identities *)
Definition Fsum (n : nat) (x y : R) : R := sum_f_R0 (fun k => C n k * (x + INR k) ^ k * (y + INR (n - k)) ^ (n - k)) n.
Definition gsum (n : nat) (s : R) : R := sum_f_R0 (fun j => INR (fact n) / INR (fact j) * (s + INR n) ^ j) n.
Lemma Fsum_derivable : forall m x y, derivable_pt_lim (fun x => Fsum (S m) x y) x (INR (S m) * Fsum m (x + 1) y).
Proof.
  intros m x y. unfold Fsum. rewrite <- sum_scale.
  replace (sum_f_R0 (fun k => INR (S m) * (C m k * (x + 1 + INR k) ^ k * (y + INR (m - k)) ^ (m - k))) m)
    with (sum_f_R0 (fun k => (fun k x => C (S m) k * (y + INR (S m - k)) ^ (S m - k) * (INR k * (x + INR k) ^ pred k)) k x) (S m)).
  - replace (fun x => sum_f_R0 (fun k => C (S m) k * (x + INR k) ^ k * (y + INR (S m - k)) ^ (S m - k)) (S m))
      with (fun x => sum_f_R0 (fun k => (fun k x => C (S m) k * (y + INR (S m - k)) ^ (S m - k) * (x + INR k) ^ k) k x) (S m)).
    + apply (sum_derivable (fun k x => C (S m) k * (y + INR (S m - k)) ^ (S m - k) * (x + INR k) ^ k) (fun k x => C (S m) k * (y + INR (S m - k)) ^ (S m - k) * (INR k * (x + INR k) ^ pred k))). intros k Hk. apply scal_derivable, pow_derivable.
    + apply functional_extensionality. intros z. apply sum_eq'. intros. ring.
  - rewrite sum_shift. change (INR 0) with 0. cbn [pred]. rewrite Rmult_0_l, Rmult_0_r, Rplus_0_l. apply sum_eq'. intros i Hi. replace (S m - S i)%nat with (m - i)%nat by lia.
    replace (x + INR (S i)) with (x + 1 + INR i) by (rewrite S_INR; ring). assert (A := C_absorb m i Hi). cbn [Nat.pred].
    replace (C (S m) (S i) * (y + INR (m - i)) ^ (m - i) * (INR (S i) * (x + 1 + INR i) ^ i)) with ((C (S m) (S i) * INR (S i)) * (x + 1 + INR i) ^ i * (y + INR (m - i)) ^ (m - i)) by ring.
    rewrite A. ring.
Qed.
Lemma gsum_derivable : forall m s, derivable_pt_lim (fun s => gsum (S m) s) s (INR (S m) * gsum m (s + 1)).
Proof.
  intros m s. unfold gsum. rewrite <- sum_scale.
  replace (sum_f_R0 (fun k => INR (S m) * (INR (fact m) / INR (fact k) * (s + 1 + INR m) ^ k)) m)
    with (sum_f_R0 (fun k => (fun k s => INR (fact (S m)) / INR (fact k) * (INR k * (s + INR (S m)) ^ pred k)) k s) (S m)).
  - apply (sum_derivable (fun k s => INR (fact (S m)) / INR (fact k) * (s + INR (S m)) ^ k) (fun k s => INR (fact (S m)) / INR (fact k) * (INR k * (s + INR (S m)) ^ pred k))). intros k Hk. apply scal_derivable, pow_derivable.
  - rewrite sum_shift. change (INR 0) with 0. cbn [pred]. rewrite Rmult_0_l, Rmult_0_r, Rplus_0_l. apply sum_eq'. intros i Hi. replace (s + INR (S m)) with (s + 1 + INR m) by (rewrite S_INR; ring).
    rewrite (fact_S m), (fact_S i). cbn [Nat.pred]. field. split; auto using fact_pos, S_pos.
Qed.
Lemma gsum_start : forall n, gsum n (- INR n) = INR (fact n).
Proof.
  intros [|n]; unfold gsum; [cbn; field|]. rewrite sum_shift. cbn [fact INR pow].
  rewrite (sum_eq' _ (fun _ => 0)); [rewrite sum_zero; cbn [INR]; field|]. intros i _. replace (- INR (S n) + INR (S n)) with 0 by ring. cbn [pow]. ring.
Qed.
Theorem abel_F : forall n x y, Fsum n x y = gsum n (x + y).
Proof.
  induction n as [|m IH]; intros x y.
  - unfold Fsum, gsum. cbn. rewrite C_0. field.
  - assert (K : forall u v, Fsum (S m) u y - gsum (S m) (u + y) = Fsum (S m) v y - gsum (S m) (v + y)).
    { apply (zero_derivative (fun u => Fsum (S m) u y - gsum (S m) (u + y))). intros u.
      replace 0 with (INR (S m) * Fsum m (u + 1) y - INR (S m) * gsum m (u + y + 1) * 1) by (rewrite IH; replace (u + 1 + y) with (u + y + 1) by ring; ring).
      apply (derivable_pt_lim_minus (fun u => Fsum (S m) u y) (fun u => gsum (S m) (u + y))); [apply Fsum_derivable|].
      apply (derivable_pt_lim_comp (fun u => u + y) (gsum (S m)) u 1); [|apply gsum_derivable].
      replace 1 with (1 + 0) by ring. apply (derivable_pt_lim_plus id (fct_cte y)); [apply derivable_pt_lim_id|apply derivable_pt_lim_const]. }
    specialize (K x (- y - INR (S m))). replace (- y - INR (S m) + y) with (- INR (S m)) in K by ring. rewrite gsum_start in K.
    assert (Z : Fsum (S m) (- y - INR (S m)) y = INR (fact (S m))).
    { rewrite <- (proj2 (diff_pow (S m)) (- y - INR (S m))). unfold Fsum, diff. apply sum_eq'. intros k Hk.
      replace (y + INR (S m - k)) with (-1 * (- y - INR (S m) + INR k)) by (rewrite minus_INR by lia; ring). rewrite Rpow_mult_distr.
      replace (C (S m) k * (- y - INR (S m) + INR k) ^ k * ((-1) ^ (S m - k) * (- y - INR (S m) + INR k) ^ (S m - k)))
        with (C (S m) k * (-1) ^ (S m - k) * ((- y - INR (S m) + INR k) ^ k * (- y - INR (S m) + INR k) ^ (S m - k))) by ring.
      rewrite <- pow_add. replace (k + (S m - k))%nat with (S m) by lia. reflexivity. }
    rewrite Z in K. lra.
Qed.
Definition Esum (m : nat) (y : R) : R := sum_f_R0 (fun j => C (S m) (S j) * INR (S j) ^ j * (y + INR (m - j)) ^ (m - j)) m.
Theorem abel_E : forall m y, Esum m y = INR (S m) * (y + INR (S m)) ^ m.
Proof.
  induction m as [|p IH]; intros y.
  - unfold Esum. cbn. rewrite C_n. ring.
  - assert (K : forall u v, Esum (S p) u - INR (S (S p)) * (u + INR (S (S p))) ^ S p = Esum (S p) v - INR (S (S p)) * (v + INR (S (S p))) ^ S p).
    { apply (zero_derivative (fun u => Esum (S p) u - INR (S (S p)) * (u + INR (S (S p))) ^ S p)). intros u.
      replace 0 with (INR (S (S p)) * Esum p (u + 1) - INR (S (S p)) * (INR (S p) * (u + INR (S (S p))) ^ p))
        by (rewrite IH; replace (u + 1 + INR (S p)) with (u + INR (S (S p))) by (rewrite (S_INR (S p)); ring); ring).
      apply (derivable_pt_lim_minus (Esum (S p)) (fun u => INR (S (S p)) * (u + INR (S (S p))) ^ S p)); [|apply scal_derivable, (pow_derivable _ (S p))].
      unfold Esum. rewrite <- sum_scale.
      replace (sum_f_R0 (fun k => INR (S (S p)) * (C (S p) (S k) * INR (S k) ^ k * (u + 1 + INR (p - k)) ^ (p - k))) p)
        with (sum_f_R0 (fun j => (fun j u => C (S (S p)) (S j) * INR (S j) ^ j * (INR (S p - j) * (u + INR (S p - j)) ^ pred (S p - j))) j u) (S p)).
      - apply (sum_derivable (fun j u => C (S (S p)) (S j) * INR (S j) ^ j * (u + INR (S p - j)) ^ (S p - j)) (fun j u => C (S (S p)) (S j) * INR (S j) ^ j * (INR (S p - j) * (u + INR (S p - j)) ^ pred (S p - j)))). intros k Hk. apply scal_derivable, pow_derivable.
      - cbn [sum_f_R0]. rewrite Nat.sub_diag. change (INR 0) with 0. cbn [pred]. rewrite Rmult_0_l, Rmult_0_r, Rplus_0_r. apply sum_eq'. intros i Hi.
        assert (A := C_absorb2 (S (S p)) (S i) ltac:(lia)). cbn [Nat.pred] in A. replace (S (S p) - S i)%nat with (S p - i)%nat in A by lia.
        replace (pred (S p - i)) with (p - i)%nat by lia. replace (u + 1 + INR (p - i)) with (u + INR (S p - i)) by (replace (S p - i)%nat with (S (p - i)) by lia; rewrite (S_INR (p - i)); ring).
        replace (C (S (S p)) (S i) * INR (S i) ^ i * (INR (S p - i) * (u + INR (S p - i)) ^ (p - i))) with ((C (S (S p)) (S i) * INR (S p - i)) * INR (S i) ^ i * (u + INR (S p - i)) ^ (p - i)) by ring.
        rewrite A. ring. }
    specialize (K y (- INR (S (S p)))). replace (- INR (S (S p)) + INR (S (S p))) with 0 in K by ring. rewrite (pow_i (S p)) in K by lia.
    assert (Z : Esum (S p) (- INR (S (S p))) = 0).
    { assert (D := proj1 (diff_pow (S (S p))) (S p) 0 ltac:(lia)). unfold diff in D. rewrite sum_shift in D. rewrite Rplus_0_l in D. change (INR 0) with 0 in D. rewrite (pow_i (S p)) in D by lia. rewrite Rmult_0_r, Rplus_0_l in D.
      rewrite <- D. unfold Esum. apply sum_eq'. intros j Hj. rewrite Rplus_0_l. replace (S (S p) - S j)%nat with (S p - j)%nat by lia.
      replace (- INR (S (S p)) + INR (S p - j)) with (-1 * INR (S j)) by (rewrite minus_INR by lia; rewrite !S_INR; ring). rewrite Rpow_mult_distr.
      replace (C (S (S p)) (S j) * INR (S j) ^ j * ((-1) ^ (S p - j) * INR (S j) ^ (S p - j))) with (C (S (S p)) (S j) * (-1) ^ (S p - j) * (INR (S j) ^ j * INR (S j) ^ (S p - j))) by ring.
      rewrite <- pow_add. replace (j + (S p - j))%nat with (S p) by lia. reflexivity. }
    rewrite Z in K. lra.
Qed.
