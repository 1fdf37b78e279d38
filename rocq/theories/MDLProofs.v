(** Proofs for C51. *)
From Verif Require Import MDLSpec AbelProofs.
From Coq Require Import Reals Lra Lia Arith List FunctionalExtensionality Permutation.
Import ListNotations.
Open Scope R_scope.

(** * Sequences with convolution *)
Definition seqR := nat -> R.
Definition shift (f : seqR) : seqR := fun n => f (S n).
Fixpoint cv (f g : seqR) (n : nat) : R :=
  match n with
  | O => f 0%nat * g 0%nat
  | S m => f 0%nat * g (S m) + cv (shift f) g m
  end.
Definition plus_s (f g : seqR) : seqR := fun n => f n + g n.
Definition opp_s (f : seqR) : seqR := fun n => - f n.
Definition minus_s (f g : seqR) : seqR := fun n => f n - g n.
Definition scale (c : R) (f : seqR) : seqR := fun n => c * f n.
Definition zero_s : seqR := fun _ => 0.
Definition one_s : seqR := fun n => match n with O => 1 | S _ => 0 end.
Definition mul_s (f g : seqR) : seqR := cv f g.

Lemma cv_plus_l : forall n f g h, cv (plus_s f g) h n = cv f h n + cv g h n.
Proof.
  induction n as [|n IH]; intros f g h; cbn [cv]; [unfold plus_s; ring|]. change (shift (plus_s f g)) with (plus_s (shift f) (shift g)). rewrite IH. unfold plus_s. ring.
Qed.
Lemma cv_scale_l : forall n c f h, cv (scale c f) h n = c * cv f h n.
Proof.
  induction n as [|n IH]; intros c f h; cbn [cv]; [unfold scale; ring|]. change (shift (scale c f)) with (scale c (shift f)). rewrite IH. unfold scale. ring.
Qed.
Lemma cv_shift : forall f g, shift (mul_s f g) = plus_s (scale (f 0%nat) (shift g)) (mul_s (shift f) g).
Proof. intros. apply functional_extensionality. intros n. reflexivity. Qed.
Lemma cv_assoc : forall n f g h, cv (mul_s f g) h n = cv f (mul_s g h) n.
Proof.
  induction n as [|n IH]; intros f g h; [cbn; ring|].
  change (cv (mul_s f g) h (S n)) with (f 0%nat * g 0%nat * h (S n) + cv (shift (mul_s f g)) h n).
  change (cv f (mul_s g h) (S n)) with (f 0%nat * (g 0%nat * h (S n) + cv (shift g) h n) + cv (shift f) (mul_s g h) n).
  rewrite cv_shift, cv_plus_l, cv_scale_l, IH. ring.
Qed.
Lemma cv_last : forall n f g, cv f g (S n) = cv f (shift g) n + f (S n) * g 0%nat.
Proof.
  induction n as [|n IH]; intros f g; [cbn; unfold shift; ring|].
  change (cv f g (S (S n))) with (f 0%nat * g (S (S n)) + cv (shift f) g (S n)). rewrite IH. cbn [cv]. unfold shift. ring.
Qed.
Lemma cv_comm : forall n f g, cv f g n = cv g f n.
Proof. induction n as [|n IH]; intros f g; [cbn; ring|]. rewrite (cv_last n g f). cbn [cv]. rewrite (IH (shift f) g). ring. Qed.
Lemma cv_zero : forall n g, cv zero_s g n = 0.
Proof. induction n as [|n IH]; intros g; cbn [cv]; [unfold zero_s; ring|]. change (shift zero_s) with zero_s. rewrite IH. unfold zero_s. ring. Qed.
Lemma cv_one : forall n g, cv one_s g n = g n.
Proof. destruct n as [|n]; intros g; cbn [cv one_s]; [ring|]. change (shift one_s) with zero_s. rewrite cv_zero. ring. Qed.
Lemma seq_ring : ring_theory zero_s one_s plus_s mul_s minus_s opp_s eq.
Proof.
  constructor; intros; apply functional_extensionality; intros n; unfold plus_s, mul_s, minus_s, opp_s, zero_s in *; try ring.
  - apply cv_one.
  - apply cv_comm.
  - symmetry. apply cv_assoc.
  - apply cv_plus_l.
Qed.
Add Ring seqring : seq_ring.

Lemma cv_sum : forall n f g, cv f g n = sum_f_R0 (fun k => f k * g (n - k)%nat) n.
Proof.
  induction n as [|n IH]; intros f g; [reflexivity|]. rewrite sum_shift. cbn [cv]. rewrite Nat.sub_0_r, IH. reflexivity.
Qed.
(** The derivation. *)
Definition D (f : seqR) : seqR := fun n => INR n * f n.
Lemma D_mul : forall f g, D (mul_s f g) = plus_s (mul_s (D f) g) (mul_s f (D g)).
Proof.
  intros f g. apply functional_extensionality. intros n. unfold D, plus_s, mul_s. rewrite !cv_sum, <- sum_scale, <- sum_plus'. apply sum_eq'. intros k Hk.
  rewrite minus_INR by auto. ring.
Qed.
Lemma D_plus : forall f g, D (plus_s f g) = plus_s (D f) (D g).
Proof. intros. apply functional_extensionality. intros n. unfold D, plus_s. ring. Qed.
Lemma D_one : D one_s = zero_s.
Proof. apply functional_extensionality. intros [|n]; unfold D, one_s, zero_s; [cbn; ring|ring]. Qed.

(** * The generating function of the complexity *)
Definition bs : seqR := fun n => INR n ^ n / INR (fact n).
Definition ts : seqR := fun n => match n with O => 0 | S m => INR n ^ m / INR (fact n) end.
Lemma bs_ts : bs = plus_s one_s (mul_s ts bs).
Proof.
  apply functional_extensionality. intros [|m]; unfold plus_s, mul_s.
  - cbn. unfold bs. cbn. field.
  - rewrite cv_sum, sum_shift. cbn [ts one_s]. rewrite Rmult_0_l, !Rplus_0_l. assert (A := abel_E m 0). unfold Esum in A. rewrite Rplus_0_l in A.
    unfold bs at 1. replace (INR (S m) ^ S m) with (INR (S m) * INR (S m) ^ m) by reflexivity. rewrite <- A. unfold Rdiv. rewrite Rmult_comm, <- sum_scale. apply sum_eq'. intros i Hi.
    unfold ts, bs, C. replace (S m - S i)%nat with (m - i)%nat by lia. rewrite Rplus_0_l. field. repeat split; apply fact_pos.
Qed.
Lemma D_ts : D ts = minus_s bs one_s.
Proof.
  apply functional_extensionality. intros [|m]; unfold D, minus_s, ts, bs, one_s; [cbn; field|]. cbn [pow]. field. apply fact_pos.
Qed.
Lemma D_bs : D bs = minus_s (mul_s bs (mul_s bs bs)) (mul_s bs bs).
Proof.
  assert (E := bs_ts). assert (E1 : one_s = minus_s bs (mul_s ts bs)) by (rewrite E at 1; ring).
  assert (F : D bs = plus_s (mul_s (minus_s bs one_s) bs) (mul_s ts (D bs))).
  { rewrite E at 1. rewrite D_plus, D_one, D_mul, D_ts. ring. }
  assert (G : mul_s (minus_s one_s ts) (D bs) = mul_s (minus_s bs one_s) bs) by (rewrite F at 1; ring_simplify; rewrite F at 2; ring).
  assert (H : mul_s (minus_s one_s ts) bs = one_s) by (rewrite E1 at 2; ring).
  replace (D bs) with (mul_s (mul_s (minus_s one_s ts) bs) (D bs)) by (rewrite H; ring).
  replace (mul_s (mul_s (minus_s one_s ts) bs) (D bs)) with (mul_s bs (mul_s (minus_s one_s ts) (D bs))) by ring. rewrite G. ring.
Qed.
Fixpoint powers (L : nat) : seqR := match L with O => one_s | S l => mul_s bs (powers l) end.
Lemma scale_plus1 : forall n f, plus_s f (scale (INR n) f) = scale (INR (S n)) f.
Proof. intros. apply functional_extensionality. intros k. unfold plus_s, scale. rewrite S_INR. ring. Qed.
Lemma scale_mul : forall c f g, mul_s f (scale c g) = scale c (mul_s f g).
Proof. intros. replace (mul_s f (scale c g)) with (mul_s (scale c g) f) by ring. replace (mul_s f g) with (mul_s g f) by ring. apply functional_extensionality. intros n. apply cv_scale_l. Qed.
Lemma D_powers : forall L, D (powers L) = scale (INR L) (minus_s (powers (S (S L))) (powers (S L))).
Proof.
  induction L as [|L IH].
  - cbn [powers]. rewrite D_one. apply functional_extensionality. intros n. unfold scale, zero_s. cbn. ring.
  - change (powers (S L)) with (mul_s bs (powers L)) at 1. rewrite D_mul, IH, D_bs, scale_mul, <- scale_plus1. f_equal; [cbn [powers]; ring|]. f_equal. cbn [powers]. ring.
Qed.
(** The recurrence. *)
Lemma powers_recurrence : forall L n, (1 <= L)%nat -> powers (S (S L)) n = powers (S L) n + INR n / INR L * powers L n.
Proof.
  intros L n HL. assert (H : D (powers L) n = scale (INR L) (minus_s (powers (S (S L))) (powers (S L))) n) by (now rewrite D_powers).
  unfold D, scale, minus_s in H. assert (P : INR L <> 0) by (apply not_0_INR; lia).
  apply Rmult_eq_reg_l with (INR L); auto. rewrite Rmult_plus_distr_l. unfold Rdiv.
  replace (INR L * (INR n * / INR L * powers L n)) with (INR n * powers L n) by (field; auto). rewrite H. ring.
Qed.
(** The coefficients of two categories. *)
Lemma powers_two : forall n, powers 2 n * INR (fact n) = sum_f_R0 (fun k => C n k * INR k ^ k * INR (n - k) ^ (n - k)) n.
Proof.
  intros n. cbn [powers]. replace (mul_s bs (mul_s bs one_s)) with (mul_s bs bs) by ring. unfold mul_s. rewrite cv_sum, Rmult_comm, <- sum_scale. apply sum_eq'. intros k Hk.
  unfold bs, C. field. split; apply fact_pos.
Qed.

(** * Complexity *)
Fixpoint comps (L n : nat) : list (list nat) :=
  match L with
  | O => match n with O => [[]] | S _ => [] end
  | S l => flat_map (fun k => map (cons k) (comps l (n - k))) (seq 0 (S n))
  end.
Lemma comps_spec : forall L n h, In h (comps L n) <-> length h = L /\ list_sum h = n.
Proof.
  induction L as [|L IH]; intros n h; cbn [comps].
  - destruct n as [|n]; cbn; split.
    + intros [<-|[]]. auto.
    + intros [A _]. destruct h; [auto|discriminate].
    + intros [].
    + intros [A B]. destruct h; discriminate.
  - rewrite in_flat_map. split.
    + intros (k & Ik & I). apply in_map_iff in I. destruct I as (h' & <- & I). apply IH in I. apply in_seq in Ik. destruct I as [I1 I2]. cbn [length]. change (list_sum (k :: h')) with (k + list_sum h')%nat. split; lia.
    + intros [A B]. destruct h as [|k h]; [discriminate|]. cbn [length] in A. change (list_sum (k :: h)) with (k + list_sum h)%nat in B. exists k. split; [apply in_seq; lia|]. apply in_map, IH. split; [lia|lia].
Qed.
Lemma nodup_app : forall {A} (xs ys : list A), NoDup xs -> NoDup ys -> (forall x, In x xs -> ~ In x ys) -> NoDup (xs ++ ys).
Proof.
  intros A. induction xs as [|x xs IH]; intros ys Hx Hy Hd; cbn; [auto|]. inversion Hx; subst. constructor.
  - intros I. apply in_app_or in I. destruct I as [I|I]; [auto|]. exact (Hd x (or_introl eq_refl) I).
  - apply IH; auto. intros y Iy. apply Hd. now right.
Qed.
Lemma comps_nodup : forall L n, NoDup (comps L n).
Proof.
  induction L as [|L IH]; intros n; cbn [comps].
  - destruct n; repeat constructor; cbn; tauto.
  - generalize (seq_NoDup (S n) 0). generalize (seq 0 (S n)). induction l as [|k l IHl]; intros N; cbn [flat_map]; [constructor|]. inversion N; subst. apply nodup_app; auto.
    + apply FinFun.Injective_map_NoDup; [intros x y E; now injection E|apply IH].
    + intros x Ix Iy. apply in_map_iff in Ix. destruct Ix as (h & <- & _). apply in_flat_map in Iy. destruct Iy as (k' & Ik & Iy). apply in_map_iff in Iy.
      destruct Iy as (h' & Eh & _). injection Eh as -> _. contradiction.
Qed.
Lemma rsum_app : forall xs ys, rsum (xs ++ ys) = rsum xs + rsum ys.
Proof. unfold rsum. induction xs as [|x xs IH]; intros; cbn; [ring|]. rewrite IH. ring. Qed.
Lemma rsum_seq : forall f n, sum_f_R0 f n = rsum (map f (seq 0 (S n))).
Proof.
  intros f n. induction n as [|n IH]; [cbn; ring|]. cbn [sum_f_R0]. rewrite IH. rewrite (seq_S (S n) 0), map_app, rsum_app. cbn. ring.
Qed.
Lemma rsum_scale : forall c l, rsum (map (Rmult c) l) = c * rsum l.
Proof. unfold rsum. induction l as [|x l IH]; cbn; [ring|]. rewrite IH. ring. Qed.
Lemma powers_comps : forall L n, rsum (map (fun h => rprod (map bs h)) (comps L n)) = powers L n.
Proof.
  induction L as [|L IH]; intros n; cbn [comps powers].
  - destruct n; cbn; ring.
  - unfold mul_s. rewrite cv_sum, rsum_seq. generalize (seq 0 (S n)). induction l as [|k l IHl]; [reflexivity|]. cbn [flat_map map]. rewrite map_app, rsum_app, IHl. cbn. f_equal.
    rewrite <- IH, <- rsum_scale, !map_map. reflexivity.
Qed.
Lemma term_bs : forall n h, (1 <= n)%nat -> list_sum h = n -> complexity_term n h = INR (fact n) / INR n ^ n * rprod (map bs h).
Proof.
  intros n h Hn Hs. assert (P : INR n <> 0) by (apply not_0_INR; lia). unfold complexity_term.
  assert (E : rprod (map (fun k => (INR k / INR n) ^ k) h) / rprod (map (fun k => INR (fact k)) h) = rprod (map bs h) / INR n ^ list_sum h).
  { clear Hs. revert h. induction h as [|k h IH]; [cbn; field|]. cbn [map list_sum fold_right]. change (fold_right Nat.add 0%nat h) with (list_sum h). rewrite pow_add.
    assert (Q1 : rprod (map (fun k => INR (fact k)) h) <> 0). { clear. induction h as [|k h IH]; cbn; [lra|]. apply Rmult_integral_contrapositive_currified; auto using fact_pos. }
    cbn [rprod fold_right] in *. change (fold_right Rmult 1) with rprod in *.
    replace ((INR k / INR n) ^ k * rprod (map (fun k0 => (INR k0 / INR n) ^ k0) h) / (INR (fact k) * rprod (map (fun k0 => INR (fact k0)) h)))
      with ((INR k / INR n) ^ k / INR (fact k) * (rprod (map (fun k0 => (INR k0 / INR n) ^ k0) h) / rprod (map (fun k0 => INR (fact k0)) h))) by (field; auto using fact_pos).
    rewrite IH. unfold bs at 2. replace ((INR k / INR n) ^ k) with (INR k ^ k / INR n ^ k) by (unfold Rdiv; rewrite Rpow_mult_distr, pow_inv; reflexivity). field. repeat split; auto using fact_pos, pow_nonzero. }
  replace (INR (fact n) / rprod (map (fun k => INR (fact k)) h) * rprod (map (fun k => (INR k / INR n) ^ k) h))
    with (INR (fact n) * (rprod (map (fun k => (INR k / INR n) ^ k) h) / rprod (map (fun k => INR (fact k)) h))).
  - rewrite E, Hs. field. apply pow_nonzero. auto.
  - field. clear. induction h as [|k h IH]; cbn; [lra|]. apply Rmult_integral_contrapositive_currified; auto using fact_pos.
Qed.
(** The complexity in terms of the coefficients. *)
Definition cpx (L n : nat) : R := INR (fact n) / INR n ^ n * powers L n.
Lemma complexity_cpx : forall L n c, (1 <= n)%nat -> is_complexity L n c <-> c = cpx L n.
Proof.
  intros L n c Hn. assert (K : forall hs, (forall h, In h hs -> list_sum h = n) -> rsum (map (complexity_term n) hs) = INR (fact n) / INR n ^ n * rsum (map (fun h => rprod (map bs h)) hs)).
  { intros hs H. rewrite <- rsum_scale, map_map. f_equal. apply map_ext_in. intros h I. apply term_bs; auto. }
  split.
  - intros (hs & N & S1 & ->). rewrite K by (intros h I; now apply S1). unfold cpx. f_equal. rewrite <- powers_comps.
    assert (P : Permutation hs (comps L n)). { apply NoDup_Permutation; auto using comps_nodup. intros h. now rewrite S1, comps_spec. }
    clear -P. apply (Permutation_map (fun h => rprod (map bs h))) in P. induction P; cbn; unfold rsum in *; lra.
  - intros ->. exists (comps L n). split; [apply comps_nodup|]. split; [apply comps_spec|]. rewrite K by (intros h I; now apply comps_spec in I). now rewrite powers_comps.
Qed.
Lemma cpx_one : forall n, (1 <= n)%nat -> cpx 1 n = 1.
Proof.
  intros n Hn. unfold cpx. cbn [powers]. replace (mul_s bs one_s) with bs by ring. unfold bs. field. split; [apply fact_pos|]. apply pow_nonzero, not_0_INR. lia.
Qed.
Lemma cpx_recurrence : forall L n, (1 <= L)%nat -> cpx (S (S L)) n = cpx (S L) n + INR n * cpx L n / INR L.
Proof. intros L n HL. unfold cpx. rewrite powers_recurrence by auto. unfold Rdiv. ring. Qed.
