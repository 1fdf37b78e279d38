(** SDIGA: the local search and the main loop. *)
From Verif Require Import SDIGASpec SDIGAProofs MiningProofs SDMapProofs FPTreeProofs VerticalProofs CorePattern IDSDTop Properties_IDSD.
From Coq Require Import Lia Lqa.
Open Scope string_scope.
Open Scope list_scope.
Open Scope nat_scope.

Lemma filter_le : forall {A} (f g : A -> bool) l, (forall x, f x = true -> g x = true) -> length (filter f l) <= length (filter g l).
Proof. intros A f g l H. induction l as [|x l IH]; cbn; [lia|]. destruct (f x) eqn:E; [rewrite (H x E); cbn; lia|]. destruct (g x); cbn; lia. Qed.
(** * Removing a gene *)
Lemma set_gene_nth : forall c i x j, nth_error (set_gene i x c) j = if j =? i then option_map (fun g => (fst g, x)) (nth_error c j) else nth_error c j.
Proof.
  induction c as [|[k g] c IH]; intros i x j; cbn [set_gene].
  - destruct i, j; cbn [set_gene nth_error option_map]; match goal with |- context[?a =? ?b] => destruct (a =? b) end; reflexivity.
  - destruct i as [|i]; destruct j as [|j]; cbn [nth_error Nat.eqb]; try reflexivity. apply IH.
Qed.
Lemma set_gene_length : forall c i x, length (set_gene i x c) = length c.
Proof. induction c as [|[k g] c IH]; intros [|i] x; cbn [set_gene length]; auto. Qed.
Definition active (c : chromosome) : nat := length (filter (fun g => negb (snd g =? 0)) c).
Lemma active_le : forall c, active c <= length c.
Proof. unfold active. induction c as [|g c IH]; cbn; [lia|]. destruct (negb _); cbn; lia. Qed.
Lemma active_set : forall c i k g, nth_error c i = Some (k, g) -> g <> 0 -> S (active (set_gene i 0 c)) = active c.
Proof.
  unfold active. induction c as [|[a x] c IH]; intros i k g N Z; [destruct i; discriminate|]. destruct i as [|i]; cbn [set_gene filter snd].
  - cbn in N. injection N as <- <-. apply Nat.eqb_neq in Z. rewrite Z. reflexivity.
  - cbn in N. destruct (negb (x =? 0)); cbn [length]; rewrite <- (IH i k g) by auto; reflexivity.
Qed.
Lemma remove_sels : forall dict c i k g, NoDup (map fst dict) -> chrom_ok dict c -> nth_error c i = Some (k, g) -> g <> 0 ->
  exists v, In (Sel k EQUAL v) (sels c dict) /\ forall s, In s (sels (set_gene i 0 c) dict) <-> In s (sels c dict) /\ s <> Sel k EQUAL v.
Proof.
  intros dict c i k g ND H N Z. destruct (nth_error dict i) as [[k' vs]|] eqn:Nd.
  2:{ apply nth_error_None in Nd. rewrite <- (Forall2_len _ _ _ H) in Nd. apply nth_error_None in Nd. congruence. }
  assert (G : gene_ok (k, g) (k', vs)).
  { clear -H N Nd. revert i N Nd. induction H as [|a b c d Hab H IH]; intros [|i] N Nd; try discriminate; [cbn in *; congruence|eapply IH; eauto]. }
  destruct G as [G1 G2]. cbn [fst snd] in G1, G2. subst k'. destruct (nth_error vs (g - 1)) as [v|] eqn:Nv; [|apply nth_error_None in Nv; lia].
  exists v. assert (I0 : In (Sel k EQUAL v) (sels c dict)) by (apply sels_in; auto; exists i, k, g, vs, v; auto). split; auto.
  assert (Hc' : chrom_ok dict (set_gene i 0 c)) by (eapply set_gene_ok; eauto; lia). intros s. rewrite (sels_in _ _ _ Hc'), (sels_in _ _ _ H). split.
  - intros (j & a & x & ws & w & Nj & Dj & Zx & Nw & ->). rewrite set_gene_nth in Nj. destruct (j =? i) eqn:E.
    + destruct (nth_error c j); [|discriminate]. cbn in Nj. injection Nj as _ <-. contradiction.
    + split; [exists j, a, x, ws, w; auto|]. intros Q. injection Q as -> ->. apply Nat.eqb_neq in E. apply E.
      rewrite NoDup_nth_error in ND. apply ND; [apply nth_error_Some; rewrite nth_error_map, Dj; discriminate|]. rewrite !nth_error_map, Dj, Nd. reflexivity.
  - intros [(j & a & x & ws & w & Nj & Dj & Zx & Nw & ->) D]. exists j, a, x, ws, w. split; auto. rewrite set_gene_nth. destruct (j =? i) eqn:E; auto.
    apply Nat.eqb_eq in E. subst j. exfalso. apply D. congruence.
Qed.

Section Search.
  Variable cfg : sdiga_config.
  Variable df : dataframe.
  Variables tcol tval : string.
  Hypothesis Hin : sdiga_input df tcol tval.
  Notation dict := (encoded_dict df tcol).
  Notation tsel := (Sel tcol EQUAL (VStr tval)).
  Notation pat c := (pattern_init (sels c dict)).
  Notation R0 := (seq 0 (df_n df)).
  Variable tc : list value.
  Hypothesis Htc : col_get (df_cols df) tcol = Some tc.
  Notation enc := (map (erow df tcol tc) R0).
  Notation TP := (pos_in df tsel R0 []).
  Notation FP := (neg_in df tsel R0 []).
  Notation meas c := (measure tval enc TP FP c).
  Lemma R0_real : real df R0.
  Proof. intros i I. apply in_seq in I. lia. Qed.
  Lemma remove_pat : forall c i k g, chrom_ok dict c -> nth_error c i = Some (k, g) -> g <> 0 ->
    exists s, In s (pat c) /\ s_attr s = k /\ pat (set_gene i 0 c) = set_remove (pat c) s.
  Proof.
    intros c i k g H N Z. destruct (remove_sels dict c i k g (dict_nodup df tcol tval Hin) H N Z) as (v & I & E). exists (Sel k EQUAL v).
    destruct (pat_facts df tcol tval Hin c H) as (P & (S1 & _ & _) & NP). split; [apply (Permutation_in _ P); auto|]. split; auto.
    assert (Hc' : chrom_ok dict (set_gene i 0 c)).
    { destruct (nth_error dict i) as [[k' vs]|] eqn:Nd; [eapply set_gene_ok; eauto; lia|]. apply nth_error_None in Nd. rewrite <- (Forall2_len _ _ _ H) in Nd. apply nth_error_None in Nd. congruence. }
    destruct (pat_facts df tcol tval Hin _ Hc') as (P' & (S2 & _ & _) & NP'). assert (NS : nominal (Sel k EQUAL v)) by (apply (sel_facts df tcol tval Hin c _ H I)).
    rewrite Forall_forall in NP. apply sorted_unique; auto.
    - apply Forall_forall. intros x Ix. apply filter_In in Ix. apply NP, Ix.
    - apply SS_filter'; auto.
    - intros s. unfold set_remove. rewrite filter_In, Bool.negb_true_iff. split.
      + intros Is. apply (Permutation_in _ (Permutation_sym P')) in Is. apply E in Is. destruct Is as [Is D]. apply (Permutation_in _ P) in Is. split; auto.
        destruct (sel_eq s (Sel k EQUAL v)) eqn:Q; auto. apply sel_eq_nominal in Q; auto. contradiction.
      + intros [Is Q]. apply (Permutation_in _ P'). apply E. split; [apply (Permutation_in _ (Permutation_sym P)); auto|]. intros ->. rewrite (proj2 (sel_eq_nominal _ _ NS NS) eq_refl) in Q. discriminate.
  Qed.
  Lemma pat_gene : forall c s, chrom_ok dict c -> In s (pat c) -> exists i g, nth_error c i = Some (s_attr s, g) /\ g <> 0 /\ pat (set_gene i 0 c) = set_remove (pat c) s.
  Proof.
    intros c s H I. destruct (pat_facts df tcol tval Hin c H) as (P & (_ & ND & _) & _). pose proof (Permutation_in _ (Permutation_sym P) I) as I'. apply sels_in in I'; auto.
    destruct I' as (i & k & g & vs & v & N & Nd & Z & Nv & E). exists i, g. destruct (remove_pat c i k g H N Z) as (s' & Is' & Ea & Er).
    assert (s' = s). { clear -ND Is' I Ea E. subst s. cbn [s_attr] in *. revert ND Is' I. generalize (pat c). intros l ND. induction l as [|x l IH]; intros I1 I2; [destruct I1|].
      cbn [map] in ND. inversion ND as [|? ? Nx ND']; subst. destruct I1 as [->|I1], I2 as [I2|I2]; auto.
      - exfalso. apply Nx. apply in_map_iff. exists (Sel (s_attr s') EQUAL v). auto.
      - exfalso. subst x. apply Nx. apply in_map_iff. exists s'. auto. }
    subst s'. rewrite E. cbn [s_attr]. rewrite <- E. auto.
  Qed.
  Lemma meas_spec : forall c, chrom_ok dict c -> me_tp (meas c) = pos_in df tsel R0 (pat c) /\ me_fp (meas c) = neg_in df tsel R0 (pat c) /\
    (me_support (meas c) == share (pos_in df tsel R0 (pat c)) (df_n df))%Q /\ (me_confidence (meas c) == confidence df tsel (pat c))%Q.
  Proof.
    intros c H. unfold measure. rewrite (get_counts df tcol tval Hin tc Htc c R0 H R0_real). cbn [me_tp me_fp me_support me_confidence]. split; auto. split; auto. split.
    - rewrite support_share. rewrite pos_neg_total, seq_length. reflexivity.
    - apply confidence_share.
  Qed.
  Lemma rows_positive : 0 < df_n df.
  Proof.
    pose proof (in_cat df tcol tval Hin) as (W & ND & _). destruct Hin as (_ & _ & _ & _ & col & Ec & I). apply MiningProofs.col_get_in in Ec; auto. rewrite <- (W _ _ Ec). destruct col; [destruct I|cbn; lia].
  Qed.
  Lemma share_le : forall a b n, 0 < n -> (share a n <= share b n)%Q <-> a <= b.
  Proof.
    intros a b n Hn. unfold share. replace (n =? 0) with false by (symmetry; apply Nat.eqb_neq; lia).
    assert (Hq : (0 < inject_Z (Z.of_nat n))%Q) by (change 0%Q with (inject_Z 0); rewrite <- Zlt_Qlt; lia). split; intros H.
    - apply Qmult_le_compat_r with (z := inject_Z (Z.of_nat n)) in H; [|lra]. unfold Qdiv in H. rewrite <- !Qmult_assoc, (Qmult_comm (/ _)), Qmult_inv_r, !Qmult_1_r in H by lra. rewrite <- Zle_Qle in H. lia.
    - apply Qmult_le_compat_r; [rewrite <- Zle_Qle; lia|apply Qlt_le_weak, Qinv_lt_0_compat; auto].
  Qed.
  Lemma confidence_positive : forall X, 0 < pos_in df tsel R0 X -> (0 < confidence df tsel X)%Q.
  Proof.
    intros X H. unfold confidence, share. cbv zeta. destruct (_ =? 0) eqn:E; [apply Nat.eqb_eq in E; lia|]. apply Qlt_shift_div_l; [change 0%Q with (inject_Z 0); rewrite <- Zlt_Qlt; lia|].
    rewrite Qmult_0_l. change 0%Q with (inject_Z 0). rewrite <- Zlt_Qlt. lia.
  Qed.
  (** The best removal. *)
  Definition improves (c c' : chromosome) (delta : Q) : Prop :=
    (me_support (meas c) <= me_support (meas c'))%Q /\ (me_confidence (meas c) <= me_confidence (meas c'))%Q /\ (0 < me_confidence (meas c'))%Q /\
    (delta < me_support (meas c') - me_support (meas c))%Q.
  Lemma best_removal_some : forall c l best delta r, (0 <= delta)%Q -> best_removal tval enc TP FP c (meas c) l best delta = Some r ->
    best = Some r \/ exists i, In i l /\ snd (nth i c ("", 0)) <> 0 /\ r = (set_gene i 0 c, meas (set_gene i 0 c)) /\ improves c (set_gene i 0 c) 0.
  Proof.
    induction l as [|i l IH]; intros best delta r D E; cbn [best_removal] in E; [left; auto|].
    assert (IH' : forall b d, (0 <= d)%Q -> best_removal tval enc TP FP c (meas c) l b d = Some r ->
      b = Some r \/ exists i0, In i0 (i :: l) /\ snd (nth i0 c ("", 0)) <> 0 /\ r = (set_gene i0 0 c, meas (set_gene i0 0 c)) /\ improves c (set_gene i0 0 c) 0).
    { intros b d Dd K. destruct (IH b d r Dd K) as [A|(j & Ij & B)]; auto. right. exists j. split; [right; auto|exact B]. }
    destruct (snd (nth i c ("", 0)) =? 0) eqn:Z; [eauto|]. apply Nat.eqb_neq in Z. cbv zeta in E.
    destruct (Qle_bool _ _ && _ && _) eqn:C; [|eauto]. rewrite !Bool.andb_true_iff, Bool.negb_true_iff, !Qle_bool_iff in C. destruct C as ((C1 & C2) & C3).
    destruct (negb (Qle_bool _ delta)) eqn:Q; [|eauto]. rewrite Bool.negb_true_iff in Q. apply IH' in E.
    - destruct E as [E|E]; auto. injection E as <-. right. exists i. split; [left; auto|]. split; auto. split; auto. split; auto. split; auto. split.
      + apply Qnot_le_lt. intros K. apply Qle_bool_iff in K. congruence.
      + eapply Qle_lt_trans; [exact D|]. apply Qnot_le_lt. intros K. apply Qle_bool_iff in K. congruence.
    - apply Qle_trans with (y := delta); auto. apply Qlt_le_weak, Qnot_le_lt. intros K. apply Qle_bool_iff in K. congruence.
  Qed.
  Lemma best_removal_none : forall c l best, best_removal tval enc TP FP c (meas c) l best 0 = None ->
    best = None /\ forall i, In i l -> snd (nth i c ("", 0)) <> 0 -> ~ improves c (set_gene i 0 c) 0.
  Proof.
    assert (G : forall c l x d, best_removal tval enc TP FP c (meas c) l (Some x) d <> None).
    { intros c. induction l as [|i l IH]; intros x d; cbn [best_removal]; [discriminate|]. destruct (_ =? 0); auto. cbv zeta. destruct (_ && _ && _); auto. destruct (negb _); auto. }
    induction l as [|i l IH]; intros best E; cbn [best_removal] in E; [split; auto; intros i []|].
    destruct (snd (nth i c ("", 0)) =? 0) eqn:Z.
    - apply IH in E. destruct E as [-> E]. split; auto. intros j [<-|Ij] Hj; auto. apply Nat.eqb_eq in Z. contradiction.
    - cbv zeta in E. destruct (Qle_bool _ _ && _ && _) eqn:C.
      + destruct (negb (Qle_bool (me_support _ - _)%Q 0)) eqn:Q; [exfalso; eapply G; eauto|]. apply Bool.negb_false_iff, Qle_bool_iff in Q.
        apply IH in E. destruct E as [-> E]. split; auto. intros j [<-|Ij] Hj; auto. intros (_ & _ & _ & K). lra.
      + apply IH in E. destruct E as [-> E]. split; auto. intros j [<-|Ij] Hj; auto. intros (K1 & K2 & K3 & _).
        rewrite (proj2 (Qle_bool_iff _ _) K1), (proj2 (Qle_bool_iff _ _) K2) in C. cbn [andb] in C. rewrite Bool.negb_false_iff, Qle_bool_iff in C. lra.
  Qed.
  Lemma best_removal_max : forall c l best delta r, (0 <= delta)%Q -> (forall b, best = Some b -> (delta == me_support (snd b) - me_support (meas c))%Q) ->
    best_removal tval enc TP FP c (meas c) l best delta = Some r ->
    (delta <= me_support (snd r) - me_support (meas c))%Q /\
    forall i, In i l -> snd (nth i c ("", 0)) <> 0 -> improves c (set_gene i 0 c) 0 -> (me_support (meas (set_gene i 0 c)) <= me_support (snd r))%Q.
  Proof.
    induction l as [|i l IH]; intros best delta r D B E; cbn [best_removal] in E.
    - split; [|intros i []]. rewrite (B r E). apply Qle_refl.
    - destruct (snd (nth i c ("", 0)) =? 0) eqn:Z.
      { destruct (IH _ _ _ D B E) as [H1 H2]. split; auto. intros j [<-|Ij] Hj; auto. apply Nat.eqb_eq in Z. contradiction. }
      cbv zeta in E. destruct (Qle_bool (me_support (meas c)) _ && _ && _) eqn:C.
      + destruct (negb (Qle_bool (me_support _ - _)%Q delta)) eqn:Q.
        * assert (Q' : (delta < me_support (meas (set_gene i 0 c)) - me_support (meas c))%Q). { apply Bool.negb_true_iff in Q. apply Qnot_le_lt. intros K. apply Qle_bool_iff in K. congruence. }
          apply IH in E; [|lra|intros b Eb; injection Eb as <-; cbn [snd]; apply Qeq_refl]. destruct E as [H1 H2]. split; [lra|]. intros j [<-|Ij] Hj; auto. intros _. lra.
        * apply Bool.negb_false_iff, Qle_bool_iff in Q. apply IH in E; auto. destruct E as [H1 H2]. split; auto. intros j [<-|Ij] Hj; auto. intros _. lra.
      + apply IH in E; auto. destruct E as [H1 H2]. split; auto. intros j [<-|Ij] Hj; auto. intros (K1 & K2 & K3 & _).
        rewrite (proj2 (Qle_bool_iff _ _) K1), (proj2 (Qle_bool_iff _ _) K2) in C. cbn [andb] in C. apply Bool.negb_false_iff, Qle_bool_iff in C. lra.
  Qed.
  Lemma gene_at : forall c i, snd (nth i c ("", 0)) <> 0 -> exists k g, nth_error c i = Some (k, g) /\ g <> 0 /\ i < length c.
  Proof.
    intros c i H. destruct (nth_error c i) as [[k g]|] eqn:N.
    - exists k, g. rewrite (nth_error_nth _ _ _ N) in H. split; auto. split; auto. apply nth_error_Some. congruence.
    - apply nth_error_None in N. rewrite nth_overflow in H by auto. contradiction.
  Qed.
  Lemma set_gene_fine : forall c i, chrom_ok dict c -> i < length c -> chrom_ok dict (set_gene i 0 c).
  Proof.
    intros c i H L. destruct (nth_error dict i) as [[k' vs]|] eqn:Nd; [eapply set_gene_ok; eauto; lia|]. apply nth_error_None in Nd. rewrite <- (Forall2_len _ _ _ H) in Nd. lia.
  Qed.
  Lemma climb_ok : forall fuel c, chrom_ok dict c -> active c < fuel -> exists c', climb tval fuel enc TP FP c (meas c) = Ok (c', meas c') /\ chrom_ok dict c' /\
    incl (pat c') (pat c) /\ (me_confidence (meas c) <= me_confidence (meas c'))%Q /\ irreducible df tsel (pat c') /\
    (c' = c \/ pos_in df tsel R0 (pat c) < pos_in df tsel R0 (pat c')).
  Proof.
    induction fuel as [|f IH]; intros c H L; [lia|]. cbn [climb]. destruct (best_removal tval enc TP FP c (meas c) (seq 0 (length c)) None 0) as [[c1 m1]|] eqn:E.
    - apply best_removal_some in E; [|apply Qle_refl]. destruct E as [E|(i & Ii & Z & Er & (K1 & K2 & K3 & K4))]; [discriminate|]. injection Er as -> ->.
      destruct (gene_at c i Z) as (k & g & N & Zg & Li). pose proof (set_gene_fine c i H Li) as H1. pose proof (active_set c i k g N Zg) as Ea.
      destruct (IH (set_gene i 0 c) H1) as (c' & Ec & Hc & Ic & Kc & Rc & Pc); [lia|]. exists c'. split; auto. split; auto.
      destruct (remove_pat c i k g H N Zg) as (s & Is & _ & Ep). assert (I1 : incl (pat (set_gene i 0 c)) (pat c)) by (rewrite Ep; intros x Hx; apply filter_In in Hx; apply Hx).
      split; [eapply incl_tran; eauto|]. split; [eapply Qle_trans; eauto|]. split; auto. right.
      destruct (meas_spec c H) as (_ & _ & S1 & _). destruct (meas_spec _ H1) as (_ & _ & S2 & _). rewrite S1, S2 in K4.
      assert (Q1 : pos_in df tsel R0 (pat c) < pos_in df tsel R0 (pat (set_gene i 0 c))).
      { destruct (le_lt_dec (pos_in df tsel R0 (pat (set_gene i 0 c))) (pos_in df tsel R0 (pat c))) as [A|A]; auto. apply (share_le _ _ (df_n df) rows_positive) in A. lra. }
      destruct Pc as [->|Pc]; lia.
    - apply best_removal_none in E. destruct E as [_ E]. exists c. split; auto. split; auto. split; [apply incl_refl|]. split; [apply Qle_refl|]. split; auto.
      intros s Is. cbv zeta. destruct (pat_gene c s H Is) as (i & g & N & Zg & Ep). assert (Li : i < length c) by (apply nth_error_Some; congruence).
      assert (NI : ~ improves c (set_gene i 0 c) 0). { apply E; [apply in_seq; lia|]. rewrite (nth_error_nth _ _ _ N). exact Zg. }
      pose proof (set_gene_fine c i H Li) as H1. destruct (meas_spec c H) as (_ & _ & S1 & C1). destruct (meas_spec _ H1) as (_ & _ & S2 & C2). rewrite Ep in S2, C2.
      destruct (Nat.eq_dec (pos_in df tsel R0 (set_remove (pat c) s)) (pos_in df tsel R0 (pat c))) as [A|A]; [left; auto|right].
      assert (LE : pos_in df tsel R0 (pat c) <= pos_in df tsel R0 (set_remove (pat c) s)).
      { unfold pos_in. apply filter_le. intros j Hj. rewrite Bool.andb_true_iff in *. destruct Hj as [J1 J2]. split; auto. eapply matches_all_incl; [|exact J2]. intros x Hx. apply filter_In in Hx. apply Hx. }
      apply Qnot_le_lt. intros K. apply NI. split; [|split; [|split]].
      + rewrite S1, S2. apply share_le; auto. apply rows_positive.
      + rewrite C1, C2. exact K.
      + rewrite C2. apply confidence_positive. lia.
      + rewrite S1, S2. assert (B : ~ (share (pos_in df tsel R0 (set_remove (pat c) s)) (df_n df) <= share (pos_in df tsel R0 (pat c)) (df_n df))%Q) by (rewrite share_le by apply rows_positive; lia). lra.
  Qed.
End Search.
