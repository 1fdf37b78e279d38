(** C49, C50, C58: credibility measures. *)
From Verif Require Import CredModel CoreSpec CoreOrder CorePattern CoreFrame.
From Coq Require Import QArith Reals Lia Lra Lqa Psatz.
Open Scope string_scope.
Open Scope list_scope.

(** * C49: odds ratio *)
(** 0 <= tp <= TP and 0 <= fp <= FP. *)
Definition consistent_table (tp fp TP FP : Z) : Prop := (0 <= tp <= TP)%Z /\ (0 <= fp <= FP)%Z.
Lemma inject_nz : forall z, z <> 0%Z -> Qeq_bool (inject_Z z) 0 = false.
Proof. intros z H. apply not_true_is_false. intros E. apply Qeq_bool_eq in E. unfold Qeq in E. cbn in E. lia. Qed.
Lemma odds_value : forall tp fp TP FP, tp <> TP -> fp <> FP -> fp <> 0%Z ->
  odds_ratio_table tp fp TP FP = Ok (XFin (inject_Z tp / inject_Z fp / (inject_Z (TP - tp) / inject_Z (FP - fp)))).
Proof.
  intros tp fp TP FP H1 H2 H3. unfold odds_ratio_table. apply Z.eqb_neq in H1, H2. rewrite H1, H2. cbn [andb]. apply Z.eqb_neq in H1, H2. replace (fp =? 0)%Z with false by (symmetry; apply Z.eqb_neq; auto). rewrite andb_false_r.
  unfold zdiv. rewrite !inject_nz by lia. cbn [bind]. replace (Qeq_bool (inject_Z (TP - tp) / inject_Z (FP - fp)) 0) with false; [reflexivity|]. symmetry. apply not_true_is_false. intros E. apply Qeq_bool_eq in E.
  assert (X : (inject_Z (TP - tp) == 0)%Q). { rewrite <- (Qmult_div_r (inject_Z (TP - tp)) (inject_Z (FP - fp))); [rewrite E; ring|]. unfold Qeq; cbn; lia. } unfold Qeq in X. cbn in X. lia.
Qed.
(** The measure never raises an exception on four integers. *)
Theorem C49_total : forall tp fp TP FP, exists r, odds_ratio_table tp fp TP FP = Ok r.
Proof.
  intros tp fp TP FP. destruct (Z.eq_dec tp TP) as [E1|E1], (Z.eq_dec fp FP) as [E2|E2], (Z.eq_dec fp 0) as [E3|E3]; try (rewrite odds_value by auto; eauto; fail);
  unfold odds_ratio_table; repeat match goal with |- exists _, (if ?b then _ else _) = _ => destruct b eqn:?; [eauto|] end; exfalso; lia.
Qed.
(** Without empty cells it is the cross-product ratio, i.e. r * fp * (TP - tp) = tp * (FP - fp) ... *)
Theorem C49_cross_product : forall tp fp TP FP, (0 < tp < TP)%Z -> (0 < fp < FP)%Z ->
  exists r, odds_ratio_table tp fp TP FP = Ok (XFin r) /\ (r * inject_Z fp * inject_Z (TP - tp) == inject_Z tp * inject_Z (FP - fp))%Q.
Proof.
  intros tp fp TP FP H1 H2. rewrite odds_value by lia. eexists. split; [reflexivity|]. field. repeat split; unfold Qeq; cbn; lia.
Qed.
(** ... which is 1 exactly when the subgroup and the target are independent, and greater than 1 exactly when the subgroup has a
    greater share of positive rows than the dataset. *)
Lemma odds_compare : forall tp fp TP FP r, (0 < tp < TP)%Z -> (0 < fp < FP)%Z -> odds_ratio_table tp fp TP FP = Ok (XFin r) ->
  ((r ?= 1)%Q = (tp * FP ?= fp * TP)%Z).
Proof.
  intros tp fp TP FP r H1 H2 E. destruct (C49_cross_product tp fp TP FP H1 H2) as (r' & E' & X). rewrite E in E'. injection E' as <-.
  assert (P : (0 < inject_Z fp * inject_Z (TP - tp))%Q) by (rewrite <- inject_Z_mult; unfold Qlt; cbn; nia).
  assert (K : (r * (inject_Z fp * inject_Z (TP - tp)) == inject_Z (tp * (FP - fp)))%Q) by (rewrite inject_Z_mult, <- X; ring).
  assert (K1 : (1 * (inject_Z fp * inject_Z (TP - tp)) == inject_Z (fp * (TP - tp)))%Q) by (rewrite inject_Z_mult; ring).
  destruct (r ?= 1)%Q eqn:C.
  - apply Qeq_alt in C. rewrite C, K1 in K. rewrite inject_Z_injective in K. symmetry. apply Z.compare_eq_iff. lia.
  - apply Qlt_alt in C. apply (Qmult_lt_compat_r _ _ _ P) in C. rewrite K, K1 in C. rewrite <- Zlt_Qlt in C. symmetry. apply Z.compare_lt_iff. lia.
  - apply Qgt_alt in C. apply (Qmult_lt_compat_r _ _ _ P) in C. rewrite K, K1 in C. rewrite <- Zlt_Qlt in C. symmetry. apply Z.compare_gt_iff. lia.
Qed.
Theorem C49_independence : forall tp fp TP FP r, (0 < tp < TP)%Z -> (0 < fp < FP)%Z -> odds_ratio_table tp fp TP FP = Ok (XFin r) ->
  ((r == 1)%Q <-> (tp * FP = fp * TP)%Z) /\ ((1 < r)%Q <-> (fp * TP < tp * FP)%Z).
Proof.
  intros tp fp TP FP r H1 H2 E. assert (X := odds_compare _ _ _ _ _ H1 H2 E). split.
  - rewrite Qeq_alt, X. apply Z.compare_eq_iff.
  - rewrite Qgt_alt, X. apply Z.compare_gt_iff.
Qed.
Lemma xle_fin : forall a b, xle (XFin a) (XFin b) = true <-> (a <= b)%Q.
Proof.
  intros a b. unfold xle, xlt, xeq. rewrite orb_true_iff, negb_true_iff. split.
  - intros [H|H]; [|apply Qeq_bool_eq in H; lra]. apply not_true_iff_false in H. rewrite Qle_bool_iff in H. lra.
  - intros H. destruct (Qle_bool b a) eqn:L; [right|left; auto]. apply Qle_bool_iff in L. apply Qeq_eq_bool. lra.
Qed.
(** On a consistent table it is a non-negative number or +inf. *)
Theorem C49_nonnegative : forall tp fp TP FP, consistent_table tp fp TP FP -> exists r, odds_ratio_table tp fp TP FP = Ok r /\ xle (XFin 0) r = true.
Proof.
  intros tp fp TP FP [H1 H2]. destruct (Z.eq_dec tp TP) as [E1|E1]; [|destruct (Z.eq_dec fp FP) as [E2|E2]; [|destruct (Z.eq_dec fp 0) as [E3|E3]]].
  1-3: unfold odds_ratio_table; repeat match goal with |- exists _, (if ?b then _ else _) = _ /\ _ => destruct b eqn:?; [eexists; split; reflexivity|] end; exfalso; lia.
  rewrite odds_value by auto. eexists. split; [reflexivity|]. apply xle_fin.
  assert (X : (0 <= inject_Z tp / inject_Z fp / (inject_Z (TP - tp) / inject_Z (FP - fp)))%Q).
  { apply Qle_shift_div_l; [apply Qlt_shift_div_l; [rewrite <- (Zlt_Qlt 0); lia|rewrite Qmult_0_l, <- (Zlt_Qlt 0); lia]|]. rewrite Qmult_0_l. apply Qle_shift_div_l; [rewrite <- (Zlt_Qlt 0); lia|]. rewrite Qmult_0_l, <- (Zle_Qle 0). lia. }
  exact X.
Qed.
(** The extreme cases: a subgroup with all the rows, with no row, with all the negative rows has odds ratio 0; otherwise one with all the
    positive rows or without negative rows has odds ratio +inf (in particular every other subgroup when no row is positive). *)
Theorem C49_extremes : forall tp fp TP FP, consistent_table tp fp TP FP ->
  (fp = FP -> odds_ratio_table tp fp TP FP = Ok (XFin 0)) /\
  (fp <> FP -> tp = TP -> odds_ratio_table tp fp TP FP = Ok XPosInf) /\
  (fp <> FP -> tp <> TP -> tp = 0%Z -> fp = 0%Z -> odds_ratio_table tp fp TP FP = Ok (XFin 0)) /\
  (fp <> FP -> tp <> TP -> tp <> 0%Z -> fp = 0%Z -> odds_ratio_table tp fp TP FP = Ok XPosInf).
Proof.
  intros tp fp TP FP _. unfold odds_ratio_table.
  repeat split; intros; destruct (tp =? TP)%Z eqn:E1, (fp =? FP)%Z eqn:E2; cbn [andb]; try lia; auto; destruct (fp =? 0)%Z eqn:E3, (tp =? 0)%Z eqn:E4; cbn [andb]; try lia; auto.
Qed.
(** More positive rows never lower it, more negative rows never raise it. *)
Lemma table_cases : forall tp fp TP FP, consistent_table tp fp TP FP -> exists r, odds_ratio_table tp fp TP FP = Ok r /\
  ((fp = FP /\ r = XFin 0) \/ (fp < FP /\ tp = TP /\ r = XPosInf) \/ (fp < FP /\ tp < TP /\ tp = 0 /\ fp = 0 /\ r = XFin 0)
   \/ (fp < FP /\ tp < TP /\ 0 < tp /\ fp = 0 /\ r = XPosInf)
   \/ (fp < FP /\ tp < TP /\ 0 < fp /\ r = XFin (inject_Z tp / inject_Z fp / (inject_Z (TP - tp) / inject_Z (FP - fp)))))%Z.
Proof.
  intros tp fp TP FP H. destruct (C49_extremes tp fp TP FP H) as (A & B & C & D). destruct H as [H1 H2].
  destruct (Z.eq_dec fp FP) as [E|E]; [exists (XFin 0); auto|]. destruct (Z.eq_dec tp TP) as [E1|E1]; [exists XPosInf; split; auto; right; left; repeat split; auto; lia|].
  destruct (Z.eq_dec fp 0) as [E2|E2].
  - destruct (Z.eq_dec tp 0) as [E3|E3]; [exists (XFin 0); split; auto; do 2 right; left; repeat split; auto; lia|exists XPosInf; split; auto; do 3 right; left; repeat split; auto; lia].
  - rewrite odds_value by auto. eexists. split; [reflexivity|]. do 4 right. repeat split; auto; lia.
Qed.
Lemma ratio_form : forall a b c d : Z, (0 < b)%Z -> (0 < c)%Z -> (0 < d)%Z -> (inject_Z a / inject_Z b / (inject_Z c / inject_Z d) == inject_Z (a * d) / inject_Z (b * c))%Q.
Proof. intros. rewrite !inject_Z_mult. field. repeat split; unfold Qeq; cbn; lia. Qed.
Lemma frac_le : forall a b c d : Z, (0 < b)%Z -> (0 < d)%Z -> (a * d <= c * b)%Z -> (inject_Z a / inject_Z b <= inject_Z c / inject_Z d)%Q.
Proof.
  intros a b c d Hb Hd H. apply Qle_shift_div_l; [rewrite <- (Zlt_Qlt 0); lia|]. rewrite Qmult_comm. unfold Qdiv. rewrite Qmult_assoc. apply Qle_shift_div_r; [rewrite <- (Zlt_Qlt 0); lia|].
  rewrite <- !inject_Z_mult, <- Zle_Qle. lia.
Qed.
Theorem C49_monotone : forall tp fp tp' fp' TP FP, consistent_table tp fp TP FP -> consistent_table tp' fp' TP FP -> (tp <= tp')%Z -> (fp' <= fp)%Z ->
  exists r r', odds_ratio_table tp fp TP FP = Ok r /\ odds_ratio_table tp' fp' TP FP = Ok r' /\ xle r r' = true.
Proof.
  intros tp fp tp' fp' TP FP H H' L1 L2. destruct (table_cases _ _ _ _ H) as (r & E & C). destruct (table_cases _ _ _ _ H') as (r' & E' & C'). exists r, r'. split; auto. split; auto.
  destruct (C49_nonnegative _ _ _ _ H') as (r0 & E0 & N). rewrite E' in E0. injection E0 as <-. destruct H as [Ha Hb], H' as [Hc Hd].
  destruct C as [C|[C|[C|[C|C]]]]; [destruct C as [_ ->]; exact N| |destruct C as (_ & _ & _ & _ & ->); exact N| |];
  destruct C' as [C'|[C'|[C'|[C'|C']]]]; try (exfalso; lia); try (destruct C as (? & ? & ->)); repeat match goal with H : _ /\ _ |- _ => destruct H end; subst; try reflexivity; try lia.
  - apply xle_fin. rewrite ratio_form by lia. change (inject_Z (tp * (FP - fp)) / inject_Z (fp * (TP - tp)) <= inject_Z 0 / inject_Z 1)%Q. apply frac_le; nia.
  - apply xle_fin. rewrite !ratio_form by lia. apply frac_le; [nia|nia|]. apply Z.mul_le_mono_nonneg; [nia| |nia|]; apply Z.mul_le_mono_nonneg; lia.
Qed.

(** From the two boolean series: the table of row counts, which is always consistent; so a result, and never an exception. *)
Definition rows_with (a t : list bool) (x y : bool) : Z :=
  Z.of_nat (length (filter (fun i => Bool.eqb (nth i a false) x && Bool.eqb (nth i t false) y) (seq 0 (length t)))).
Lemma rows_with_cons : forall b a c t x y, rows_with (b :: a) (c :: t) x y = ((if Bool.eqb b x && Bool.eqb c y then 1 else 0) + rows_with a t x y)%Z.
Proof.
  intros. unfold rows_with. cbn [length seq filter]. change (nth 0 (b :: a) false) with b. change (nth 0 (c :: t) false) with c.
  assert (X : forall l, length (filter (fun i => Bool.eqb (nth i (b :: a) false) x && Bool.eqb (nth i (c :: t) false) y) (map S l))
              = length (filter (fun i => Bool.eqb (nth i a false) x && Bool.eqb (nth i t false) y) l)).
  { intros l. induction l as [|k l IH]; [reflexivity|]. cbn [map filter]. change (nth (S k) (b :: a) false) with (nth k a false). change (nth (S k) (c :: t) false) with (nth k t false). destruct (Bool.eqb (nth k a false) x && Bool.eqb (nth k t false) y); cbn [length]; rewrite IH; reflexivity. }
  rewrite <- seq_shift. destruct (Bool.eqb b x && Bool.eqb c y); cbn [length]; rewrite X; lia.
Qed.
Lemma zcount_cons : forall b l, zcount (b :: l) = ((if b then 1 else 0) + zcount l)%Z.
Proof. intros [|] l; unfold zcount; cbn [filter length]; lia. Qed.
Lemma counts_rows : forall a t, length a = length t ->
  zcount (series_and a t) = rows_with a t true true /\ zcount (series_and a (map negb t)) = rows_with a t true false /\
  zcount t = (rows_with a t true true + rows_with a t false true)%Z /\ zcount (map negb t) = (rows_with a t true false + rows_with a t false false)%Z.
Proof.
  induction a as [|b a IH]; intros [|c t] L; try discriminate; [repeat split|]. injection L as L. destruct (IH t L) as (A & B & C & D).
  rewrite !rows_with_cons. change (series_and (b :: a) (c :: t)) with ((b && c) :: series_and a t). cbn [map]. change (series_and (b :: a) (negb c :: map negb t)) with ((b && negb c) :: series_and a (map negb t)).
  rewrite !zcount_cons, A, B, C, D. destruct b, c; cbn [Bool.eqb andb negb]; repeat split; lia.
Qed.
Theorem C49_series : forall a t, length a = length t ->
  let d := TParams None None None None (Some a) (Some t) in
  odds_ratio d = odds_ratio (TParams (Some (rows_with a t true true)) (Some (rows_with a t true false))
                                     (Some (rows_with a t true true + rows_with a t false true)%Z) (Some (rows_with a t true false + rows_with a t false false)%Z) None None) /\
  exists r, odds_ratio d = Ok r /\ xle (XFin 0) r = true.
Proof.
  intros a t L d. destruct (counts_rows a t L) as (A & B & C & D). unfold d, odds_ratio. cbn. rewrite A, B, C, D. split; [reflexivity|].
  apply C49_nonnegative. unfold consistent_table, rows_with. lia.
Qed.
(** The exception for missing parameters; four counts are used before the series. *)
Theorem C49_parameters : forall d,
  (odds_ratio d = Err ParameterNotFoundError <->
     (tp_tp d = None \/ tp_fp d = None \/ tp_TP d = None \/ tp_FP d = None) /\ (tp_appearance d = None \/ tp_target d = None)) /\
  (forall tp fp TP FP, tp_tp d = Some tp -> tp_fp d = Some fp -> tp_TP d = Some TP -> tp_FP d = Some FP -> odds_ratio d = odds_ratio_table tp fp TP FP).
Proof.
  intros [a b c e f g]. split.
  - assert (T : forall tp fp TP FP, odds_ratio_table tp fp TP FP <> Err ParameterNotFoundError) by (intros tp fp TP FP; destruct (C49_total tp fp TP FP) as (r & ->); discriminate).
    unfold odds_ratio. cbn. destruct a, b, c, e, f, g; cbn; split; intros H; try (exfalso; exact (T _ _ _ _ H)); try discriminate H; auto; try tauto; destruct H as [H1 H2]; repeat (destruct H1 as [H1|H1]; try discriminate H1); try (destruct H2 as [H2|H2]; discriminate H2); discriminate H1.
  - cbn. intros tp fp TP FP -> -> -> ->. reflexivity.
Qed.
Example C49_nonvacuous :
  odds_ratio_table 3 1 4 6 = Ok (XFin (inject_Z 3 / inject_Z 1 / (inject_Z (4 - 3) / inject_Z (6 - 1)))) /\
  odds_ratio (TParams None None None None (Some [true; true; false; false; true]) (Some [true; false; true; false; true])) = odds_ratio_table 2 1 3 2.
Proof. split; reflexivity. Qed.
Print Assumptions C49_total.
Print Assumptions C49_cross_product.
Print Assumptions C49_independence.
Print Assumptions C49_nonnegative.
Print Assumptions C49_extremes.
Print Assumptions C49_monotone.
Print Assumptions C49_series.
Print Assumptions C49_parameters.

(** * C50: contributions of the selectors *)
(** The contribution of each selector of a pattern: how much the odds ratio falls when only that selector is removed. *)
Definition contributions (odds : pattern -> res xnum) (p : pattern) (cs : list xnum) : Prop :=
  exists o ws, odds p = Ok o /\ Forall2 (fun s w => odds (set_remove p s) = Ok w) p ws /\ cs = map (xsub o) ws.
Definition is_nan (a : xnum) : bool := match a with XNan => true | _ => false end.
Definition least (m : xnum) (cs : list xnum) : Prop := In m cs /\ is_nan m = false /\ forall c, In c cs -> is_nan c = false -> xle m c = true.
Definition greatest (m : xnum) (cs : list xnum) : Prop := In m cs /\ is_nan m = false /\ forall c, In c cs -> is_nan c = false -> xle c m = true.

Lemma xle_refl : forall a, is_nan a = false -> xle a a = true.
Proof. intros [| |q|] H; try discriminate; auto. apply xle_fin. lra. Qed.
Lemma xle_trans : forall a b c, xle a b = true -> xle b c = true -> xle a c = true.
Proof.
  intros [| |x|] [| |y|] [| |z|] H1 H2; try discriminate; auto. apply xle_fin in H1, H2. apply xle_fin. lra.
Qed.
Lemma xlt_xle : forall a b, xlt a b = true -> xle a b = true.
Proof. intros a b H. unfold xle. rewrite H. reflexivity. Qed.
Lemma not_xlt : forall a b, is_nan a = false -> is_nan b = false -> xlt a b = false -> xle b a = true.
Proof.
  intros [| |x|] [| |y|] H1 H2 H; try discriminate; auto. apply xle_fin. cbn in H. apply negb_false_iff in H. apply Qle_bool_iff in H. exact H.
Qed.
Lemma xlt_nan_r : forall a, xlt a XNan = false.
Proof. intros [| |x|]; reflexivity. Qed.
(** The loop computes two folds. *)
Definition loop_min (cs : list xnum) (a : xnum) := fold_left xmin cs a.
Definition loop_max (cs : list xnum) (a : xnum) := fold_left xmax cs a.
Lemma loop_min_spec : forall cs a, is_nan a = false ->
  is_nan (loop_min cs a) = false /\ xle (loop_min cs a) a = true /\ (forall c, In c cs -> is_nan c = false -> xle (loop_min cs a) c = true) /\ (loop_min cs a = a \/ In (loop_min cs a) cs).
Proof.
  induction cs as [|c cs IH]; intros a Ha.
  - cbn. split; [auto|]. split; [apply xle_refl; auto|]. split; [tauto|auto].
  - change (loop_min (c :: cs) a) with (loop_min cs (xmin a c)).
    destruct (xlt c a) eqn:L.
    + assert (E : xmin a c = c) by (unfold xmin; rewrite L; reflexivity). rewrite E. assert (Hc : is_nan c = false) by (destruct c; auto; discriminate).
      destruct (IH c Hc) as (A & B & C & D). split; [auto|]. split; [apply (xle_trans _ c); auto; apply xlt_xle; auto|]. split.
      * intros x [<-|Hx] Nx; auto.
      * destruct D as [->|D]; right; [left; auto|right; auto].
    + assert (E : xmin a c = a) by (unfold xmin; rewrite L; reflexivity). rewrite E. destruct (IH a Ha) as (A & B & C & D). split; [auto|]. split; [auto|]. split.
      * intros x [<-|Hx] Nx; auto. apply (xle_trans _ a); auto. apply not_xlt; auto.
      * destruct D as [->|D]; [auto|right; right; auto].
Qed.
Lemma loop_max_spec : forall cs a, is_nan a = false ->
  is_nan (loop_max cs a) = false /\ xle a (loop_max cs a) = true /\ (forall c, In c cs -> is_nan c = false -> xle c (loop_max cs a) = true) /\ (loop_max cs a = a \/ In (loop_max cs a) cs).
Proof.
  induction cs as [|c cs IH]; intros a Ha.
  - cbn. split; [auto|]. split; [apply xle_refl; auto|]. split; [tauto|auto].
  - change (loop_max (c :: cs) a) with (loop_max cs (xmax a c)).
    destruct (xlt a c) eqn:L.
    + assert (E : xmax a c = c) by (unfold xmax; rewrite L; reflexivity). rewrite E. assert (Hc : is_nan c = false) by (destruct c; auto; destruct a; discriminate).
      destruct (IH c Hc) as (A & B & C & D). split; [auto|]. split; [apply (xle_trans _ c); auto; apply xlt_xle; auto|]. split.
      * intros x [<-|Hx] Nx; auto.
      * destruct D as [->|D]; right; [left; auto|right; auto].
    + assert (E : xmax a c = a) by (unfold xmax; rewrite L; reflexivity). rewrite E. destruct (IH a Ha) as (A & B & C & D). split; [auto|]. split; [auto|]. split.
      * intros x [<-|Hx] Nx; auto. apply (xle_trans _ a); auto. apply not_xlt; auto.
      * destruct D as [->|D]; [auto|right; right; auto].
Qed.
Lemma remove_is_set_remove : forall l s, homogeneous l -> In s (pattern_init l) -> remove_selector (pattern_copy (pattern_init l)) s = set_remove (pattern_init l) s.
Proof.
  intros l s H Hs. destruct (pattern_init_spec l H) as (A & B & _). unfold pattern_copy. apply remove_selector_spec; auto. intros x Hx. apply H; apply B; auto.
Qed.
Lemma loop_none : forall odds p o l ws mn mx, Forall2 (fun s w => odds (remove_selector (pattern_copy p) s) = Ok w) l ws ->
  contribution_loop odds p o None l mn mx = Ok (contribution_result (loop_min (map (xsub o) ws) mn) (loop_max (map (xsub o) ws) mx)).
Proof. intros odds p o l ws mn mx F. revert mn mx. induction F as [|s w l ws E F IH]; intros mn mx; cbn; [reflexivity|]. rewrite E. cbn. apply IH. Qed.
Lemma loop_some : forall odds p o t l ws mn mx, Forall2 (fun s w => odds (remove_selector (pattern_copy p) s) = Ok w) l ws ->
  contribution_loop odds p o (Some t) l mn mx =
  match find (fun c => xlt c t) (map (xsub o) ws) with Some c => Ok (c, XPosInf) | None => contribution_loop odds p o None l mn mx end.
Proof.
  intros odds p o t l ws mn mx F. revert mn mx. induction F as [|s w l ws E F IH]; intros mn mx; cbn; [reflexivity|]. rewrite E. cbn. destruct (xlt (xsub o w) t); [reflexivity|]. apply IH.
Qed.
Lemma contributions_loop : forall odds l cs th, homogeneous l -> (2 <= length (pattern_init l))%nat -> contributions odds (pattern_init l) cs -> exists o ws,
  odds (pattern_init l) = Ok o /\ cs = map (xsub o) ws /\ Forall2 (fun s w => odds (remove_selector (pattern_copy (pattern_init l)) s) = Ok w) (pattern_init l) ws /\
  selector_contribution odds th (pattern_init l) = contribution_loop odds (pattern_init l) o th (pattern_init l) XPosInf XNegInf.
Proof.
  intros odds l cs th H L (o & ws & E & F & ->). exists o, ws. split; [auto|]. split; [auto|]. split.
  - assert (X : forall k ws, (forall s, In s k -> In s (pattern_init l)) -> Forall2 (fun s w => odds (set_remove (pattern_init l) s) = Ok w) k ws -> Forall2 (fun s w => odds (remove_selector (pattern_copy (pattern_init l)) s) = Ok w) k ws).
    { clear - H. intros k ws I F. induction F as [|s w k ws E F IH]; constructor. - rewrite remove_is_set_remove; auto. apply I; left; auto. - apply IH. intros; apply I; right; auto. }
    apply X; auto.
  - unfold selector_contribution. rewrite E. destruct (length (pattern_init l)) as [|[|n]]; try lia. reflexivity.
Qed.

(** Patterns of 0 / 1 selectors. *)
Theorem C50_small : forall odds th p, (length p = 0%nat -> selector_contribution odds th p = Ok (XFin 0, XFin 0)) /\ (length p = 1%nat -> selector_contribution odds th p = Ok (XFin 1, XFin 1)).
Proof. intros odds th p. split; intros E; unfold selector_contribution; rewrite E; reflexivity. Qed.
(** Larger patterns: the least contribution that is not nan, and the quotient of the greatest one and the least one, with the documented
    special cases. *)
Theorem C50_contributions : forall odds l cs, homogeneous l -> (2 <= length (pattern_init l))%nat -> contributions odds (pattern_init l) cs ->
  (exists c, In c cs /\ is_nan c = false) ->
  exists m M, least m cs /\ greatest M cs /\
    selector_contribution odds None (pattern_init l) =
      Ok (m, if xeq m (XFin 0) then XPosInf else if xeq m XPosInf && xeq M XPosInf then XFin 1 else xdiv M m).
Proof.
  intros odds l cs H L C (c & Hc & Nc). destruct (contributions_loop odds l cs None H L C) as (o & ws & E & -> & F & ->). rewrite (loop_none _ _ _ _ _ _ _ F).
  destruct (loop_min_spec (map (xsub o) ws) XPosInf eq_refl) as (A1 & A2 & A3 & A4). destruct (loop_max_spec (map (xsub o) ws) XNegInf eq_refl) as (B1 & B2 & B3 & B4).
  exists (loop_min (map (xsub o) ws) XPosInf), (loop_max (map (xsub o) ws) XNegInf). split; [|split].
  - split; [|auto]. destruct A4 as [A4|A4]; auto. assert (X := A3 c Hc Nc). rewrite A4 in X. rewrite A4. destruct c; try discriminate X. exact Hc.
  - split; [|auto]. destruct B4 as [B4|B4]; auto. assert (X := B3 c Hc Nc). rewrite B4 in X. rewrite B4. destruct c; try discriminate X. exact Hc.
  - unfold contribution_result. destruct (xeq _ (XFin 0)); [reflexivity|]. destruct (xeq _ XPosInf && _); reflexivity.
Qed.
(** A positive least contribution gives a ratio of at least 1. *)
Theorem C50_ratio_at_least_1 : forall odds l cs m r, homogeneous l -> (2 <= length (pattern_init l))%nat -> contributions odds (pattern_init l) cs ->
  (exists c, In c cs /\ is_nan c = false) -> selector_contribution odds None (pattern_init l) = Ok (m, r) -> xlt (XFin 0) m = true -> xle (XFin 1) r = true.
Proof.
  intros odds l cs m r H L C N E P. destruct (C50_contributions odds l cs H L C N) as (m' & M & A & B & X). rewrite X in E. injection E as <- <-.
  assert (O : xle m' M = true) by (apply A; apply B). destruct m' as [| |x|]; try discriminate P.
  - cbn in P. apply negb_true_iff in P. assert (P' : (0 < x)%Q) by (apply Qnot_le_lt; intros Y; apply Qle_bool_iff in Y; congruence).
    replace (xeq (XFin x) (XFin 0)) with false by (symmetry; cbn; apply not_true_is_false; intros Y; apply Qeq_bool_eq in Y; lra). cbn [xeq andb].
    destruct M as [| |y|]; try discriminate O.
    + apply xle_fin in O. cbn [xdiv]. apply xle_fin. apply Qle_shift_div_l; lra.
    + cbn [xdiv]. replace (Qle_bool 0 x) with true by (symmetry; apply Qle_bool_iff; lra). reflexivity.
  - destruct M; try discriminate O. reflexivity.
Qed.
(** The threshold only cuts the computation short when some contribution is below it. *)
Theorem C50_threshold : forall odds l cs t, homogeneous l -> (2 <= length (pattern_init l))%nat -> contributions odds (pattern_init l) cs ->
  ((forall c, In c cs -> xlt c t = false) -> selector_contribution odds (Some t) (pattern_init l) = selector_contribution odds None (pattern_init l)) /\
  ((exists c, In c cs /\ xlt c t = true) -> exists c, In c cs /\ xlt c t = true /\ selector_contribution odds (Some t) (pattern_init l) = Ok (c, XPosInf)).
Proof.
  intros odds l cs t H L C. destruct (contributions_loop odds l cs None H L C) as (o & ws & E & E1 & F & E2). destruct (contributions_loop odds l cs (Some t) H L C) as (o' & ws' & E' & E1' & F' & E2').
  rewrite E in E'. injection E' as <-. rewrite E2, E2'. rewrite (loop_some _ _ _ _ _ _ _ _ F), <- E1. split; intros X.
  - destruct (find (fun c => xlt c t) cs) as [c|] eqn:Y; [|reflexivity]. apply find_some in Y. destruct Y as [Y1 Y2]. rewrite (X c Y1) in Y2. discriminate.
  - destruct (find (fun c => xlt c t) cs) as [c|] eqn:Y.
    + apply find_some in Y. exists c. tauto.
    + destruct X as (c & X1 & X2). rewrite (find_none _ _ Y c X1) in X2. discriminate.
Qed.
(** The appearance of a pattern: the rows where all its selectors appear; the odds ratio from the table then never fails. *)
Theorem C50_appearance : forall (app : selector -> res (list bool)) (a : selector -> list bool) n p, (forall s, In s p -> app s = Ok (a s) /\ length (a s) = n) ->
  exists r, pattern_appearance app n p = Ok r /\ length r = n /\ forall i, (i < n)%nat -> nth i r false = forallb (fun s => nth i (a s) false) p.
Proof.
  intros app a n p. unfold pattern_appearance.
  assert (G : forall p acc, length acc = n -> (forall s, In s p -> app s = Ok (a s) /\ length (a s) = n) ->
    exists r, fold_res (fun acc s => do a <- app s; Ok (series_and acc a)) p acc = Ok r /\ length r = n /\ forall i, (i < n)%nat -> nth i r false = nth i acc false && forallb (fun s => nth i (a s) false) p).
  { clear p. induction p as [|s p IH]; intros acc La Hp.
    - exists acc. cbn. repeat split; auto. intros. rewrite andb_true_r. reflexivity.
    - destruct (Hp s (or_introl eq_refl)) as [E1 E2]. cbn [fold_res]. rewrite E1. cbn [bind]. destruct (IH (series_and acc (a s))) as (r & R1 & R2 & R3); [rewrite series_and_length; congruence|intros; apply Hp; right; auto|].
      exists r. repeat split; auto. intros i Hi. rewrite (R3 i Hi), nth_series_and by congruence. cbn [forallb]. rewrite andb_assoc. reflexivity. }
  intros Hp. destruct (G p (repeat true n) (repeat_length _ _) Hp) as (r & R1 & R2 & R3). exists r. repeat split; auto. intros i Hi. rewrite (R3 i Hi).
  replace (nth i (repeat true n) false) with true; [reflexivity|]. symmetry. clear - Hi. revert i Hi. induction n as [|n IH]; intros [|i] Hi; try lia; auto. cbn. apply IH. lia.
Qed.
Theorem C50_statistic_total : forall (app : selector -> res (list bool)) (a : selector -> list bool) target p,
  (forall s, In s p -> app s = Ok (a s) /\ length (a s) = length target) -> exists r, statistic_odds app target (length target) p = Ok r /\ xle (XFin 0) r = true.
Proof.
  intros app a target p H. destruct (C50_appearance app a (length target) p H) as (r & E & Er & _). unfold statistic_odds. rewrite E. cbn [bind]. apply (C49_series r target Er).
Qed.
(** The first component is not always below the second one, and the ratio can be nan: when the odds ratios are infinite. *)
Definition ab_app (s : selector) : res (list bool) := if String.eqb (s_attr s) "a" then Ok [true; false; false] else Ok [true; false; false].
Theorem C50_min_le_max_refuted :
  let p := pattern_init [Sel "a" EQUAL (VStr "x"); Sel "b" EQUAL (VStr "y")] in
  selector_contribution (statistic_odds ab_app [true; true; false] 3) None p = Ok (XPosInf, XNan) /\ xle XPosInf XNan = false.
Proof. split; vm_compute; reflexivity. Qed.
Example C50_nonvacuous :
  let p := pattern_init [Sel "a" EQUAL (VStr "x"); Sel "b" EQUAL (VStr "y")] in
  let odds := fun p => Ok (XFin (inject_Z (Z.of_nat (length p) * Z.of_nat (length p)))) in
  homogeneous [Sel "a" EQUAL (VStr "x"); Sel "b" EQUAL (VStr "y")] /\ contributions odds p [XFin 3; XFin 3] /\ selector_contribution odds None p = Ok (XFin 3, XFin (3 / 3)).
Proof.
  split; [|split].
  - intros s t Hs Ht. cbn in Hs, Ht. destruct Hs as [<-|[<-|[]]], Ht as [<-|[<-|[]]]; intros _ _; reflexivity.
  - exists (XFin 4), [XFin 1; XFin 1]. split; [reflexivity|]. split; [repeat constructor|reflexivity].
  - reflexivity.
Qed.
Print Assumptions C50_small.
Print Assumptions C50_contributions.
Print Assumptions C50_ratio_at_least_1.
Print Assumptions C50_threshold.
Print Assumptions C50_appearance.
Print Assumptions C50_statistic_total.
Print Assumptions C50_min_le_max_refuted.

(** * C58: p-value of the independence test *)
Import Lra.
Open Scope R_scope.
(** A cumulative distribution function of a symmetric distribution, on the non-negative numbers. *)
Definition half_cdf (cdf : R -> R) : Prop := cdf 0 = 1 / 2 /\ (forall x y, 0 <= x -> x <= y -> cdf x <= cdf y) /\ (forall x, 0 <= x -> cdf x <= 1).
(** It is computed for every consistent table of a dataset with both positive and negative rows, and it is a probability. *)
Lemma p_value_formula : forall cdf tp fp TP FP, consistent_table tp fp TP FP -> (0 < TP)%Z -> (0 < FP)%Z -> (0 < tp + fp < TP + FP)%Z ->
  p_value_independence cdf tp fp TP FP =
  Ok (2 * (1 - cdf (Rabs ((IZR tp - IZR (tp + fp) * IZR TP / IZR (TP + FP)) / sqrt (IZR (tp + fp) * IZR TP / IZR (TP + FP) * IZR FP / IZR (TP + FP)))))).
Proof.
  intros cdf tp fp TP FP [H1 H2] HT HF Hn. unfold p_value_independence.
  replace ((tp =? TP) && (fp =? FP))%Z with false by (symmetry; apply not_true_is_false; intros X; apply andb_true_iff in X; lia).
  replace ((tp =? 0) && (fp =? 0))%Z with false by (symmetry; apply not_true_is_false; intros X; apply andb_true_iff in X; lia).
  replace (TP + FP =? 0)%Z with false by (symmetry; apply Z.eqb_neq; lia).
  assert (P : (0 < (tp + fp) * TP * FP)%Z) by (repeat apply Z.mul_pos_pos; lia).
  replace ((tp + fp) * TP * FP <? 0)%Z with false by (symmetry; apply Z.ltb_ge; lia).
  replace ((tp + fp) * TP * FP =? 0)%Z with false by (symmetry; apply Z.eqb_neq; lia). reflexivity.
Qed.
Theorem C58_probability : forall cdf tp fp TP FP, half_cdf cdf -> consistent_table tp fp TP FP -> (0 < TP)%Z -> (0 < FP)%Z ->
  exists r, p_value_independence cdf tp fp TP FP = Ok r /\ 0 <= r <= 1.
Proof.
  intros cdf tp fp TP FP (C0 & C1 & C2) H HT HF. destruct (Z.eq_dec (tp + fp) 0) as [E|E].
  - exists 1. split; [|lra]. unfold p_value_independence. destruct H as [Ha Hb]. replace ((tp =? 0) && (fp =? 0))%Z with true by (symmetry; apply andb_true_iff; lia).
    destruct ((tp =? TP) && (fp =? FP))%Z; reflexivity.
  - destruct (Z.eq_dec (tp + fp) (TP + FP)) as [E1|E1].
    + exists 1. split; [|lra]. unfold p_value_independence. destruct H as [Ha Hb]. replace ((tp =? TP) && (fp =? FP))%Z with true by (symmetry; apply andb_true_iff; lia). reflexivity.
    + assert (Hn : (0 < tp + fp < TP + FP)%Z) by (destruct H; lia). rewrite p_value_formula by auto. eexists. split; [reflexivity|].
      match goal with |- context [cdf ?x] => assert (X := Rabs_pos); set (z := x) in * end. assert (Z0 : 0 <= z) by apply Rabs_pos. assert (A := C1 0 z (Rle_refl 0) Z0). assert (B := C2 z Z0). lra.
Qed.
(** A subgroup with the same share of positive rows as the dataset has p-value 1. *)
Theorem C58_independent : forall cdf tp fp TP FP, half_cdf cdf -> consistent_table tp fp TP FP -> (0 < TP)%Z -> (0 < FP)%Z -> (tp * FP = fp * TP)%Z ->
  p_value_independence cdf tp fp TP FP = Ok 1.
Proof.
  intros cdf tp fp TP FP (C0 & C1 & C2) H HT HF I. destruct (Z.eq_dec (tp + fp) 0) as [E|E].
  - unfold p_value_independence. destruct H as [Ha Hb]. replace ((tp =? 0) && (fp =? 0))%Z with true by (symmetry; apply andb_true_iff; lia). destruct ((tp =? TP) && (fp =? FP))%Z; reflexivity.
  - destruct (Z.eq_dec (tp + fp) (TP + FP)) as [E1|E1].
    + unfold p_value_independence. destruct H as [Ha Hb]. replace ((tp =? TP) && (fp =? FP))%Z with true by (symmetry; apply andb_true_iff; lia). reflexivity.
    + assert (Hn : (0 < tp + fp < TP + FP)%Z) by (destruct H; lia). rewrite p_value_formula by auto.
      replace (IZR tp - IZR (tp + fp) * IZR TP / IZR (TP + FP)) with 0.
      * unfold Rdiv at 1. rewrite Rmult_0_l, Rabs_R0, C0. f_equal. lra.
      * assert (N : IZR (TP + FP) <> 0) by (apply not_0_IZR; lia). assert (X : (tp * (TP + FP) = (tp + fp) * TP)%Z) by lia.
        apply (f_equal IZR) in X. rewrite !mult_IZR in X. apply (Rmult_eq_reg_r (IZR (TP + FP))); auto. field_simplify; auto. lra.
Qed.
(** Among subgroups with the same number of rows, one further from the expected number of positive rows has no greater p-value. *)
Theorem C58_monotone : forall cdf tp fp tp' fp' TP FP, half_cdf cdf -> consistent_table tp fp TP FP -> consistent_table tp' fp' TP FP -> (0 < TP)%Z -> (0 < FP)%Z ->
  (tp + fp = tp' + fp')%Z -> (Z.abs (tp * (TP + FP) - (tp + fp) * TP) <= Z.abs (tp' * (TP + FP) - (tp' + fp') * TP))%Z ->
  exists r r', p_value_independence cdf tp fp TP FP = Ok r /\ p_value_independence cdf tp' fp' TP FP = Ok r' /\ r' <= r.
Proof.
  intros cdf tp fp tp' fp' TP FP HC H H' HT HF E L. destruct (Z.eq_dec (tp + fp) 0) as [E0|E0].
  - assert (X : tp = tp' /\ fp = fp') by (destruct H, H'; lia). destruct X as [-> ->]. destruct (C58_probability cdf tp' fp' TP FP HC H HT HF) as (r & R & _). exists r, r. repeat split; auto. lra.
  - destruct (Z.eq_dec (tp + fp) (TP + FP)) as [E1|E1].
    + assert (X : tp = tp' /\ fp = fp') by (destruct H, H'; lia). destruct X as [-> ->]. destruct (C58_probability cdf tp' fp' TP FP HC H HT HF) as (r & R & _). exists r, r. repeat split; auto. lra.
    + assert (Hn : (0 < tp + fp < TP + FP)%Z) by (destruct H; lia). rewrite (p_value_formula cdf tp fp), (p_value_formula cdf tp' fp') by (auto; lia). rewrite <- E. eexists _, _. split; [reflexivity|]. split; [reflexivity|].
      set (n := (tp + fp)%Z) in *. rewrite <- E in L. set (sd := sqrt (IZR n * IZR TP / IZR (TP + FP) * IZR FP / IZR (TP + FP))).
      assert (N : 0 < IZR (TP + FP)) by (apply (IZR_lt 0); lia). assert (P1 : 0 < IZR n) by (apply (IZR_lt 0); lia). assert (P2 : 0 < IZR TP) by (apply (IZR_lt 0); lia). assert (P3 : 0 < IZR FP) by (apply (IZR_lt 0); lia).
      assert (S : 0 < sd).
      { apply sqrt_lt_R0. unfold Rdiv. repeat apply Rmult_lt_0_compat; auto; apply Rinv_0_lt_compat; auto. }
      assert (D : forall a, Rabs ((IZR a - IZR n * IZR TP / IZR (TP + FP)) / sd) = IZR (Z.abs (a * (TP + FP) - n * TP)) / (IZR (TP + FP) * sd)).
      { intros a. rewrite abs_IZR, minus_IZR, !mult_IZR. replace ((IZR a - IZR n * IZR TP / IZR (TP + FP)) / sd) with ((IZR a * IZR (TP + FP) - IZR n * IZR TP) / (IZR (TP + FP) * sd)) by (field; split; lra).
        unfold Rdiv. rewrite Rabs_mult. f_equal. apply Rabs_right. apply Rle_ge. left. apply Rinv_0_lt_compat. apply Rmult_lt_0_compat; auto. }
      rewrite !D. destruct HC as (C0 & C1 & C2). apply IZR_le in L.
      assert (X : IZR (Z.abs (tp * (TP + FP) - n * TP)) / (IZR (TP + FP) * sd) <= IZR (Z.abs (tp' * (TP + FP) - n * TP)) / (IZR (TP + FP) * sd)).
      { apply Rmult_le_compat_r; auto. left. apply Rinv_0_lt_compat. apply Rmult_lt_0_compat; auto. }
      assert (Y : 0 <= IZR (Z.abs (tp * (TP + FP) - n * TP)) / (IZR (TP + FP) * sd)).
      { apply Rmult_le_pos; [apply (IZR_le 0); lia|left; apply Rinv_0_lt_compat; apply Rmult_lt_0_compat; auto]. }
      assert (Z := C1 _ _ Y X). lra.
Qed.
(** A dataset without positive rows, or without negative rows, makes it raise an exception for every other subgroup. *)
Theorem C58_one_class : forall cdf tp fp TP FP, consistent_table tp fp TP FP -> (TP = 0 \/ FP = 0)%Z ->
  ((0 < tp + fp < TP + FP)%Z -> p_value_independence cdf tp fp TP FP = Err ZeroDivisionError) /\
  ((tp + fp = 0 \/ tp + fp = TP + FP)%Z -> p_value_independence cdf tp fp TP FP = Ok 1).
Proof.
  intros cdf tp fp TP FP [H1 H2] D. unfold p_value_independence. split; intros H.
  - replace ((tp =? TP) && (fp =? FP))%Z with false by (symmetry; apply not_true_is_false; intros X; apply andb_true_iff in X; lia).
    replace ((tp =? 0) && (fp =? 0))%Z with false by (symmetry; apply not_true_is_false; intros X; apply andb_true_iff in X; lia).
    replace (TP + FP =? 0)%Z with false by (symmetry; apply Z.eqb_neq; lia).
    assert (P : ((tp + fp) * TP * FP = 0)%Z) by (destruct D as [->| ->]; lia). rewrite P. reflexivity.
  - destruct ((tp =? TP) && (fp =? FP))%Z eqn:X; [reflexivity|]. replace ((tp =? 0) && (fp =? 0))%Z with true; [reflexivity|]. symmetry. apply andb_true_iff. apply not_true_iff_false in X. rewrite andb_true_iff in X. lia.
Qed.
(** A cdf of that kind: that of the uniform distribution on [-1, 1]. *)
Example C58_nonvacuous : half_cdf (fun x => (Rmin x 1 + 1) / 2) /\ consistent_table 3 1 4 6 /\ consistent_table 4 0 4 6 /\
  (Z.abs (3 * (4 + 6) - (3 + 1) * 4) <= Z.abs (4 * (4 + 6) - (4 + 0) * 4))%Z.
Proof.
  split; [|unfold consistent_table; lia]. split; [|split].
  - rewrite Rmin_left by lra. lra.
  - intros x y Hx Hy. assert (Rmin x 1 <= Rmin y 1) by (apply Rle_min_compat_r; auto). lra.
  - intros x Hx. assert (Rmin x 1 <= 1) by apply Rmin_r. lra.
Qed.
Print Assumptions C58_probability.
Print Assumptions C58_independent.
Print Assumptions C58_monotone.
Print Assumptions C58_one_class.
