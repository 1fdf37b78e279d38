(** Theorems C65-C67: dictionaries of additional parameters, checks of the constructors, accepted optimistic estimates. *)
From Coq Require Import Reals.
From Verif Require Import BinomialModel ConstructorModel QualitySpec Properties_Quality.
From Coq Require Import Lia.
Open Scope string_scope.
Open Scope list_scope.
Open Scope nat_scope.

(** * Specification *)
(** What a parameter may be. *)
Definition an_int (v : pyval) : Prop := exists z, v = PInt z.
Definition a_float (v : pyval) : Prop := exists x, v = PFloat x.
Definition a_number (v : pyval) : Prop := an_int v \/ a_float v.
Definition a_flag (v : pyval) : Prop := exists b, v = PBool b.
Definition a_text (v : pyval) : Prop := exists s, v = PStr s.
Definition a_dict (v : pyval) : Prop := exists a, v = PDict a.
Definition a_measure (v : pyval) : Prop := exists m, v = PMeasure m.
Definition or_none (P : pyval -> Prop) (v : pyval) : Prop := v = PNone \/ P v.
(** The (int or float) value is less (greater) than [q]; nan is neither. *)
Definition less (v : pyval) (q : Q) : Prop := (exists z, v = PInt z /\ inject_Z z < q)%Q \/ (exists x, v = PFloat (XFin x) /\ x < q)%Q \/ v = PFloat XNegInf.
Definition greater (v : pyval) (q : Q) : Prop := (exists z, v = PInt z /\ q < inject_Z z)%Q \/ (exists x, v = PFloat (XFin x) /\ q < x)%Q \/ v = PFloat XPosInf.
Definition equals (v : pyval) (q : Q) : Prop := (exists z, v = PInt z /\ inject_Z z == q)%Q \/ (exists x, v = PFloat (XFin x) /\ x == q)%Q.
(** If the results are written, there is a path. *)
Definition has_path (write path : pyval) : Prop := write = PBool true -> path <> PNone.
(** The thresholds: tp and fp, or n. *)
Definition one_threshold (tp fp n : pyval) : Prop := (tp <> PNone /\ fp <> PNone /\ n = PNone) \/ (tp = PNone /\ fp = PNone /\ n <> PNone).
(** The optimistic estimate says that it is one of the quality measure. *)
Definition estimates (q oe : pyval) : Prop := exists m o, q = PMeasure m /\ oe = PMeasure o /\ In (mo_name m) (mo_of o).
(** Requirements in order, each with the error for its violation. *)
Definition requirements := list (Prop * exn).
Definition all_hold (l : requirements) : Prop := forall r, In r l -> fst r.
Definition first_violated (l : requirements) (e : exn) : Prop := exists l1 P l2, l = l1 ++ (P, e) :: l2 /\ all_hold l1 /\ ~ P.
(** The object is created if and only if all the requirements hold; the error is the one of the first requirement that does not. *)
Definition decided_by {A} (r : res A) (l : requirements) : Prop :=
  ((exists o, r = Ok o) <-> all_hold l) /\ forall e, r = Err e <-> first_violated l e.

(** * Proofs of the decisions *)
Lemma hold_nil : all_hold []. Proof. intros r []. Qed.
Lemma hold_cons : forall P e l, all_hold ((P, e) :: l) <-> P /\ all_hold l.
Proof. intros P e l. split; [intros H; split; [apply (H (P, e)); left; auto|intros r Hr; apply H; right; auto]|]. intros [A B] r [<-|Hr]; auto. Qed.
Lemma violated_cons : forall P e l e', first_violated ((P, e) :: l) e' <-> (~ P /\ e' = e) \/ (P /\ first_violated l e').
Proof.
  intros P e l e'. split.
  - intros (l1 & P1 & l2 & E & H & N). destruct l1 as [|x l1]; cbn [app] in E; injection E as E1 E2; [inversion E1; subst; auto|]. subst x. apply hold_cons in H. right. split; [apply H|]. exists l1, P1, l2. split; auto. split; [apply H|auto].
  - intros [[N ->]|[HP (l1 & P1 & l2 & -> & H & N)]]; [exists [], P, l; split; [auto|split; [apply hold_nil|auto]]|]. exists ((P, e) :: l1), P1, l2. split; [reflexivity|]. split; auto. apply hold_cons; auto.
Qed.
Lemma violated_nil : forall e, ~ first_violated [] e.
Proof. intros e (l1 & P & l2 & E & _). destruct l1; discriminate. Qed.
Lemma decided_nil : forall {A} (x : A), decided_by (Ok x) [].
Proof. intros A x. split; [split; [intros _; apply hold_nil|eauto]|]. intros e. split; [discriminate|intros H; destruct (violated_nil e H)]. Qed.
Lemma decided_stop : forall {A} (b : bool) (P : Prop) e (k : run A) l h, (b = false <-> P) -> (P -> decided_by (snd (k h)) l) ->
  decided_by (snd (then_ (stop_if b e) (fun _ => k) h)) ((P, e) :: l).
Proof.
  intros A b P e k l h HB HK. unfold then_, stop_if. destruct b; cbn [raise ret].
  - assert (N : ~ P) by (rewrite <- HB; discriminate). unfold raise. cbn [snd]. split; [split; [intros (o & H); discriminate|intros H; apply hold_cons in H; tauto]|]. intros e'. rewrite violated_cons. split; [intros H; injection H as ->; auto|intros [[_ ->]|[H _]]; [auto|contradiction]].
  - assert (HP : P) by (apply HB; auto). unfold ret. destruct (HK HP) as [A1 A2]. split; [rewrite hold_cons, A1; tauto|]. intros e'. rewrite violated_cons, A2. tauto.
Qed.
Lemma decided_raise : forall {A} (P : Prop) e l h, ~ P -> decided_by (snd (@raise A e h)) ((P, e) :: l).
Proof. intros A P e l h N. unfold raise. cbn [snd]. split; [split; [intros (o & H); discriminate|intros H; apply hold_cons in H; tauto]|]. intros e'. rewrite violated_cons. split; [intros H; injection H as ->; auto|intros [[_ ->]|[H _]]; [auto|contradiction]]. Qed.
Lemma decided_skip : forall {A} (P : Prop) e l (r : res A), P -> decided_by r l -> decided_by r ((P, e) :: l).
Proof. intros A P e l r HP [A1 A2]. split; [rewrite hold_cons, A1; tauto|]. intros e'. rewrite violated_cons, A2. tauto. Qed.

Lemma b_int : forall v, negb (ty_int v) = false <-> an_int v.
Proof. intros v. unfold an_int. destruct v; cbn; (split; [intros H; first [discriminate|eexists; reflexivity]|intros (y & H); first [discriminate|reflexivity]]). Qed.
Lemma b_float : forall v, negb (ty_float v) = false <-> a_float v.
Proof. intros v. unfold a_float. destruct v; cbn; (split; [intros H; first [discriminate|eexists; reflexivity]|intros (y & H); first [discriminate|reflexivity]]). Qed.
Lemma b_flag : forall v, negb (ty_bool v) = false <-> a_flag v.
Proof. intros v. unfold a_flag. destruct v; cbn; (split; [intros H; first [discriminate|eexists; reflexivity]|intros (y & H); first [discriminate|reflexivity]]). Qed.
Lemma b_text : forall v, negb (ty_str v) = false <-> a_text v.
Proof. intros v. unfold a_text. destruct v; cbn; (split; [intros H; first [discriminate|eexists; reflexivity]|intros (y & H); first [discriminate|reflexivity]]). Qed.
Lemma b_dict : forall v, negb (ty_dict v) = false <-> a_dict v.
Proof. intros v. unfold a_dict. destruct v; cbn; (split; [intros H; first [discriminate|eexists; reflexivity]|intros (y & H); first [discriminate|reflexivity]]). Qed.
Lemma b_measure : forall v, negb (ty_measure v) = false <-> a_measure v.
Proof. intros v. unfold a_measure. destruct v; cbn; (split; [intros H; first [discriminate|eexists; reflexivity]|intros (y & H); first [discriminate|reflexivity]]). Qed.
Lemma b_none : forall v, negb (ty_none v) = false <-> v = PNone.
Proof. intros v. destruct v; cbn; split; try discriminate; auto. Qed.
Lemma b_number : forall v, negb (ty_int v) && negb (ty_float v) = false <-> a_number v.
Proof. intros v. rewrite andb_false_iff, b_int, b_float. reflexivity. Qed.
Lemma b_number' : forall v, negb (ty_float v) && negb (ty_int v) = false <-> a_number v.
Proof. intros v. rewrite andb_comm. apply b_number. Qed.
Lemma b_opt_int : forall v, negb (ty_int v) && negb (ty_none v) = false <-> or_none an_int v.
Proof. intros v. rewrite andb_false_iff, b_int, b_none. unfold or_none. tauto. Qed.
Lemma b_opt_text : forall v, negb (ty_str v) && negb (ty_none v) = false <-> or_none a_text v.
Proof. intros v. rewrite andb_false_iff, b_text, b_none. unfold or_none. tauto. Qed.
Lemma b_opt_text' : forall v, negb (ty_none v) && negb (ty_str v) = false <-> or_none a_text v.
Proof. intros v. rewrite andb_comm. apply b_opt_text. Qed.
Lemma b_path : forall h w p, a_flag w -> (truthy h w && ty_none p = false <-> has_path w p).
Proof.
  intros h w p (b & ->). unfold has_path. cbn [truthy]. destruct b; cbn [andb].
  - split; [intros H _ ->; discriminate|intros H; specialize (H eq_refl); destruct p; cbn; congruence].
  - split; [intros _ H; discriminate|reflexivity].
Qed.
Lemma qlt_b : forall a b, negb (Qle_bool b a) = true <-> (a < b)%Q.
Proof. intros a b. rewrite negb_true_iff, <- not_true_iff_false, Qle_bool_iff. split; [intros H; apply Qnot_le_lt; auto|intros H K; apply (Qlt_not_le _ _ H K)]. Qed.
Lemma b_less : forall v q, num_lt v q = true <-> less v q.
Proof.
  intros v q. unfold num_lt, less. destruct v as [z|x|b|s| |a|m|n|]; cbn [pv_num]; try (split; [cbn; discriminate|intros [(y & H & _)|[(y & H & _)|H]]; discriminate]).
  - cbn [xlt]. rewrite qlt_b. split; [left; eauto|intros [(y & H & K)|[(y & H & _)|H]]; [injection H as ->; auto|discriminate|discriminate]].
  - destruct x as [| |y|]; cbn [xlt]; try (split; [discriminate|intros [(w & H & _)|[(w & H & _)|H]]; discriminate]); [split; [auto|reflexivity]|].
    rewrite qlt_b. split; [right; left; eauto|intros [(w & H & _)|[(w & H & K)|H]]; [discriminate|injection H as ->; auto|discriminate]].
Qed.
Lemma b_greater : forall v q, num_gt v q = true <-> greater v q.
Proof.
  intros v q. unfold num_gt, greater. destruct v as [z|x|b|s| |a|m|n|]; cbn [pv_num]; try (split; [cbn; discriminate|intros [(y & H & _)|[(y & H & _)|H]]; discriminate]).
  - cbn [xlt]. rewrite qlt_b. split; [left; eauto|intros [(y & H & K)|[(y & H & _)|H]]; [injection H as ->; auto|discriminate|discriminate]].
  - destruct x as [| |y|]; cbn [xlt]; try (split; [discriminate|intros [(w & H & _)|[(w & H & _)|H]]; discriminate]); [|split; [auto|reflexivity]].
    rewrite qlt_b. split; [right; left; eauto|intros [(w & H & _)|[(w & H & K)|H]]; [discriminate|injection H as ->; auto|discriminate]].
Qed.
Lemma b_equals : forall v q, xeq (pv_num v) (XFin q) = true <-> equals v q.
Proof.
  intros v q. unfold equals. destruct v as [z|x|b|s| |a|m|n|]; cbn [pv_num]; try (split; [cbn; discriminate|intros [(y & H & _)|(y & H & _)]; discriminate]).
  - cbn [xeq]. rewrite Qeq_bool_iff. split; [left; eauto|intros [(y & H & K)|(y & H & _)]; [injection H as ->; auto|discriminate]].
  - destruct x as [| |y|]; cbn [xeq]; try (split; [discriminate|intros [(w & H & _)|(w & H & _)]; discriminate]).
    rewrite Qeq_bool_iff. split; [right; eauto|intros [(w & H & _)|(w & H & K)]; [discriminate|injection H as ->; auto]].
Qed.
Lemma b_equals' : forall v q, xeq (XFin q) (pv_num v) = true <-> equals v q.
Proof. intros v q. rewrite <- b_equals. destruct (pv_num v) as [| |y|]; cbn [xeq]; try tauto. rewrite !Qeq_bool_iff. split; apply Qeq_sym. Qed.
Lemma not_iff : forall b (P : Prop), (b = true <-> P) -> (b = false <-> ~ P).
Proof. intros b P H. rewrite <- not_true_iff_false, H. tauto. Qed.
Definition at_most (v : pyval) (q : Q) : Prop := less v q \/ equals v q.
Definition at_least (v : pyval) (q : Q) : Prop := greater v q \/ equals v q.
Lemma b_not_less : forall v q, num_lt v q = false <-> ~ less v q.
Proof. intros. apply not_iff, b_less. Qed.
Lemma b_not_at_most : forall v q, num_le v q = false <-> ~ at_most v q.
Proof. intros. apply not_iff. unfold num_le, xle, at_most. rewrite orb_true_iff, b_equals, <- b_less. reflexivity. Qed.
Lemma b_within : forall v a b, num_lt v a || num_gt v b = false <-> ~ less v a /\ ~ greater v b.
Proof. intros. rewrite orb_false_iff, b_not_less, (not_iff _ _ (b_greater v b)). reflexivity. Qed.
Lemma b_inside : forall v a b, num_le v a || num_ge v b = false <-> ~ at_most v a /\ ~ at_least v b.
Proof. intros. rewrite orb_false_iff, b_not_at_most. rewrite (not_iff (num_ge v b) (at_least v b)); [reflexivity|]. unfold num_ge, xle, at_least. rewrite orb_true_iff, b_equals', <- b_greater. reflexivity. Qed.
Lemma b_coherent : forall tp fp n, coherent tp fp n = true <-> one_threshold tp fp n.
Proof.
  intros tp fp n. unfold coherent, one_threshold. rewrite orb_true_iff, !andb_true_iff, !negb_true_iff.
  assert (T : forall v, ty_none v = true <-> v = PNone) by (intros v; destruct v; cbn; split; congruence). assert (F : forall v, ty_none v = false <-> v <> PNone) by (intros v; destruct v; cbn; split; congruence).
  rewrite !T, !F. tauto.
Qed.
Lemma b_in : forall v l, negb (ty_in v l) = false <-> exists s, v = PStr s /\ In s l.
Proof.
  intros v l. rewrite negb_false_iff. unfold ty_in. destruct v; try (split; [discriminate|intros (y & H & _); discriminate]). rewrite existsb_exists. split.
  - intros (x & Hx & E). apply String.eqb_eq in E. subst x. eauto.
  - intros (x & H & Hx). injection H as ->. exists x. split; auto. apply String.eqb_refl.
Qed.
Lemma decided_copy : forall {A} v (f : nat -> run A) l h, a_dict v -> (forall d h', decided_by (snd (f d h')) l) -> decided_by (snd (then_ (copied v) f h)) l.
Proof. intros A v f l h (a & ->) H. unfold then_, copied. apply H. Qed.
(** The optimistic estimate is a measure (AttributeError if not) and names the quality measure (ValueError if not). *)
Lemma decided_estimate : forall {A} q oe (k : run A) l h, a_measure q -> (estimates q oe -> decided_by (snd (k h)) l) ->
  decided_by (snd (then_ (not_estimated q oe) (fun b => then_ (stop_if b ValueError) (fun _ => k)) h)) ((a_measure oe, AttributeError) :: (estimates q oe, ValueError) :: l).
Proof.
  intros A q oe k l h (m & ->) HK. destruct oe as [z|x|b|s| |a|o|n|]; try (apply decided_raise; intros (y & E); discriminate).
  apply decided_skip; [exists o; auto|]. unfold then_ at 1, not_estimated. apply decided_stop; auto.
  rewrite negb_false_iff, existsb_exists. unfold estimates. split.
  - intros (x & Hx & E). apply String.eqb_eq in E. exists m, o. rewrite E. auto.
  - intros (m' & o' & E1 & E2 & H). injection E1 as <-. injection E2 as <-. exists (mo_name m). split; auto. apply String.eqb_refl.
Qed.

(** * C66: the constructors *)
Ltac decide_step :=
  lazymatch goal with
  | |- decided_by (snd (then_ (stop_if _ _) _ _)) _ => apply decided_stop; [first [apply b_int|apply b_float|apply b_flag|apply b_text|apply b_dict|apply b_measure|apply b_number|apply b_number'|apply b_opt_int|apply b_opt_text|apply b_opt_text'
      |apply b_path; assumption|apply b_within|apply b_inside|apply b_not_less|apply b_not_at_most|apply b_in]|intro]
  | |- decided_by (snd (then_ (copied _) _ _)) _ => apply decided_copy; [assumption|intros ? ?]
  | |- decided_by (snd (ret _ _)) [] => apply decided_nil
  end.
(** SDMap: the types, then the path, then the thresholds. *)
Definition sdmap_types (a : sdmap_args) : requirements :=
  [(a_measure (sa_q a), TypeError); (a_number (sa_min a), TypeError); (or_none an_int (sa_tp a), TypeError); (or_none an_int (sa_fp a), TypeError); (or_none an_int (sa_n a), TypeError);
   (a_dict (sa_params a), TypeError); (a_flag (sa_write a), TypeError); (or_none a_text (sa_path a), TypeError)].
Definition sdmap_values (a : sdmap_args) : requirements :=
  [(has_path (sa_write a) (sa_path a), ValueError); (one_threshold (sa_tp a) (sa_fp a) (sa_n a), InconsistentMethodParametersError)].
Theorem C66_sdmap : forall a h, decided_by (snd (sdmap_init a h)) (sdmap_types a ++ sdmap_values a).
Proof.
  intros a h. unfold sdmap_init, sdmap_types, sdmap_values. cbn [app]. do 8 decide_step. decide_step.
  destruct (coherent _ _ _) eqn:E; [|apply decided_raise; rewrite <- b_coherent; congruence]. apply decided_skip; [apply b_coherent; auto|]. repeat decide_step.
Qed.
(** SDMapStar: the same; then AttributeError if the optimistic estimate is no measure, ValueError if it is not one of the quality measure,
    and AttributeError or TypeError if its additional parameters are not a dictionary. *)
Definition no_copy (v : pyval) : Prop := exists n, v = PList n.
Definition star_types (a : star_args) : requirements :=
  [(a_measure (ta_q a), TypeError); (a_number (ta_min a), TypeError); (or_none an_int (ta_tp a), TypeError); (or_none an_int (ta_fp a), TypeError); (or_none an_int (ta_n a), TypeError);
   (a_dict (ta_params a), TypeError); (a_flag (ta_write a), TypeError); (an_int (ta_num a), TypeError); (or_none a_text (ta_path a), TypeError)].
Definition star_values (a : star_args) : requirements :=
  [(has_path (ta_write a) (ta_path a), ValueError); (a_measure (ta_oe a), AttributeError); (estimates (ta_q a) (ta_oe a), ValueError);
   (one_threshold (ta_tp a) (ta_fp a) (ta_n a), InconsistentMethodParametersError); (~ no_copy (ta_oparams a), TypeError); (a_dict (ta_oparams a), AttributeError)].
Lemma decided_last : forall {A} v (f : nat -> run A) l h, (forall d h', a_dict v -> decided_by (snd (f d h')) l) -> decided_by (snd (then_ (copied v) f h)) ((~ no_copy v, TypeError) :: (a_dict v, AttributeError) :: l).
Proof.
  intros A v f l h H. unfold then_, copied.
  destruct v as [z|x|b|s| |a|m|n|]; try (apply decided_skip; [intros (y & E); discriminate|]; apply (decided_raise _ AttributeError l h); intros (y & E); discriminate).
  - apply decided_skip; [intros (y & E); discriminate|]. apply decided_skip; [eexists; reflexivity|]. apply H. eexists; reflexivity.
  - apply (decided_raise _ TypeError _ h). intros K. apply K. eexists; reflexivity.
Qed.
Theorem C66_sdmapstar : forall a h, decided_by (snd (star_init a h)) (star_types a ++ star_values a).
Proof.
  intros a h. unfold star_init, star_types, star_values. cbn [app]. do 10 decide_step. apply decided_estimate; auto. intros HE.
  destruct (coherent _ _ _) eqn:E; [|apply decided_raise; rewrite <- b_coherent; congruence]. apply decided_skip; [apply b_coherent; auto|]. decide_step. apply decided_last. intros. decide_step.
Qed.
(** VLSD: here a type may be checked after a value. *)
Definition one_of (v : pyval) (l : list string) : Prop := exists s, v = PStr s /\ In s l.
Definition vlsd_requirements (a : vlsd_args) : requirements :=
  [(a_measure (va_q a), TypeError); (a_number (va_min a), TypeError); (a_measure (va_oe a), TypeError); (estimates (va_q a) (va_oe a), ValueError); (a_number (va_omin a), TypeError);
   (a_dict (va_params a), TypeError); (a_dict (va_oparams a), TypeError);
   (one_of (va_s1 a) ["quality-ascending"; "quality-descending"; "no-order"], ValueError); (one_of (va_other a) ["quality-ascending"; "quality-descending"; "no-order"], ValueError);
   (one_of (va_impl a) ["bitsets"; "sets"], ValueError);
   (a_flag (va_write a), TypeError); (or_none a_text (va_path a), TypeError); (has_path (va_write a) (va_path a), ValueError)].
Lemma decided_drop : forall {A} (r : res A) (P : Prop) e l, P -> decided_by r ((P, e) :: l) -> decided_by r l.
Proof. intros A r P e l HP [D1 D2]. split; [rewrite D1, hold_cons; tauto|]. intros e'. rewrite D2, violated_cons. tauto. Qed.
Theorem C66_vlsd : forall a h, decided_by (snd (vlsd_init a h)) (vlsd_requirements a).
Proof.
  intros a h. unfold vlsd_init, vlsd_requirements, one_of, sort_criteria, list_implementations. do 3 decide_step.
  eapply decided_drop; [|apply decided_estimate; auto]; [assumption|]. intros HE. repeat decide_step.
Qed.
(** BSD, CBSD and CPBSD. *)
Definition bsd_types (a : bsd_args) : requirements :=
  [(a_measure (ba_q a), TypeError); (an_int (ba_num a), TypeError); (an_int (ba_depth a), TypeError); (a_number (ba_support a), TypeError); (a_dict (ba_params a), TypeError);
   (a_flag (ba_write a), TypeError); (or_none a_text (ba_path a), TypeError)].
Definition bsd_values (a : bsd_args) : requirements :=
  [(has_path (ba_write a) (ba_path a), ValueError); (a_measure (ba_oe a), AttributeError); (estimates (ba_q a) (ba_oe a), ValueError); (~ no_copy (ba_oparams a), TypeError); (a_dict (ba_oparams a), AttributeError)].
Theorem C66_bsd : forall a h, decided_by (snd (bsd_init a h)) (bsd_types a ++ bsd_values a).
Proof.
  intros a h. unfold bsd_init, bsd_types, bsd_values. cbn [app]. do 8 decide_step. apply decided_estimate; auto. intros HE. decide_step. apply decided_last. intros. decide_step.
Qed.
(** IDSD. *)
Definition idsd_types (a : idsd_args) : requirements :=
  [(an_int (ia_num a), TypeError); (an_int (ia_cats a), TypeError); (an_int (ia_max a), TypeError); (a_number (ia_cov a), TypeError); (a_number (ia_or a), TypeError); (a_number (ia_p a), TypeError);
   (a_number (ia_abs a), TypeError); (a_number (ia_ratio a), TypeError); (a_flag (ia_write a), TypeError); (or_none a_text (ia_path a), TypeError)].
Definition idsd_values (a : idsd_args) : requirements :=
  [(~ less (ia_num a) 1, ValueError); (~ less (ia_cats a) (-1) /\ ~ equals (ia_cats a) 0, ValueError); (~ less (ia_cov a) 0 /\ ~ greater (ia_cov a) 1, ValueError); (~ less (ia_or a) 0, ValueError);
   (~ less (ia_p a) 0 /\ ~ greater (ia_p a) 1, ValueError); (~ less (ia_abs a) 0, ValueError); (~ less (ia_ratio a) 0, ValueError); (has_path (ia_write a) (ia_path a), ValueError)].
Theorem C66_idsd : forall a h, decided_by (snd (idsd_init a h)) (idsd_types a ++ idsd_values a).
Proof.
  intros a h. unfold idsd_init, idsd_types, idsd_values. cbn [app]. do 11 decide_step.
  apply decided_stop; [rewrite orb_false_iff, b_not_less, (not_iff _ _ (b_equals _ _)); reflexivity|intro]. repeat decide_step.
Qed.
(** QFinder: 'write_results_in_file' and 'file_path' are not checked (the first one counts as true like any Python object). *)
Definition qfinder_types (a : qfinder_args) : requirements :=
  [(an_int (qa_num a), TypeError); (an_int (qa_cats a), TypeError); (an_int (qa_max a), TypeError); (a_number (qa_cov a), TypeError); (a_number (qa_or a), TypeError); (a_number (qa_p a), TypeError);
   (a_number (qa_abs a), TypeError); (a_number (qa_ratio a), TypeError); (a_number (qa_delta a), TypeError)].
Definition qfinder_values (h : heap) (a : qfinder_args) : requirements :=
  [(~ less (qa_cats a) (-1), ValueError); (~ less (qa_cov a) 0 /\ ~ greater (qa_cov a) 1, ValueError); (~ less (qa_or a) 0, ValueError);
   (~ less (qa_p a) 0 /\ ~ greater (qa_p a) 1, ValueError); (~ less (qa_abs a) 0, ValueError); (~ less (qa_ratio a) 0, ValueError); (truthy h (qa_write a) = true -> qa_path a <> PNone, ValueError)].
Theorem C66_qfinder : forall a h, decided_by (snd (qfinder_init a h)) (qfinder_types a ++ qfinder_values h a).
Proof.
  intros a h. unfold qfinder_init, qfinder_types, qfinder_values. cbn [app]. do 15 decide_step.
  apply decided_stop; [|intro; decide_step]. rewrite andb_false_iff. assert (F : ty_none (qa_path a) = false <-> qa_path a <> PNone) by (destruct (qa_path a); cbn; split; congruence). rewrite F.
  destruct (truthy h (qa_write a)); [split; [intros [K|K] _; [discriminate|exact K]|intros K; right; auto]|split; [intros _ K; discriminate|intros _; left; reflexivity]].
Qed.
(** SDIGA: floats only. *)
Definition sdiga_types (a : sdiga_args) : requirements :=
  [(an_int (ga_gen a), TypeError); (an_int (ga_pop a), TypeError); (a_float (ga_cross a), TypeError); (a_float (ga_mut a), TypeError); (a_float (ga_supp a), TypeError); (a_float (ga_conf a), TypeError);
   (a_float (ga_min a), TypeError); (a_flag (ga_write a), TypeError); (or_none a_text (ga_path a), TypeError)].
Definition sdiga_values (a : sdiga_args) : requirements :=
  [(has_path (ga_write a) (ga_path a), ValueError); (~ at_most (ga_gen a) 0, ValueError); (~ at_most (ga_pop a) 0, ValueError); (~ at_most (ga_cross a) 0 /\ ~ at_least (ga_cross a) 1, ValueError);
   (~ at_most (ga_mut a) 0 /\ ~ at_least (ga_mut a) 1, ValueError); (~ less (ga_supp a) 0, ValueError); (~ less (ga_conf a) 0, ValueError); (~ less (ga_min a) 0, ValueError)].
Theorem C66_sdiga : forall a h, decided_by (snd (sdiga_init a h)) (sdiga_types a ++ sdiga_values a).
Proof. intros a h. unfold sdiga_init, sdiga_types, sdiga_values. cbn [app]. repeat decide_step. Qed.
(** GMSL, PSLD and DSLM. *)
Definition gmsl_requirements (a : gmsl_args) : requirements :=
  [(a_text (la_in a), TypeError); (an_int (la_max a), TypeError); (~ at_most (la_max a) 0, ValueError); (a_number (la_beta a), TypeError); (~ less (la_beta a) 0 /\ ~ greater (la_beta a) 1, ValueError); (a_text (la_out a), TypeError)].
Definition psld_requirements (size : pyval) (a : gmsl_args) : requirements := (an_int size, TypeError) :: (~ at_most size 0, ValueError) :: gmsl_requirements a.
Definition dslm_requirements (pos neg size : pyval) (a : gmsl_args) : requirements := (a_float pos, TypeError) :: (a_float neg, TypeError) :: psld_requirements size a.
Lemma decided_map : forall {A B} (m : run A) (f : A -> B) l h, decided_by (snd (m h)) l -> decided_by (snd (then_ m (fun x => ret (f x)) h)) l.
Proof.
  intros A B m f l h [D1 D2]. unfold then_. destruct (m h) as [h' [x|e]]; cbn [snd ret] in *; unfold ret; cbn [snd].
  - split; [rewrite <- D1; split; eauto|]. intros e. rewrite <- D2. split; discriminate.
  - split; [rewrite <- D1; split; intros (o & K); discriminate|]. intros e'. rewrite <- D2. split; intros K; injection K as ->; reflexivity.
Qed.
Theorem C66_lists : forall a pos neg size h, decided_by (snd (gmsl_init a h)) (gmsl_requirements a) /\
  decided_by (snd (psld_init size a h)) (psld_requirements size a) /\ decided_by (snd (dslm_init pos neg size a h)) (dslm_requirements pos neg size a).
Proof.
  intros a pos neg size h. assert (G : forall h, decided_by (snd (gmsl_init a h)) (gmsl_requirements a)) by (intros h'; unfold gmsl_init, gmsl_requirements; repeat decide_step).
  assert (P : forall h, decided_by (snd (psld_init size a h)) (psld_requirements size a)) by (intros h'; unfold psld_init, psld_requirements; do 2 decide_step; apply decided_map; auto).
  split; auto. split; auto. unfold dslm_init, dslm_requirements. do 2 decide_step. apply decided_map; auto.
Qed.
(** Consequences for the users.  In SDMap, IDSD, QFinder and SDIGA (all the types are checked before any value) a wrong type is always
    a TypeError, and a TypeError always means a wrong type; with the right types, the error is a ValueError or (SDMap) an
    InconsistentMethodParametersError. *)
Lemma types_first : forall {A} (r : res A) types values, decided_by r (types ++ values) -> (forall x, In x types -> snd x = TypeError) -> (forall x, In x values -> snd x <> TypeError) ->
  (r = Err TypeError <-> ~ all_hold types) /\ forall e, r = Err e -> e <> TypeError -> all_hold types /\ exists P, In (P, e) values /\ ~ P.
Proof.
  intros A r types values [D1 D2] HT HV.
  assert (S0 : forall e, first_violated (types ++ values) e -> (e = TypeError /\ ~ all_hold types) \/ (all_hold types /\ exists P, In (P, e) values /\ ~ P)).
  { intros e. clear D1 D2. induction types as [|[P e0] types IH]; cbn [app].
    - intros (l1 & P & l2 & -> & _ & N). right. split; [apply hold_nil|]. exists P. split; auto. apply in_or_app. right. left. auto.
    - intros H. apply violated_cons in H. destruct H as [[N ->]|[HP H]]; [left; split; [apply (HT (P, e0)); left; auto|intros K; apply hold_cons in K; tauto]|].
      destruct (IH (fun x Hx => HT x (or_intror Hx)) H) as [[E N]|[K X]]; [left; split; auto; intros K; apply hold_cons in K; tauto|right; split; auto; apply hold_cons; auto]. }
  split; [split|].
  - intros E K. apply D2, S0 in E. destruct E as [[_ N]|[_ (P & I & _)]]; [contradiction|]. apply HV in I. apply I. reflexivity.
  - intros N. destruct r as [o|e]; [exfalso; apply N; intros x Hx; apply (proj1 D1 (ex_intro _ o eq_refl)), in_or_app; auto|]. assert (K := proj1 (D2 e) eq_refl). apply S0 in K. destruct K as [[-> _]|[K _]]; [reflexivity|contradiction].
  - intros e E NE. apply D2, S0 in E. destruct E as [[E _]|E]; [contradiction|auto].
Qed.
Definition types_then {A} (r : res A) (types : requirements) (others : list exn) : Prop :=
  (r = Err TypeError <-> ~ all_hold types) /\ forall e, r = Err e -> e = TypeError \/ (all_hold types /\ In e others).
Lemma types_then_of : forall {A} (r : res A) types values others, decided_by r (types ++ values) -> (forall x, In x types -> snd x = TypeError) -> (forall x, In x values -> snd x <> TypeError /\ In (snd x) others) ->
  types_then r types others.
Proof.
  intros A r types values others D HT HV. destruct (types_first r types values D HT (fun x Hx => proj1 (HV x Hx))) as [K1 K2]. split; auto. intros e E.
  assert (DE : e = TypeError \/ e <> TypeError) by (destruct e; auto; right; discriminate). destruct DE as [->|NE]; auto. destruct (K2 e E NE) as [K3 (P & I & _)]. right. split; auto. apply HV in I. apply I.
Qed.
Theorem C66_types_first : forall a1 a2 a3 a4 h,
  types_then (snd (sdmap_init a1 h)) (sdmap_types a1) [ValueError; InconsistentMethodParametersError] /\ types_then (snd (idsd_init a2 h)) (idsd_types a2) [ValueError] /\
  types_then (snd (qfinder_init a3 h)) (qfinder_types a3) [ValueError] /\ types_then (snd (sdiga_init a4 h)) (sdiga_types a4) [ValueError].
Proof.
  intros a1 a2 a3 a4 h. split; [|split; [|split]]; (eapply types_then_of; [first [apply C66_sdmap|apply C66_idsd|apply C66_qfinder|apply C66_sdiga]| |]);
  (intros x Hx; cbn in Hx; repeat (destruct Hx as [<-|Hx]; [cbn; first [reflexivity|split; [discriminate|tauto]]|]); destruct Hx).
Qed.
(** A boolean is no int for the constructors; an int is no float for SDIGA. *)
Theorem C66_bool_is_no_int : forall a b h, sa_tp a = PBool b \/ sa_fp a = PBool b \/ sa_n a = PBool b \/ sa_min a = PBool b -> snd (sdmap_init a h) = Err TypeError.
Proof.
  intros a b h H. apply (proj2 (proj1 (proj1 (C66_types_first a (IdsdArgs PNone PNone PNone PNone PNone PNone PNone PNone PNone PNone) (QfinderArgs PNone PNone PNone PNone PNone PNone PNone PNone PNone PNone PNone) (SdigaArgs PNone PNone PNone PNone PNone PNone PNone PNone PNone) h)))).
  intros K. assert (K1 := K _ (or_intror (or_introl eq_refl))). assert (K2 := K _ (or_intror (or_intror (or_introl eq_refl)))). assert (K3 := K _ (or_intror (or_intror (or_intror (or_introl eq_refl))))). assert (K4 := K _ (or_intror (or_intror (or_intror (or_intror (or_introl eq_refl)))))).
  cbn [fst] in *. unfold or_none, a_number, an_int, a_float in *. destruct H as [H|[H|[H|H]]]; rewrite H in *;
  repeat match goal with X : _ \/ _ |- _ => destruct X as [X|X] | X : exists _, _ |- _ => destruct X as [? X] end; discriminate.
Qed.
(** The ranges do not exclude nan: a threshold "between 0 and 1" may be nan; and the probability 1.0 of the message "(0, 1]" of SDIGA is
    rejected. *)
Theorem C66_nan_refuted : forall h, let nan := PFloat XNan in
  (exists o, snd (idsd_init (IdsdArgs (PInt 3) (PInt (-1)) (PInt (-1)) nan nan nan nan nan (PBool false) PNone) h) = Ok o) /\
  (exists o, snd (qfinder_init (QfinderArgs (PInt (-3)) (PInt (-1)) (PInt (-1)) nan nan nan nan nan nan (PBool false) PNone) h) = Ok o) /\
  (exists o, snd (gmsl_init (GmslArgs (PStr "in") (PInt 1) nan (PStr "out")) h) = Ok o) /\
  (forall gen pop mut supp conf mn path, snd (sdiga_init (SdigaArgs (PInt gen) (PInt pop) (PFloat (XFin 1)) (PFloat mut) (PFloat supp) (PFloat conf) (PFloat mn) (PBool false) (PStr path)) h) = Err ValueError).
Proof.
  intros h nan. repeat split; try (eexists; reflexivity). intros gen pop mut supp conf mn path.
  set (a := SdigaArgs _ _ _ _ _ _ _ _ _). destruct (C66_types_first (SdmapArgs PNone PNone PNone PNone PNone PNone PNone PNone) (IdsdArgs PNone PNone PNone PNone PNone PNone PNone PNone PNone PNone) (QfinderArgs PNone PNone PNone PNone PNone PNone PNone PNone PNone PNone PNone) a h) as (_ & _ & _ & T1 & T2).
  destruct (C66_sdiga a h) as [D1 D2]. destruct (snd (sdiga_init a h)) as [o|e] eqn:E.
  - exfalso. assert (K := proj1 D1 (ex_intro _ o eq_refl)). assert (K1 : ~ at_most (ga_cross a) 0 /\ ~ at_least (ga_cross a) 1) by (apply (K (_, ValueError)); cbn; tauto). apply (proj2 K1). right. right. exists 1%Q. split; reflexivity.
  - destruct (T2 e eq_refl) as [->|[_ [<-|[]]]]; [|reflexivity]. exfalso. apply (proj1 T1 eq_refl). intros r Hr. cbn in Hr. repeat (destruct Hr as [<-|Hr]; [cbn; first [eexists; reflexivity|right; eexists; reflexivity]|]). destruct Hr.
Qed.
(** The attributes of a new object: what was passed, the path only if the results are written, and counters at zero. *)
Definition shown_path (write path shown : pyval) : Prop := (write = PBool true /\ shown = path) \/ (write = PBool false /\ shown = PNone).
Lemma stop_ok : forall {A} b e (f : unit -> run A) h h' o, then_ (stop_if b e) f h = (h', Ok o) -> b = false /\ f tt h = (h', Ok o).
Proof. intros A b e f h h' o H. unfold then_, stop_if in H. destruct b; cbn in H; [unfold raise in H; discriminate|auto]. Qed.
Lemma copy_ok : forall {A} v (f : nat -> run A) h h' o, then_ (copied v) f h = (h', Ok o) -> exists a, v = PDict a /\ f (length h) (h ++ [delete_subgroup_parameters (deref h a)]) = (h', Ok o).
Proof. intros A v f h h' o H. unfold then_, copied in H. destruct v; try discriminate. eauto. Qed.
Lemma shown_of : forall h w p, negb (ty_bool w) = false -> shown_path w p (path_of h w p).
Proof. intros h w p H. apply b_flag in H. destruct H as (b & ->). unfold path_of, shown_path. cbn [truthy]. destruct b; auto. Qed.
Ltac run_checks H := repeat (apply stop_ok in H; let B := fresh "B" in destruct H as [B H]; try cbv beta in H).
Lemma estimate_ok : forall {A} q oe (f : bool -> run A) h h' o, then_ (not_estimated q oe) f h = (h', Ok o) -> exists b, f b h = (h', Ok o).
Proof. intros A q oe f h h' o H. unfold then_, not_estimated in H. destruct q; try discriminate. destruct oe; try discriminate. eauto. Qed.
(** What a successful construction does to the heap. *)
Lemma sdmap_ok : forall a h h' o, sdmap_init a h = (h', Ok o) -> exists d, sa_params a = PDict d /\ h' = h ++ [delete_subgroup_parameters (deref h d)] /\
  o = SdmapObj a (length h) (path_of h (sa_write a) (sa_path a)) 0 0 /\ a_flag (sa_write a).
Proof.
  intros a h h' o H. unfold sdmap_init in H. run_checks H. destruct (coherent _ _ _); [|discriminate]. apply copy_ok in H. destruct H as (d & E & H). injection H as <- <-. exists d. repeat split; auto. apply b_flag; auto.
Qed.
Lemma star_ok : forall a h h' o, star_init a h = (h', Ok o) -> exists d e, ta_params a = PDict d /\ ta_oparams a = PDict e /\
  h' = (h ++ [delete_subgroup_parameters (deref h d)]) ++ [delete_subgroup_parameters (deref (h ++ [delete_subgroup_parameters (deref h d)]) e)] /\
  o = StarObj a (length h) (length (h ++ [delete_subgroup_parameters (deref h d)])) (path_of h (ta_write a) (ta_path a)) 0 0 0 /\ a_flag (ta_write a).
Proof.
  intros a h h' o H. unfold star_init in H. run_checks H. apply estimate_ok in H. destruct H as (b & H). run_checks H. destruct (coherent _ _ _); [|discriminate]. apply copy_ok in H. destruct H as (d & E & H). apply copy_ok in H. destruct H as (e & E2 & H).
  injection H as <- <-. exists d, e. repeat split; auto. apply b_flag; auto.
Qed.
Lemma vlsd_ok : forall a h h' o, vlsd_init a h = (h', Ok o) -> exists d e, va_params a = PDict d /\ va_oparams a = PDict e /\
  h' = (h ++ [delete_subgroup_parameters (deref h d)]) ++ [delete_subgroup_parameters (deref (h ++ [delete_subgroup_parameters (deref h d)]) e)] /\
  o = VlsdObj a (length h) (length (h ++ [delete_subgroup_parameters (deref h d)])) (path_of h (va_write a) (va_path a)) 0 0 /\ a_flag (va_write a).
Proof.
  intros a h h' o H. unfold vlsd_init in H. run_checks H. apply estimate_ok in H. destruct H as (b & H). run_checks H. apply copy_ok in H. destruct H as (d & E & H). apply copy_ok in H. destruct H as (e & E2 & H).
  injection H as <- <-. exists d, e. repeat split; auto. apply b_flag; auto.
Qed.
Lemma bsd_ok : forall a h h' o, bsd_init a h = (h', Ok o) -> exists d e, ba_params a = PDict d /\ ba_oparams a = PDict e /\
  h' = (h ++ [delete_subgroup_parameters (deref h d)]) ++ [delete_subgroup_parameters (deref (h ++ [delete_subgroup_parameters (deref h d)]) e)] /\
  o = BsdObj a (length h) (length (h ++ [delete_subgroup_parameters (deref h d)])) (path_of h (ba_write a) (ba_path a)) 0 0 0 0 /\ a_flag (ba_write a).
Proof.
  intros a h h' o H. unfold bsd_init in H. run_checks H. apply estimate_ok in H. destruct H as (b & H). run_checks H. apply copy_ok in H. destruct H as (d & E & H). apply copy_ok in H. destruct H as (e & E2 & H).
  injection H as <- <-. exists d, e. repeat split; auto. apply b_flag; auto.
Qed.
Lemma shown : forall h w p, a_flag w -> shown_path w p (path_of h w p).
Proof. intros h w p H. apply shown_of, b_flag, H. Qed.
Theorem C66_attributes : forall h h',
  (forall a o, sdmap_init a h = (h', Ok o) -> so_args o = a /\ shown_path (sa_write a) (sa_path a) (so_path o) /\ so_selected o = 0%Z /\ so_unselected o = 0%Z) /\
  (forall a o, star_init a h = (h', Ok o) -> to_args o = a /\ shown_path (ta_write a) (ta_path a) (to_path o) /\ to_selected o = 0%Z /\ to_unselected o = 0%Z /\ to_pruned o = 0%Z) /\
  (forall a o, vlsd_init a h = (h', Ok o) -> vo_args o = a /\ shown_path (va_write a) (va_path a) (vo_path o) /\ vo_selected o = 0%Z /\ vo_unselected o = 0%Z) /\
  (forall a o, bsd_init a h = (h', Ok o) -> bo_args o = a /\ shown_path (ba_write a) (ba_path a) (bo_path o) /\ bo_selected o = 0%Z /\ bo_unselected o = 0%Z /\ bo_visited o = 0%Z /\ bo_pruned o = 0%Z) /\
  (forall a o, idsd_init a h = (h', Ok o) -> io_args o = a /\ shown_path (ia_write a) (ia_path a) (io_path o)) /\
  (forall a o, qfinder_init a h = (h', Ok o) -> qo_args o = a /\ qo_path o = if truthy h (qa_write a) then qa_path a else PNone) /\
  (forall a o, sdiga_init a h = (h', Ok o) -> go_args o = a /\ shown_path (ga_write a) (ga_path a) (go_path o)) /\
  (forall a o, gmsl_init a h = (h', Ok o) -> o = a) /\ (forall s a o, psld_init s a h = (h', Ok o) -> o = (s, a)) /\ (forall p n s a o, dslm_init p n s a h = (h', Ok o) -> o = (p, n, (s, a))).
Proof.
  intros h h'. assert (G : forall a h o, gmsl_init a h = (h', Ok o) -> o = a) by (intros a h0 o H; unfold gmsl_init in H; run_checks H; injection H as _ <-; auto).
  assert (P : forall s a h o, psld_init s a h = (h', Ok o) -> o = (s, a)).
  { intros s a h0 o H. unfold psld_init in H. run_checks H. unfold then_ in H. destruct (gmsl_init a h0) as [h1 [x|e]] eqn:E; [|discriminate]. unfold ret in H. injection H as <- <-. apply G in E. subst x. reflexivity. }
  repeat match goal with |- _ /\ _ => split end.
  1-4: intros a o H; first [apply sdmap_ok in H; destruct H as (d & _ & _ & -> & F)|apply star_ok in H; destruct H as (d & e & _ & _ & _ & -> & F)|apply vlsd_ok in H; destruct H as (d & e & _ & _ & _ & -> & F)|apply bsd_ok in H; destruct H as (d & e & _ & _ & _ & -> & F)]; cbn; repeat split; apply shown; auto.
  - intros a o H. unfold idsd_init in H. run_checks H. injection H as <- <-. split; [reflexivity|]. cbn [io_path]. apply shown, b_flag. assumption.
  - intros a o H. unfold qfinder_init in H. run_checks H. injection H as <- <-. split; reflexivity.
  - intros a o H. unfold sdiga_init in H. run_checks H. injection H as <- <-. split; [reflexivity|]. cbn [go_path]. apply shown, b_flag. assumption.
  - intros a o H. apply (G a h o H).
  - intros s a o H. apply (P s a h o H).
  - intros p n s a o H. unfold dslm_init in H. run_checks H. unfold then_ in H. destruct (psld_init s a h) as [h1 [x|e]] eqn:E; [|discriminate]. unfold ret in H. injection H as <- <-. apply P in E. subst x. reflexivity.
Qed.

(** * C65: the dictionaries of additional parameters *)
(** A construction, successful or not, changes no dictionary that existed before. *)
Definition keeps (h h' : heap) : Prop := length h <= length h' /\ forall i, i < length h -> deref h' i = deref h i.
Definition careful {A} (m : run A) : Prop := forall h, keeps h (fst (m h)).
Lemma keeps_refl : forall h, keeps h h. Proof. intros h. split; auto. Qed.
Lemma keeps_trans : forall a b c, keeps a b -> keeps b c -> keeps a c.
Proof. intros a b c [L1 K1] [L2 K2]. split; [lia|]. intros i Hi. rewrite K2 by lia. auto. Qed.
Lemma careful_then : forall {A B} (m : run A) (f : A -> run B), careful m -> (forall x, careful (f x)) -> careful (then_ m f).
Proof. intros A B m f Hm Hf h. unfold then_. specialize (Hm h). destruct (m h) as [h' [x|e]]; cbn [fst] in *; auto. eapply keeps_trans; [exact Hm|apply Hf]. Qed.
Lemma careful_stop : forall b e, careful (stop_if b e). Proof. intros b e h. unfold stop_if. destruct b; apply keeps_refl. Qed.
Lemma careful_ret : forall {A} (x : A), careful (ret x). Proof. intros A x h. apply keeps_refl. Qed.
Lemma careful_raise : forall {A} e, careful (@raise A e). Proof. intros A e h. apply keeps_refl. Qed.
Lemma careful_copy : forall v, careful (copied v).
Proof. intros v h. unfold copied. destruct v; try apply keeps_refl. cbn [fst]. split; [rewrite app_length; lia|]. intros i Hi. unfold deref. apply app_nth1. exact Hi. Qed.
Lemma careful_estimate : forall q oe, careful (not_estimated q oe). Proof. intros q oe h. unfold not_estimated. destruct q; try apply keeps_refl. destruct oe; apply keeps_refl. Qed.
Ltac carefully := repeat (first [apply careful_then; [first [apply careful_stop|apply careful_copy|apply careful_estimate]|intros ?]|apply careful_ret|apply careful_raise
  |match goal with |- careful (if ?b then _ else _) => destruct b end
  |let h := fresh "h" in intros h; cbv beta; lazymatch goal with |- keeps h (fst (?m h)) => let K := fresh in cut (careful m); [intros K; exact (K h)|] end]).
Theorem C65_callers_dictionaries : forall a1 a2 a3 a4 h, keeps h (fst (sdmap_init a1 h)) /\ keeps h (fst (star_init a2 h)) /\ keeps h (fst (vlsd_init a3 h)) /\ keeps h (fst (bsd_init a4 h)).
Proof.
  intros a1 a2 a3 a4 h. split; [|split; [|split]]; revert h.
  - change (careful (sdmap_init a1)). unfold sdmap_init. carefully.
  - change (careful (star_init a2)). unfold star_init. carefully.
  - change (careful (vlsd_init a3)). unfold vlsd_init. carefully.
  - change (careful (bsd_init a4)). unfold bsd_init. carefully.
Qed.
(** The object keeps its own dictionary (no other object has it), with the given parameters except tp, fp, TP and FP. *)
Definition is_count (k : string) : Prop := In k ["tp"; "fp"; "TP"; "FP"].
Definition parameters_of (given kept : params) : Prop := forall k, (is_count k -> lookup kept k = None) /\ (~ is_count k -> lookup kept k = lookup given k).
Definition own (h h' : heap) (given address : nat) : Prop := length h <= address < length h' /\ parameters_of (deref h given) (deref h' address).
Lemma lookup_del : forall k d x, lookup (d_del k d) x = if String.eqb x k then None else lookup d x.
Proof.
  intros k d x. induction d as [|[y v] d IH]; cbn [d_del filter lookup fst]; [destruct (String.eqb x k); reflexivity|]. fold (d_del k d). destruct (String.eqb y k) eqn:E; cbn [negb].
  - rewrite IH. apply String.eqb_eq in E. subst y. destruct (String.eqb x k); reflexivity.
  - cbn [lookup]. rewrite IH. destruct (String.eqb x y) eqn:E2; auto. apply String.eqb_eq in E2. subst y. rewrite E. reflexivity.
Qed.
Lemma delete_spec : forall d, parameters_of d (delete_subgroup_parameters d).
Proof.
  intros d k. unfold delete_subgroup_parameters, is_count. rewrite !lookup_del. cbn [In]. split.
  - intros [<-|[<-|[<-|[<-|[]]]]]; reflexivity.
  - intros N. destruct (String.eqb k "FP") eqn:E1; [apply String.eqb_eq in E1; subst; tauto|]. destruct (String.eqb k "TP") eqn:E2; [apply String.eqb_eq in E2; subst; tauto|].
    destruct (String.eqb k "fp") eqn:E3; [apply String.eqb_eq in E3; subst; tauto|]. destruct (String.eqb k "tp") eqn:E4; [apply String.eqb_eq in E4; subst; tauto|]. reflexivity.
Qed.
Lemma own_first : forall h d rest, own h ((h ++ [delete_subgroup_parameters (deref h d)]) ++ rest) d (length h).
Proof. intros h d rest. split; [rewrite !app_length; cbn [length]; lia|]. unfold deref at 2. rewrite <- app_assoc, app_nth2 by lia. rewrite Nat.sub_diag. cbn [app nth]. apply delete_spec. Qed.
Lemma own_second : forall h x e, e < length h -> own h ((h ++ [x]) ++ [delete_subgroup_parameters (deref (h ++ [x]) e)]) e (length (h ++ [x])).
Proof.
  intros h x e L. split; [rewrite !app_length; cbn [length]; lia|]. unfold deref at 2. rewrite app_nth2 by lia. rewrite Nat.sub_diag. cbn [nth]. unfold deref at 2. rewrite app_nth1 by exact L. apply delete_spec.
Qed.
Theorem C65_own_dictionaries : forall h h',
  (forall a o d, sdmap_init a h = (h', Ok o) -> sa_params a = PDict d -> own h h' d (so_params o)) /\
  (forall a o d e, star_init a h = (h', Ok o) -> ta_params a = PDict d -> ta_oparams a = PDict e -> e < length h -> own h h' d (to_params o) /\ own h h' e (to_oparams o) /\ to_params o <> to_oparams o) /\
  (forall a o d e, vlsd_init a h = (h', Ok o) -> va_params a = PDict d -> va_oparams a = PDict e -> e < length h -> own h h' d (vo_params o) /\ own h h' e (vo_oparams o) /\ vo_params o <> vo_oparams o) /\
  (forall a o d e, bsd_init a h = (h', Ok o) -> ba_params a = PDict d -> ba_oparams a = PDict e -> e < length h -> own h h' d (bo_params o) /\ own h h' e (bo_oparams o) /\ bo_params o <> bo_oparams o).
Proof.
  intros h h'. split; [|split; [|split]].
  - intros a o d H E. apply sdmap_ok in H. destruct H as (d' & E' & -> & -> & _). rewrite E in E'. injection E' as <-. cbn [so_params]. rewrite <- (app_nil_r (h ++ _)). apply own_first.
  - intros a o d e H E1 E2 L. apply star_ok in H. destruct H as (d' & e' & E1' & E2' & -> & -> & _). rewrite E1 in E1'. rewrite E2 in E2'. injection E1' as <-. injection E2' as <-. cbn [to_params to_oparams]. split; [apply own_first|]. split; [apply own_second; auto|rewrite app_length; cbn [length]; lia].
  - intros a o d e H E1 E2 L. apply vlsd_ok in H. destruct H as (d' & e' & E1' & E2' & -> & -> & _). rewrite E1 in E1'. rewrite E2 in E2'. injection E1' as <-. injection E2' as <-. cbn [vo_params vo_oparams]. split; [apply own_first|]. split; [apply own_second; auto|rewrite app_length; cbn [length]; lia].
  - intros a o d e H E1 E2 L. apply bsd_ok in H. destruct H as (d' & e' & E1' & E2' & -> & -> & _). rewrite E1 in E1'. rewrite E2 in E2'. injection E1' as <-. injection E2' as <-. cbn [bo_params bo_oparams]. split; [apply own_first|]. split; [apply own_second; auto|rewrite app_length; cbn [length]; lia].
Qed.
(** Histories: the caller creates and changes dictionaries and constructs algorithms. *)
Inductive action := NewDict (d : params) | SetKey (a : nat) (k : string) (v : Q) | DelKey (a : nat) (k : string)
| MakeSDMap (x : sdmap_args) | MakeSDMapStar (x : star_args) | MakeVLSD (x : vlsd_args) | MakeBSD (x : bsd_args).
Fixpoint replace_at (h : heap) (i : nat) (d : params) : heap :=
  match h, i with
  | [], _ => []
  | _ :: h', O => d :: h'
  | x :: h', S i' => x :: replace_at h' i' d
  end.
Definition act (h : heap) (x : action) : heap :=
  match x with
  | NewDict d => h ++ [d]
  | SetKey a k v => replace_at h a (d_set (deref h a) k v)
  | DelKey a k => replace_at h a (d_del k (deref h a))
  | MakeSDMap x => fst (sdmap_init x h)
  | MakeSDMapStar x => fst (star_init x h)
  | MakeVLSD x => fst (vlsd_init x h)
  | MakeBSD x => fst (bsd_init x h)
  end.
(** The action does not write in the dictionary [i]. *)
Definition spares (i : nat) (x : action) : Prop := match x with SetKey a _ _ | DelKey a _ => a <> i | _ => True end.
Lemma replace_length : forall h i d, length (replace_at h i d) = length h.
Proof. induction h as [|x h IH]; intros [|i] d; cbn; auto. Qed.
Lemma replace_other : forall h i j d, j <> i -> deref (replace_at h i d) j = deref h j.
Proof. unfold deref. induction h as [|x h IH]; intros [|i] [|j] d N; cbn; auto; try congruence. Qed.
Lemma act_spares : forall h x i, i < length h -> spares i x -> i < length (act h x) /\ deref (act h x) i = deref h i.
Proof.
  intros h x i L Hs. assert (G : forall h', keeps h h' -> i < length h' /\ deref h' i = deref h i) by (intros h' [K1 K2]; split; [lia|auto]).
  destruct x as [d|a k v|a k|x|x|x|x]; cbn [act spares] in *.
  - apply G. split; [rewrite app_length; lia|]. intros j Hj. unfold deref. apply app_nth1; auto.
  - rewrite replace_length, replace_other by auto. auto.
  - rewrite replace_length, replace_other by auto. auto.
  - apply G. destruct (C65_callers_dictionaries x (StarArgs PNone PNone PNone PNone PNone PNone PNone PNone PNone PNone PNone) (VlsdArgs PNone PNone PNone PNone PNone PNone PNone PNone PNone PNone PNone) (BsdArgs PNone PNone PNone PNone PNone PNone PNone PNone PNone) h). auto.
  - apply G. destruct (C65_callers_dictionaries (SdmapArgs PNone PNone PNone PNone PNone PNone PNone PNone) x (VlsdArgs PNone PNone PNone PNone PNone PNone PNone PNone PNone PNone PNone) (BsdArgs PNone PNone PNone PNone PNone PNone PNone PNone PNone) h) as (_ & K & _). auto.
  - apply G. destruct (C65_callers_dictionaries (SdmapArgs PNone PNone PNone PNone PNone PNone PNone PNone) (StarArgs PNone PNone PNone PNone PNone PNone PNone PNone PNone PNone PNone) x (BsdArgs PNone PNone PNone PNone PNone PNone PNone PNone PNone) h) as (_ & _ & K & _). auto.
  - apply G. destruct (C65_callers_dictionaries (SdmapArgs PNone PNone PNone PNone PNone PNone PNone PNone) (StarArgs PNone PNone PNone PNone PNone PNone PNone PNone PNone PNone PNone) (VlsdArgs PNone PNone PNone PNone PNone PNone PNone PNone PNone PNone PNone) x h) as (_ & _ & _ & K). auto.
Qed.
(** A call of a measure with the dictionary [i]: it sees the true counts and the parameters that were given, whatever the caller did
    after the construction (without writing in the dictionary of the object). *)
Definition sees (d given : params) (tp fp TP FP : Q) : Prop := describes d tp fp TP FP /\ forall k, ~ is_count k -> lookup d k = lookup given k.
Lemma lookup_set : forall d k v x, lookup (d_set d k v) x = if String.eqb x k then Some v else lookup d x.
Proof.
  intros d k v x. induction d as [|[y w] d IH]; cbn [d_set lookup]; [reflexivity|]. destruct (String.eqb y k) eqn:E; cbn [lookup].
  - apply String.eqb_eq in E. subst y. destruct (String.eqb x k); reflexivity.
  - rewrite IH. destruct (String.eqb x y) eqn:E2; auto. apply String.eqb_eq in E2. subst y. rewrite E. reflexivity.
Qed.
Lemma lookup_update : forall e d x, lookup e x = None -> lookup (d_update d e) x = lookup d x.
Proof.
  unfold d_update. induction e as [|[k v] e IH]; intros d x H; cbn [fold_left lookup fst snd] in *; auto. destruct (String.eqb x k) eqn:E; [discriminate|]. rewrite IH by auto. rewrite lookup_set, E. reflexivity.
Qed.

Lemma lookup_update_in : forall e d x v, NoDup (map fst e) -> lookup e x = Some v -> lookup (d_update d e) x = Some v.
Proof.
  induction e as [|[k w] e IH]; intros d x v N H; [discriminate|]. cbn [map fst] in N. inversion N as [|? ? N1 N2]; subst. unfold d_update. cbn [fold_left fst snd]. fold (d_update (d_set d k w) e).
  cbn [lookup] in H. destruct (String.eqb x k) eqn:E; [|apply IH; auto]. injection H as ->. apply String.eqb_eq in E. subst x.
  rewrite lookup_update; [rewrite lookup_set, String.eqb_refl; reflexivity|].
  destruct (lookup e k) as [y|] eqn:L; auto. destruct N1. revert L. clear. induction e as [|[a b] e IH]; cbn [lookup map fst]; [discriminate|]. destruct (String.eqb k a) eqn:E; [apply String.eqb_eq in E; subst; left; auto|right; auto].
Qed.
Lemma lookup_update_any : forall e d x, NoDup (map fst e) -> lookup (d_update d e) x = match lookup e x with Some v => Some v | None => lookup d x end.
Proof. intros e d x N. destruct (lookup e x) as [v|] eqn:E; [apply lookup_update_in; auto|apply lookup_update; auto]. Qed.
Lemma nodup_del : forall k d, NoDup (map fst d) -> NoDup (map fst (d_del k d)).
Proof.
  intros k d. induction d as [|[y v] d IH]; cbn [d_del filter map fst]; auto. intros N. inversion N as [|? ? N1 N2]; subst. fold (d_del k d). specialize (IH N2). destruct (negb (String.eqb y k)); auto. cbn [map fst]. constructor; auto.
  intros H. apply N1. apply in_map_iff in H. destruct H as ([a b] & E & H). apply filter_In in H. apply in_map_iff. exists (a, b). split; [exact E|apply H].
Qed.
Lemma sees_call : forall given kept tp fp TP FP, parameters_of given kept -> NoDup (map fst kept) ->
  sees (d_update [("tp", tp); ("fp", fp); ("TP", TP); ("FP", FP)] kept) given tp fp TP FP /\
  sees (d_set (d_set (d_update [("TP", TP); ("FP", FP)] kept) "tp" tp) "fp" fp) given tp fp TP FP.
Proof.
  intros given kept tp fp TP FP P N.
  assert (C : forall k, is_count k -> lookup kept k = None) by (intros k; apply P).
  assert (Z : lookup kept "tp" = None /\ lookup kept "fp" = None /\ lookup kept "TP" = None /\ lookup kept "FP" = None) by (repeat split; apply C; unfold is_count; cbn; tauto). destruct Z as (Z1 & Z2 & Z3 & Z4).
  assert (G : forall k, ~ is_count k -> String.eqb k "tp" = false /\ String.eqb k "fp" = false /\ String.eqb k "TP" = false /\ String.eqb k "FP" = false).
  { intros k Hk. repeat split; apply String.eqb_neq; intros ->; apply Hk; unfold is_count; cbn; tauto. }
  split; split.
  - unfold describes. rewrite !lookup_update_any, Z1, Z2, Z3, Z4 by auto. cbn. auto.
  - intros k Hk. rewrite lookup_update_any by auto. rewrite (proj2 (P k) Hk). destruct (G k Hk) as (E1 & E2 & E3 & E4). cbn [lookup]. rewrite E1, E2, E3, E4. destruct (lookup given k); auto.
  - unfold describes. rewrite !lookup_set, !lookup_update_any, Z3, Z4 by auto. cbn. auto.
  - intros k Hk. destruct (G k Hk) as (E1 & E2 & E3 & E4). rewrite !lookup_set, lookup_update_any by auto. rewrite E1, E2, (proj2 (P k) Hk). cbn [lookup]. rewrite E3, E4. destruct (lookup given k); auto.
Qed.
Lemma history_spares : forall l h i, i < length h -> Forall (spares i) l -> deref (fold_left act l h) i = deref h i.
Proof.
  induction l as [|x l IH]; intros h i L F; cbn [fold_left]; auto. inversion F as [|? ? F1 F2]; subst. destruct (act_spares h x i L F1) as [L' E]. rewrite IH by auto. exact E.
Qed.
(** The dictionary passed to a measure in any call (by the algorithm, with the counts of a subgroup; the second one is for the joins of
    VLSD), after any history of the caller. *)
Definition calls_see (h h' : heap) (given address : nat) : Prop := forall l tp fp TP FP, Forall (spares address) l -> NoDup (map fst (deref h given)) ->
  sees (call_params (fold_left act l h') address tp fp TP FP) (deref h given) tp fp TP FP /\ sees (join_params (fold_left act l h') address tp fp TP FP) (deref h given) tp fp TP FP.
Lemma calls_of : forall h h' given x address, address < length h' -> deref h' address = delete_subgroup_parameters x -> x = deref h given -> calls_see h h' given address.
Proof.
  intros h h' given x address L E -> l tp fp TP FP F N. unfold call_params, join_params. rewrite history_spares by auto. rewrite E. apply sees_call; [apply delete_spec|]. unfold delete_subgroup_parameters. repeat apply nodup_del. exact N.
Qed.
Lemma calls_first : forall h d rest, calls_see h ((h ++ [delete_subgroup_parameters (deref h d)]) ++ rest) d (length h).
Proof. intros h d rest. eapply calls_of; [rewrite !app_length; cbn [length]; lia| |reflexivity]. unfold deref at 1. rewrite <- app_assoc, app_nth2 by lia. rewrite Nat.sub_diag. reflexivity. Qed.
Lemma calls_second : forall h x e, e < length h -> calls_see h ((h ++ [x]) ++ [delete_subgroup_parameters (deref (h ++ [x]) e)]) e (length (h ++ [x])).
Proof.
  intros h x e L. eapply calls_of; [rewrite !app_length; cbn [length]; lia| |reflexivity]. unfold deref at 1. rewrite app_nth2 by lia. rewrite Nat.sub_diag. cbn [nth]. unfold deref at 1. rewrite app_nth1 by exact L. reflexivity.
Qed.
Theorem C65_calls : forall h h',
  (forall a o d, sdmap_init a h = (h', Ok o) -> sa_params a = PDict d -> calls_see h h' d (so_params o)) /\
  (forall a o d e, star_init a h = (h', Ok o) -> ta_params a = PDict d -> ta_oparams a = PDict e -> e < length h -> calls_see h h' d (to_params o) /\ calls_see h h' e (to_oparams o)) /\
  (forall a o d e, vlsd_init a h = (h', Ok o) -> va_params a = PDict d -> va_oparams a = PDict e -> e < length h -> calls_see h h' d (vo_params o) /\ calls_see h h' e (vo_oparams o)) /\
  (forall a o d e, bsd_init a h = (h', Ok o) -> ba_params a = PDict d -> ba_oparams a = PDict e -> e < length h -> calls_see h h' d (bo_params o) /\ calls_see h h' e (bo_oparams o)).
Proof.
  intros h h'. split; [|split; [|split]].
  - intros a o d H E. apply sdmap_ok in H. destruct H as (d' & E' & -> & -> & _). rewrite E in E'. injection E' as <-. cbn [so_params]. rewrite <- (app_nil_r (h ++ _)). apply calls_first.
  - intros a o d e H E1 E2 L. apply star_ok in H. destruct H as (d' & e' & E1' & E2' & -> & -> & _). rewrite E1 in E1'. rewrite E2 in E2'. injection E1' as <-. injection E2' as <-. cbn [to_params to_oparams]. split; [apply calls_first|apply calls_second; auto].
  - intros a o d e H E1 E2 L. apply vlsd_ok in H. destruct H as (d' & e' & E1' & E2' & -> & -> & _). rewrite E1 in E1'. rewrite E2 in E2'. injection E1' as <-. injection E2' as <-. cbn [vo_params vo_oparams]. split; [apply calls_first|apply calls_second; auto].
  - intros a o d e H E1 E2 L. apply bsd_ok in H. destruct H as (d' & e' & E1' & E2' & -> & -> & _). rewrite E1 in E1'. rewrite E2 in E2'. injection E1' as <-. injection E2' as <-. cbn [bo_params bo_oparams]. split; [apply calls_first|apply calls_second; auto].
Qed.
(** Two objects never share a dictionary: a later construction has addresses that did not exist before. *)
Theorem C65_never_shared : forall l h1 h2 a o a' o' h3 h4, sdmap_init a h1 = (h2, Ok o) -> fold_left act l h2 = h3 -> sdmap_init a' h3 = (h4, Ok o') -> so_params o <> so_params o'.
Proof.
  intros l h1 h2 a o a' o' h3 h4 H1 HL H2. apply sdmap_ok in H1. destruct H1 as (d & _ & E2 & -> & _). apply sdmap_ok in H2. destruct H2 as (d' & _ & _ & -> & _). cbn [so_params].
  assert (G : forall l h, length h <= length (fold_left act l h)).
  { clear. induction l as [|x l IH]; intros h; cbn [fold_left]; auto. specialize (IH (act h x)). enough (length h <= length (act h x)) by lia.
    destruct h as [|d0 h0]; [cbn; lia|]. destruct x as [d|a k v|a k|x|x|x|x]; cbn [act]; [rewrite app_length; lia|rewrite replace_length; lia|rewrite replace_length; lia|..].
    all: match goal with |- context[fst (?m _)] => first [assert (K : keeps (d0 :: h0) (fst (m (d0 :: h0)))) by (match m with
      | sdmap_init ?y => apply (C65_callers_dictionaries y (StarArgs PNone PNone PNone PNone PNone PNone PNone PNone PNone PNone PNone) (VlsdArgs PNone PNone PNone PNone PNone PNone PNone PNone PNone PNone PNone) (BsdArgs PNone PNone PNone PNone PNone PNone PNone PNone PNone))
      | star_init ?y => apply (C65_callers_dictionaries (SdmapArgs PNone PNone PNone PNone PNone PNone PNone PNone) y (VlsdArgs PNone PNone PNone PNone PNone PNone PNone PNone PNone PNone PNone) (BsdArgs PNone PNone PNone PNone PNone PNone PNone PNone PNone))
      | vlsd_init ?y => apply (C65_callers_dictionaries (SdmapArgs PNone PNone PNone PNone PNone PNone PNone PNone) (StarArgs PNone PNone PNone PNone PNone PNone PNone PNone PNone PNone PNone) y (BsdArgs PNone PNone PNone PNone PNone PNone PNone PNone PNone))
      | bsd_init ?y => apply (C65_callers_dictionaries (SdmapArgs PNone PNone PNone PNone PNone PNone PNone PNone) (StarArgs PNone PNone PNone PNone PNone PNone PNone PNone PNone PNone PNone) (VlsdArgs PNone PNone PNone PNone PNone PNone PNone PNone PNone PNone PNone) y)
      end)] end; destruct K as [K _]; exact K. }
  specialize (G l h2). rewrite HL in G. rewrite E2, app_length in G. cbn [length] in G. lia.
Qed.

(** The getter returns the dictionary of the object itself, so a caller who writes in it can replace the counts. *)
Definition an_sdmap : sdmap_args := SdmapArgs (PMeasure (shipped_obj (Plain PPV))) (PFloat (XFin (1 # 2))) PNone PNone (PInt 0) (PDict 0) (PBool false) PNone.
Theorem C65_exposed_refuted : exists h o, sdmap_init an_sdmap [[("g", 1%Q)]] = (h, Ok o) /\
  lookup (call_params (act h (SetKey (so_params o) "tp" 9)) (so_params o) 2 1 4 4) "tp" = Some 9%Q.
Proof. eexists. eexists. split; reflexivity. Qed.
(** With 'num_subgroups' > 0, SDMapStar computes the quality of the best subgroups with the additional parameters of the optimistic
    estimate instead of those of the quality measure: the measure may not find its parameter. *)
Definition a_star : star_args := StarArgs (PMeasure (shipped_obj (Plain Qg))) (PMeasure (MObj "MyEstimate" ["Qg"])) (PInt 0) PNone PNone (PInt 0) (PDict 0) (PDict 1) (PBool false) PNone (PInt 3).
Theorem C65_star_topk_refuted : exists h o, star_init a_star [[("g", 1%Q)]; []] = (h, Ok o) /\
  compute Qg (call_params h (to_params o) 2 1 4 4) = Ok (2 / (1 + 1))%Q /\ compute Qg (star_k_params h o 2 1 4 4) = Err ParameterNotFoundError.
Proof. eexists. eexists. split; [reflexivity|]. split; reflexivity. Qed.
(** Both values agree if the two dictionaries of the caller are equal. *)
Theorem C65_star_topk : forall h h' a o d e l tp fp TP FP k, star_init a h = (h', Ok o) -> ta_params a = PDict d -> ta_oparams a = PDict e -> e < length h -> deref h d = deref h e -> NoDup (map fst (deref h d)) ->
  Forall (spares (to_params o)) l -> Forall (spares (to_oparams o)) l ->
  lookup (star_k_params (fold_left act l h') o tp fp TP FP) k = lookup (call_params (fold_left act l h') (to_params o) tp fp TP FP) k.
Proof.
  intros h h' a o d e l tp fp TP FP k H E1 E2 L E N F1 F2. destruct (C65_calls h h') as (_ & C & _). destruct (C a o d e H E1 E2 L) as [C1 C2]. destruct (C1 l tp fp TP FP F1 N) as [[D1 S1] _].
  rewrite E in N. destruct (C2 l tp fp TP FP F2 N) as [[D2 S2] _]. unfold star_k_params.
  destruct (in_dec string_dec k ["tp"; "fp"; "TP"; "FP"]) as [I|I]; [|rewrite S1, S2 by exact I; congruence].
  destruct D1 as (A1 & A2 & A3 & A4). destruct D2 as (B1 & B2 & B3 & B4). destruct I as [<-|[<-|[<-|[<-|[]]]]]; congruence.
Qed.

(** * C67: the optimistic estimates that the constructors accept *)
(** Measures of the package, as arguments. *)
Definition pair_ok (q oe : shipped) : Prop :=
  (q = Plain PiatetskyShapiro /\ (oe = Plain PSOptimisticEstimate1 \/ oe = Plain PSOptimisticEstimate2)) \/ (q = Plain WRAcc /\ oe = Plain WRAccOptimisticEstimate1) \/ (q = Binomial /\ oe = BinomialOE1).
Lemma estimates_shipped : forall q oe, estimates (PMeasure (shipped_obj q)) (PMeasure (shipped_obj oe)) <-> pair_ok q oe.
Proof.
  intros q oe. unfold estimates, pair_ok. split.
  - intros (m & o & E1 & E2 & H). injection E1 as <-. injection E2 as <-. destruct oe as [oe| |]; [destruct oe|..]; cbn in H; try contradiction; destruct H as [H|[]];
      (destruct q as [q| |]; [destruct q|..]; try discriminate H; auto 6).
  - intros H. exists (shipped_obj q), (shipped_obj oe). split; auto. split; auto. destruct H as [[-> [-> | ->]]|[[-> ->]|[-> ->]]]; left; reflexivity.
Qed.
Lemma hold_in : forall {A} (r : res A) l P e o, decided_by r l -> r = Ok o -> In (P, e) l -> P.
Proof. intros A r l P e o [D _] E H. assert (K : all_hold l) by (apply D; eauto). apply (K (P, e) H). Qed.
(** SDMapStar, VLSD and BSD (CBSD, CPBSD) accept exactly these pairs of measures of the package. *)
Theorem C67_accepted_pairs : forall q oe h,
  (forall a, ta_q a = PMeasure (shipped_obj q) -> ta_oe a = PMeasure (shipped_obj oe) -> (exists o, snd (star_init a h) = Ok o) -> pair_ok q oe) /\
  (forall a, va_q a = PMeasure (shipped_obj q) -> va_oe a = PMeasure (shipped_obj oe) -> (exists o, snd (vlsd_init a h) = Ok o) -> pair_ok q oe) /\
  (forall a, ba_q a = PMeasure (shipped_obj q) -> ba_oe a = PMeasure (shipped_obj oe) -> (exists o, snd (bsd_init a h) = Ok o) -> pair_ok q oe) /\
  (pair_ok q oe -> forall m o n,
    (exists x, snd (star_init (StarArgs (PMeasure (shipped_obj q)) (PMeasure (shipped_obj oe)) (PInt m) PNone PNone (PInt o) (PDict 0) (PDict 0) (PBool false) PNone (PInt n)) h) = Ok x) /\
    (exists x, snd (vlsd_init (VlsdArgs (PMeasure (shipped_obj q)) (PInt m) (PMeasure (shipped_obj oe)) (PInt o) (PDict 0) (PDict 0) (PStr "no-order") (PStr "no-order") (PStr "bitsets") (PBool false) PNone) h) = Ok x) /\
    (exists x, snd (bsd_init (BsdArgs (PInt m) (PMeasure (shipped_obj q)) (PMeasure (shipped_obj oe)) (PInt n) (PInt o) (PDict 0) (PDict 0) (PBool false) PNone) h) = Ok x)).
Proof.
  intros q oe h. split; [|split; [|split]].
  - intros a E1 E2 (o & H). pose proof (hold_in _ _ (estimates (ta_q a) (ta_oe a)) ValueError o (C66_sdmapstar a h) H) as K. apply estimates_shipped. rewrite <- E1, <- E2. apply K. apply in_or_app. right. cbn; tauto.
  - intros a E1 E2 (o & H). pose proof (hold_in _ _ (estimates (va_q a) (va_oe a)) ValueError o (C66_vlsd a h) H) as K. apply estimates_shipped. rewrite <- E1, <- E2. apply K. cbn; tauto.
  - intros a E1 E2 (o & H). pose proof (hold_in _ _ (estimates (ba_q a) (ba_oe a)) ValueError o (C66_bsd a h) H) as K. apply estimates_shipped. rewrite <- E1, <- E2. apply K. apply in_or_app. right. cbn; tauto.
  - intros H m o n. destruct H as [[-> [-> | ->]]|[[-> ->]|[-> ->]]]; repeat split; eexists; reflexivity.
Qed.
(** The bound, as the accepted algorithm computes it, whatever the caller did since the construction: the value of the optimistic estimate
    at a subgroup is at least the quality of each of its refinements (contained true and false positives). *)
Definition bounds_refinements (q m : measure) (h : heap) (d e : nat) : Prop := forall tp fp tp' fp' TP FP : Z, forall oe v,
  (tp <= TP)%Z -> (fp <= FP)%Z -> (0 <= tp' <= tp)%Z -> (0 <= fp' <= fp)%Z ->
  compute m (call_params h e (inject_Z tp) (inject_Z fp) (inject_Z TP) (inject_Z FP)) = Ok oe ->
  compute q (call_params h d (inject_Z tp') (inject_Z fp') (inject_Z TP) (inject_Z FP)) = Ok v -> (v <= oe)%Q.
Lemma accepted_bounds : forall q m h h' l d e da ea, pair_ok (Plain q) (Plain m) -> calls_see h h' d da -> calls_see h h' e ea -> NoDup (map fst (deref h d)) -> NoDup (map fst (deref h e)) ->
  Forall (spares da) l -> Forall (spares ea) l -> bounds_refinements q m (fold_left act l h') da ea.
Proof.
  intros q m h h' l d e da ea P C1 C2 N1 N2 F1 F2 tp fp tp' fp' TP FP oe v L1 L2 L3 L4 E1 E2.
  destruct (C1 l (inject_Z tp') (inject_Z fp') (inject_Z TP) (inject_Z FP) F1 N1) as [[D1 _] _]. destruct (C2 l (inject_Z tp) (inject_Z fp) (inject_Z TP) (inject_Z FP) F2 N2) as [[D2 _] _].
  destruct P as [[A B]|[[A B]|[A _]]]; [| |discriminate].
  - assert (Hm : In PiatetskyShapiro (optimistic_estimate_of m)) by (destruct B as [B|B]; injection B as ->; left; auto). injection A as ->.
    assert (I : forall x y, (x <= y)%Z -> (inject_Z x <= inject_Z y)%Q) by (intros x y; rewrite <- Zle_Qle; auto). change 0%Q with (inject_Z 0).
    eapply (C17_ps_estimates_bound m Hm _ _ _ _ _ _ _ _ _ _ D2 D1); [| | |exact E1|exact E2]; [unfold consistent; change 0%Q with (inject_Z 0)|change 0%Q with (inject_Z 0)..]; repeat split; apply I; lia.
  - injection A as ->. injection B as ->. eapply (C18_wracc_estimate_bounds WRAccOptimisticEstimate1 (or_introl eq_refl) _ _ tp fp tp' fp' TP FP oe v D2 D1); auto.
Qed.
Theorem C67_estimates_bound : forall q m h h' l,
  (forall a o d e, ta_q a = PMeasure (shipped_obj (Plain q)) -> ta_oe a = PMeasure (shipped_obj (Plain m)) -> star_init a h = (h', Ok o) -> ta_params a = PDict d -> ta_oparams a = PDict e -> e < length h ->
    NoDup (map fst (deref h d)) -> NoDup (map fst (deref h e)) -> Forall (spares (to_params o)) l -> Forall (spares (to_oparams o)) l -> bounds_refinements q m (fold_left act l h') (to_params o) (to_oparams o)) /\
  (forall a o d e, va_q a = PMeasure (shipped_obj (Plain q)) -> va_oe a = PMeasure (shipped_obj (Plain m)) -> vlsd_init a h = (h', Ok o) -> va_params a = PDict d -> va_oparams a = PDict e -> e < length h ->
    NoDup (map fst (deref h d)) -> NoDup (map fst (deref h e)) -> Forall (spares (vo_params o)) l -> Forall (spares (vo_oparams o)) l -> bounds_refinements q m (fold_left act l h') (vo_params o) (vo_oparams o)) /\
  (forall a o d e, ba_q a = PMeasure (shipped_obj (Plain q)) -> ba_oe a = PMeasure (shipped_obj (Plain m)) -> bsd_init a h = (h', Ok o) -> ba_params a = PDict d -> ba_oparams a = PDict e -> e < length h ->
    NoDup (map fst (deref h d)) -> NoDup (map fst (deref h e)) -> Forall (spares (bo_params o)) l -> Forall (spares (bo_oparams o)) l -> bounds_refinements q m (fold_left act l h') (bo_params o) (bo_oparams o)).
Proof.
  intros q m h h' l. destruct (C65_calls h h') as (_ & CS & CV & CB). destruct (C67_accepted_pairs (Plain q) (Plain m) h) as (PS & PV & PB & _). split; [|split].
  - intros a o d e Q1 Q2 H E1 E2 L N1 N2 F1 F2. destruct (CS a o d e H E1 E2 L) as [C1 C2]. apply (accepted_bounds q m h h' l d e); auto. apply (PS a); auto. exists o. rewrite H. reflexivity.
  - intros a o d e Q1 Q2 H E1 E2 L N1 N2 F1 F2. destruct (CV a o d e H E1 E2 L) as [C1 C2]. apply (accepted_bounds q m h h' l d e); auto. apply (PV a); auto. exists o. rewrite H. reflexivity.
  - intros a o d e Q1 Q2 H E1 E2 L N1 N2 F1 F2. destruct (CB a o d e H E1 E2 L) as [C1 C2]. apply (accepted_bounds q m h h' l d e); auto. apply (PB a); auto. exists o. rewrite H. reflexivity.
Qed.
(** The accepted pair of the binomial test does not bound (C19). *)
Theorem C67_binomial_refuted : pair_ok Binomial BinomialOE1 /\ exists oe q, binomial_oe1_m (call_params [[]] 0 1 0 1 1) = Ok oe /\ binomial_test_m (call_params [[]] 0 1 0 1 1) = Ok q /\ (oe < q)%R.
Proof. split; [right; right; auto|]. exact C19_binomial_estimate_refuted. Qed.

(** * Non-vacuity *)
Definition wstar : star_args := StarArgs (PMeasure (shipped_obj (Plain WRAcc))) (PMeasure (shipped_obj (Plain WRAccOptimisticEstimate1))) (PFloat (XFin (-1))) (PInt 0) (PInt 0) PNone (PDict 0) (PDict 1) (PBool true) (PStr "out.txt") (PInt 2).
Definition two_dicts : heap := [[("g", 1%Q); ("tp", 7%Q)]; [("h", 2%Q)]].
Example C65_nonvacuous : exists h o, star_init wstar two_dicts = (h, Ok o) /\ deref h (to_params o) = [("g", 1%Q)] /\
  Forall (spares (to_params o)) [SetKey 0 "g" 5; DelKey 1 "h"; NewDict []; MakeSDMap an_sdmap] /\
  lookup (call_params (fold_left act [SetKey 0 "g" 5; DelKey 1 "h"; NewDict []; MakeSDMap an_sdmap] h) (to_params o) 2 1 4 4) "g" = Some 1%Q.
Proof. eexists. eexists. split; [reflexivity|]. split; [reflexivity|]. split; [|reflexivity]. repeat constructor; cbn; lia. Qed.
Example C66_nonvacuous : (exists o, snd (star_init wstar two_dicts) = Ok o) /\ snd (sdmap_init (SdmapArgs (sa_q an_sdmap) (PStr "1") PNone PNone (PInt 0) (PDict 0) (PBool true) PNone) []) = Err TypeError /\
  snd (sdmap_init (SdmapArgs (sa_q an_sdmap) (PInt 1) (PInt 0) PNone (PInt 0) (PDict 0) (PBool false) PNone) []) = Err InconsistentMethodParametersError.
Proof. split; [eexists; reflexivity|split; reflexivity]. Qed.
Example C67_nonvacuous : exists h o, star_init wstar two_dicts = (h, Ok o) /\ bounds_refinements WRAcc WRAccOptimisticEstimate1 h (to_params o) (to_oparams o) /\
  compute WRAccOptimisticEstimate1 (call_params h (to_oparams o) 3 1 4 4) = Ok ((3 * 3) / (3 + 1) * (1 - 4 / (4 + 4)))%Q.
Proof.
  eexists. eexists. split; [reflexivity|]. split; [|reflexivity].
  apply (proj1 (C67_estimates_bound WRAcc WRAccOptimisticEstimate1 two_dicts _ []) wstar _ 0 1); try reflexivity; try constructor; cbn; try lia; try (repeat constructor; cbn; intros []; congruence).
Qed.

Print Assumptions C65_callers_dictionaries. Print Assumptions C65_own_dictionaries. Print Assumptions C65_calls. Print Assumptions C65_never_shared. Print Assumptions C65_exposed_refuted.
Print Assumptions C65_star_topk_refuted. Print Assumptions C65_star_topk.
Print Assumptions C66_sdmap. Print Assumptions C66_sdmapstar. Print Assumptions C66_vlsd. Print Assumptions C66_bsd. Print Assumptions C66_idsd. Print Assumptions C66_qfinder. Print Assumptions C66_sdiga.
Print Assumptions C66_lists. Print Assumptions C66_types_first. Print Assumptions C66_bool_is_no_int. Print Assumptions C66_nan_refuted. Print Assumptions C66_attributes.
Print Assumptions C67_accepted_pairs. Print Assumptions C67_estimates_bound. Print Assumptions C67_binomial_refuted.

(** * The configurations of the models of IDSD and QFinder are those that the constructors accept *)
From Verif Require Import IDSDModel QFinderModel.
Definition idsd_call (c : idsd_config) : idsd_args :=
  IdsdArgs (PInt (Z.of_nat (ic_num c))) (PInt (ic_cats c)) (PInt (ic_max c)) (PFloat (XFin (ic_cov c))) (PFloat (XFin (ic_or c))) (PFloat (XFin (ic_p c))) (PFloat (XFin (ic_abs c))) (PFloat (XFin (ic_ratio c)))
    (PBool false) PNone.
Definition qfinder_call (c : qconfig) : qfinder_args :=
  QfinderArgs (PInt (q_num c)) (PInt (q_cats c)) (PInt (q_max c)) (PFloat (XFin (q_cov c))) (PFloat (XFin (q_or c))) (PFloat (XFin (q_p c))) (PFloat (XFin (q_abs c))) (PFloat (XFin (q_ratio c))) (PFloat (XFin (q_delta c)))
    (PBool false) PNone.
Definition idsd_ranges (c : idsd_config) : Prop :=
  1 <= ic_num c /\ (ic_cats c = -1 \/ 1 <= ic_cats c)%Z /\ (0 <= ic_cov c <= 1)%Q /\ (0 <= ic_or c)%Q /\ (0 <= ic_p c <= 1)%Q /\ (0 <= ic_abs c)%Q /\ (0 <= ic_ratio c)%Q.
Definition qfinder_ranges (c : qconfig) : Prop :=
  (-1 <= q_cats c)%Z /\ (0 <= q_cov c <= 1)%Q /\ (0 <= q_or c)%Q /\ (0 <= q_p c <= 1)%Q /\ (0 <= q_abs c)%Q /\ (0 <= q_ratio c)%Q.
Lemma idsd_config_ranges : forall c, idsd_config_ok c = true <-> idsd_ranges c.
Proof.
  intros c. unfold idsd_config_ok, idsd_ranges. rewrite !andb_true_iff, !Qle_bool_iff, negb_true_iff, orb_false_iff, Nat.leb_le, Z.ltb_ge, Z.eqb_neq.
  assert (E : (-1 <= ic_cats c)%Z /\ ic_cats c <> 0%Z <-> (ic_cats c = -1 \/ 1 <= ic_cats c)%Z) by lia. rewrite E. tauto.
Qed.
Lemma q_config_ranges : forall c, qconfig_ok c = true <-> qfinder_ranges c.
Proof. intros c. unfold qconfig_ok, qfinder_ranges. rewrite !andb_true_iff, !Qle_bool_iff, negb_true_iff, Z.ltb_ge. tauto. Qed.
Lemma int_less : forall z n, less (PInt z) (inject_Z n) <-> (z < n)%Z.
Proof. intros z n. unfold less. rewrite Zlt_Qlt. split; [intros [(y & E & H)|[(y & E & _)|E]]; [injection E as <-; exact H|discriminate|discriminate]|left; eauto]. Qed.
Lemma float_less : forall x q, less (PFloat (XFin x)) q <-> (x < q)%Q.
Proof. intros x q. unfold less. split; [intros [(y & E & _)|[(y & E & H)|E]]; [discriminate|injection E as <-; exact H|discriminate]|right; left; eauto]. Qed.
Lemma float_greater : forall x q, greater (PFloat (XFin x)) q <-> (q < x)%Q.
Proof. intros x q. unfold greater. split; [intros [(y & E & _)|[(y & E & H)|E]]; [discriminate|injection E as <-; exact H|discriminate]|right; left; eauto]. Qed.
Lemma int_equals : forall z n, equals (PInt z) (inject_Z n) <-> z = n.
Proof. intros z n. unfold equals. split; [intros [(y & E & H)|(y & E & _)]; [injection E as <-; apply inject_Z_injective; exact H|discriminate]|intros ->; left; exists n; split; [auto|reflexivity]]. Qed.
Lemma q_not_lt : forall a b, ~ (a < b)%Q <-> (b <= a)%Q.
Proof. intros a b. split; [apply Qnot_lt_le|intros H K; apply (Qlt_not_le _ _ K H)]. Qed.
(** The constructors accept a configuration exactly when its values are in the documented ranges (any configuration of Properties_IDSD
    and Properties_QFinder in these ranges can be constructed). *)
Theorem C66_configurations : forall h,
  (forall c, ((exists o, snd (idsd_init (idsd_call c) h) = Ok o) <-> idsd_ranges c) /\ (idsd_config_ok c = true <-> idsd_ranges c)) /\
  (forall c, ((exists o, snd (qfinder_init (qfinder_call c) h) = Ok o) <-> qfinder_ranges c) /\ (qconfig_ok c = true <-> qfinder_ranges c)).
Proof.
  assert (T : forall z, an_int (PInt z)) by (intros z; eexists; reflexivity). assert (T2 : forall x, a_number (PFloat x)) by (intros x; right; eexists; reflexivity).
  assert (T3 : a_flag (PBool false)) by (eexists; reflexivity). assert (T4 : or_none a_text PNone) by (left; reflexivity).
  intros h. split; intros c; (split; [|first [apply idsd_config_ranges|apply q_config_ranges]]).
  - rewrite (proj1 (C66_idsd (idsd_call c) h)). unfold idsd_types, idsd_values, idsd_call. cbn [app ia_num ia_cats ia_max ia_cov ia_or ia_p ia_abs ia_ratio ia_write ia_path]. rewrite !hold_cons.
    change 1%Q with (inject_Z 1) at 1. change (-1)%Q with (inject_Z (-1)). change 0%Q with (inject_Z 0) at 1. rewrite !int_less, !float_less, !float_greater, !q_not_lt. rewrite int_equals. unfold idsd_ranges, has_path.
    split; [|intros H; repeat (split; [first [apply T|apply T2|assumption|lia|tauto|split; tauto]|]); try (apply hold_nil)].
    + intros H. repeat match type of H with _ /\ _ => destruct H as [? H] end. repeat match goal with K : _ /\ _ |- _ => destruct K end. repeat split; auto; lia.
    + repeat split; try tauto. intros K. discriminate. apply hold_nil.
  - rewrite (proj1 (C66_qfinder (qfinder_call c) h)). unfold qfinder_types, qfinder_values, qfinder_call. cbn [app qa_num qa_cats qa_max qa_cov qa_or qa_p qa_abs qa_ratio qa_delta qa_write qa_path]. rewrite !hold_cons.
    change (-1)%Q with (inject_Z (-1)). rewrite !int_less, !float_less, !float_greater, !q_not_lt. unfold qfinder_ranges.
    split.
    + intros H. repeat match type of H with _ /\ _ => destruct H as [? H] end. repeat match goal with K : _ /\ _ |- _ => destruct K end. repeat split; auto; lia.
    + intros H. repeat (split; [first [apply T|apply T2|assumption|lia|tauto|split; tauto]|]). repeat split; try tauto; try (cbn; discriminate); apply hold_nil.
Qed.
Print Assumptions C66_configurations.
