(** Theorems C83: which arguments the methods fit and test_subgroups accept, and what a refused call leaves. *)
From Coq Require Import Reals.
From Verif Require Import SDMapStarModel VLSDModel BSDModel IDSDModel QFinderModel SDIGAModel MiningSpec FitArgModel Properties_Constructors.
From Coq Require Import Lia.
Open Scope string_scope.
Open Scope list_scope.
Open Scope nat_scope.

(** * Specification *)
Definition a_frame (df : arg) : Prop := exists f, df = AFrame f.
Definition a_tuple (t : arg) : Prop := exists l, t = ATuple l.
Definition a_flag_arg (a : arg) : Prop := exists b, a = ABool b.
Definition not_empty (df : arg) : Prop := exists f, df = AFrame f /\ df_n f <> 0.
(** All the cells of the dataset are strings. *)
Definition texts_only (df : arg) : Prop := forall f a c v, df = AFrame f -> In (a, c) (df_cols f) -> In v c -> exists s, v = VStr s.
(** The target is a pair; has a first, a second element; its first is a string; both are. *)
Definition a_pair (t : arg) : Prop := exists x y, t = ATuple [x; y].
Definition has_first (t : arg) : Prop := exists x l, t = ATuple (x :: l).
Definition has_second (t : arg) : Prop := exists x y l, t = ATuple (x :: y :: l).
Definition text_first (t : arg) : Prop := exists s l, t = ATuple (AStr s :: l).
Definition two_texts (t : arg) : Prop := exists s v l, t = ATuple (AStr s :: AStr v :: l).
(** The first element is the name of a column, the second one of its values. *)
Definition names_column (df t : arg) : Prop := exists f s l, df = AFrame f /\ t = ATuple (AStr s :: l) /\ In s (map fst (df_cols f)).
Definition value_present (df t : arg) : Prop :=
  exists f s c v l, df = AFrame f /\ t = ATuple (AStr s :: AStr v :: l) /\ In (s, c) (df_cols f) /\ In (VStr v) c.

(** What pandas guarantees of a dataset: as many cells as rows in each column (and, here, different names). *)
Definition pandas_frame (df : arg) : Prop := forall f, df = AFrame f -> wf_df f /\ NoDup (map fst (df_cols f)).
(** The two elements that are used are scalars: lists, slices, tuples, DataFrames ... as elements of the target are outside the model. *)
Definition scalar (x : arg) : Prop := match x with AStr _ | AInt _ | AFloat _ | ABool _ | ANone => True | _ => False end.
Definition simple (t : arg) : Prop := forall l x, t = ATuple l -> In x (firstn 2 l) -> scalar x.

(** * Proofs *)
Lemma decided_refuse : forall {S A} (b : bool) (P : Prop) e (k : unit -> fitting S A) l w, (b = false <-> P) -> (P -> decided_by (snd (k tt w)) l) ->
  decided_by (snd (next (refuse b e) k w)) ((P, e) :: l).
Proof.
  intros S A b P e k l w HB HK. unfold next, refuse. destruct b; cbn [fails done].
  - assert (N : ~ P) by (rewrite <- HB; discriminate). unfold fails. cbn [snd]. split; [split; [intros (o & H); discriminate|intros H; apply hold_cons in H; tauto]|]. intros e'. rewrite violated_cons. split; [intros H; injection H as ->; auto|intros [[_ ->]|[H _]]; [auto|contradiction]].
  - assert (HP : P) by (apply HB; auto). unfold done. destruct (HK HP) as [A1 A2]. split; [rewrite hold_cons, A1; tauto|]. intros e'. rewrite violated_cons, A2. tauto.
Qed.
Lemma decided_fails : forall {A} (P : Prop) e l, ~ P -> decided_by (@Err A e) ((P, e) :: l).
Proof.
  intros A P e l N. split; [split; [intros (o & H); discriminate|intros H; apply hold_cons in H; tauto]|]. intros e'. rewrite violated_cons. split; [intros H; injection H as ->; auto|intros [[_ ->]|[H _]]; [auto|contradiction]].
Qed.
Lemma b_frame : forall df, negb (is_frame df) = false <-> a_frame df.
Proof. intros df. unfold a_frame. destruct df; cbn; (split; [intros H; first [discriminate|eexists; reflexivity]|intros (y & H); first [discriminate|reflexivity]]). Qed.
Lemma b_tuple : forall df, negb (is_tuple df) = false <-> a_tuple df.
Proof. intros df. unfold a_tuple. destruct df; cbn; (split; [intros H; first [discriminate|eexists; reflexivity]|intros (y & H); first [discriminate|reflexivity]]). Qed.
Lemma b_flag' : forall df, negb (is_flag df) = false <-> a_flag_arg df.
Proof. intros df. unfold a_flag_arg. destruct df; cbn; (split; [intros H; first [discriminate|eexists; reflexivity]|intros (y & H); first [discriminate|reflexivity]]). Qed.
Lemma b_texts : forall f, negb (all_nominal f) = false <-> texts_only (AFrame f).
Proof.
  intros f. rewrite negb_false_iff. unfold all_nominal, texts_only. rewrite forallb_forall. split.
  - intros H f' a c v E I J. injection E as <-. specialize (H _ I). cbn [snd] in H. rewrite forallb_forall in H. specialize (H _ J). destruct v; try discriminate. eauto.
  - intros H [a c] I. cbn [snd]. rewrite forallb_forall. intros v J. destruct (H f a c v eq_refl I J) as (s & ->). reflexivity.
Qed.
Lemma col_get_in : forall l s c, col_get l s = Some c -> In (s, c) l.
Proof.
  induction l as [|[b d] l IH]; intros s c H; cbn [col_get] in H; [discriminate|]. destruct (String.eqb s b) eqn:E; [apply String.eqb_eq in E; injection H as ->; subst; left; auto|right; auto].
Qed.
Lemma col_get_none : forall l s, col_get l s = None <-> ~ In s (map fst l).
Proof.
  induction l as [|[b d] l IH]; intros s; cbn [col_get map fst In]; [tauto|]. destruct (String.eqb s b) eqn:E.
  - apply String.eqb_eq in E. subst. split; [discriminate|intros H; destruct H; auto].
  - apply String.eqb_neq in E. rewrite IH. split; [intros H [K|K]; [congruence|auto]|tauto].
Qed.
Lemma col_get_some : forall l s c, NoDup (map fst l) -> (col_get l s = Some c <-> In (s, c) l).
Proof.
  intros l s c ND. split; [apply col_get_in|]. intros H. destruct (col_get l s) as [d|] eqn:E.
  - apply col_get_in in E. clear -ND H E. induction l as [|[b x] l IH]; [destruct H|]. cbn [map fst] in ND. inversion ND as [|z zs N1 N2]; subst.
    destruct H as [H|H], E as [E|E]; [congruence| | |auto]; exfalso; apply N1.
    + injection H as -> ->. apply in_map_iff. exists (s, d); auto.
    + injection E as -> ->. apply in_map_iff. exists (s, c); auto.
  - apply col_get_none in E. exfalso. apply E. apply in_map_iff. exists (s, c); auto.
Qed.
Lemma occurs_in : forall s c, occurs (AStr s) c = true <-> In (VStr s) c.
Proof.
  intros s c. cbn [occurs]. rewrite existsb_exists. split.
  - intros (v & I & E). destruct v; cbn in E; try discriminate. apply String.eqb_eq in E. subst. auto.
  - intros I. exists (VStr s). split; auto. cbn. apply String.eqb_refl.
Qed.
Lemma decided_none : forall {A} (x : A), decided_by (Ok x) [].
Proof. intros. apply decided_nil. Qed.

(** The three evaluations [target[0]], [df[target[0]]], [target[1]]. *)
Definition target_requirements (df t : arg) : requirements := [(has_first t, IndexError); (names_column df t, KeyError); (has_second t, IndexError)].
Lemma decided_target : forall {S} f l (w : world S), simple (ATuple l) ->
  decided_by (snd (next (item (ATuple l) 0) (fun x => next (column f x) (fun c => next (item (ATuple l) 1) (fun v => done (Start f (fst c) v)))) w))
    (target_requirements (AFrame f) (ATuple l)).
Proof.
  intros S f l w Hs. unfold target_requirements, item. cbn [elements]. destruct l as [|x l]; cbn [nth_error].
  - unfold next, fails. cbn [snd]. apply decided_fails. intros (y & m & H). discriminate.
  - apply decided_skip; [exists x, l; auto|]. cbn [next done]. unfold next at 1, done at 1.
    assert (Hx : scalar x) by (apply (Hs (x :: l) x eq_refl); cbn; auto).
    destruct x as [s|z|y|b| | | | |]; try contradiction;
      try (unfold next, column, fails; cbn [snd]; apply decided_fails; intros (f' & s' & l' & _ & H & _); discriminate).
    unfold column. destruct (col_get (df_cols f) s) as [c|] eqn:E.
    + assert (K : In s (map fst (df_cols f))) by (destruct (in_dec string_dec s (map fst (df_cols f))) as [?|N]; auto; apply col_get_none in N; congruence).
      apply decided_skip; [exists f, s, l; auto|]. unfold next, done. destruct l as [|v l]; cbn [nth_error fst].
      * unfold fails. cbn [snd]. apply decided_fails. intros (y & z & m & H). discriminate.
      * cbn [snd]. apply decided_skip; [exists (AStr s), v, l; auto|]. apply decided_nil.
    + unfold next, fails. cbn [snd]. apply decided_fails. intros (f' & s' & l' & H1 & H2 & H3). injection H1 as <-. injection H2 as <- <-. apply col_get_none in E. auto.
Qed.

(** * C83: what fit accepts *)
(** SDMap, SDMapStar: in this order, with these errors. *)
Theorem C83_sdmap : forall S df t (w : world S), simple t ->
  decided_by (snd (sdmap_checks df t w))
    ([(a_frame df, TypeError); (a_tuple t, TypeError); (texts_only df, DatasetAttributeTypeError)] ++ target_requirements df t).
Proof.
  intros S df t w Hs. cbn [app]. apply decided_refuse; [apply b_frame|]. intros (f & ->). apply decided_refuse; [apply b_tuple|]. intros (l & ->).
  apply decided_refuse; [apply b_texts|]. intros _. apply (decided_target f l w Hs).
Qed.
Print Assumptions C83_sdmap.
(** VLSD decides in the same way. *)
Theorem C83_vlsd : forall S writes df t (w : world S), simple t ->
  decided_by (snd (vlsd_checks writes df t w))
    ([(a_frame df, TypeError); (a_tuple t, TypeError); (texts_only df, DatasetAttributeTypeError)] ++ target_requirements df t).
Proof.
  intros S writes df t w Hs. cbn [app]. apply decided_refuse; [apply b_frame|]. intros (f & ->). apply decided_refuse; [apply b_tuple|]. intros (l & ->).
  apply decided_refuse; [apply b_texts|]. intros _. unfold next at 1, open_file. destruct writes; apply (decided_target f l _ Hs).
Qed.
Print Assumptions C83_vlsd.
(** GMSL, PSLD, DSLM also refuse datasets without rows. *)
Theorem C83_lists : forall S df t (w : world S), simple t ->
  decided_by (snd (list_checks df t w))
    ([(a_frame df, TypeError); (not_empty df, ValueError); (a_tuple t, TypeError); (texts_only df, DatasetAttributeTypeError)] ++ target_requirements df t).
Proof.
  intros S df t w Hs. cbn [app]. apply decided_refuse; [apply b_frame|]. intros (f & ->). apply decided_refuse.
  { cbn [frame]. unfold not_empty. split; [intros H; exists f; split; auto; apply Nat.eqb_neq; auto|intros (f' & H & N); injection H as <-; apply Nat.eqb_neq; auto]. }
  intros _. apply decided_refuse; [apply b_tuple|]. intros (l & ->). apply decided_refuse; [apply b_texts|]. intros _. apply (decided_target f l w Hs).
Qed.
Print Assumptions C83_lists.
Lemma b_pair : forall l, negb (length l =? 2) = false <-> a_pair (ATuple l).
Proof.
  intros l. rewrite negb_false_iff, Nat.eqb_eq. unfold a_pair. split.
  - destruct l as [|x [|y [|z l]]]; try discriminate. eauto.
  - intros (x & y & H). injection H as ->. reflexivity.
Qed.
(** BSD, CBSD, CPBSD. *)
Theorem C83_bsd : forall S df t (w : world S), simple t ->
  decided_by (snd (bsd_checks df t w))
    [(a_frame df, TypeError); (a_tuple t, TypeError); (a_pair t, ValueError); (text_first t, ValueError); (texts_only df, DatasetAttributeTypeError); (names_column df t, KeyError)].
Proof.
  intros S df t w Hs. apply decided_refuse; [apply b_frame|]. intros (f & ->). apply decided_refuse; [apply b_tuple|]. intros (l & ->).
  apply decided_refuse; [apply b_pair|]. intros (x & y & E). injection E as ->. unfold item. cbn [elements nth_error]. unfold next at 1, done at 1.
  apply decided_refuse.
  { unfold text_first. destruct x; cbn; (split; [intros H; first [discriminate|eexists _, _; reflexivity]|intros (s' & l' & H); first [discriminate|reflexivity]]). }
  intros (s & m & E). injection E as -> <-. apply decided_refuse; [apply b_texts|]. intros _. cbn [column frame].
  destruct (col_get (df_cols f) s) as [c|] eqn:E.
  - assert (K : In s (map fst (df_cols f))) by (destruct (in_dec string_dec s (map fst (df_cols f))) as [?|N]; auto; apply col_get_none in N; congruence).
    apply decided_skip; [exists f, s, [y]; auto|]. apply decided_nil.
  - unfold next, fails. cbn [snd]. apply decided_fails. intros (f' & s' & l' & H1 & H2 & H3). injection H1 as <-. injection H2 as <- <-. apply col_get_none in E. auto.
Qed.
Print Assumptions C83_bsd.
(** QFinder. *)
Theorem C83_qfinder : forall S df t (w : world S), simple t ->
  decided_by (snd (qfinder_checks df t w))
    [(a_frame df, TypeError); (a_tuple t, TypeError); (texts_only df, DatasetAttributeTypeError); (a_pair t, InconsistentMethodParametersError); (names_column df t, KeyError)].
Proof.
  intros S df t w Hs. apply decided_refuse; [apply b_frame|]. intros (f & ->). apply decided_refuse; [apply b_tuple|]. intros (l & ->).
  apply decided_refuse; [apply b_texts|]. intros T. apply decided_refuse; [apply b_pair|]. intros (x & y & E). injection E as ->.
  assert (Hx : scalar x) by (apply (Hs [x; y] x eq_refl); cbn; auto).
  unfold item. cbn [elements nth_error frame]. unfold next at 1, done at 1.
  destruct x as [s|z|u|b| | | | |]; try contradiction;
    try (unfold next, column, fails; cbn [snd]; apply decided_fails; intros (f' & s' & l' & _ & H & _); discriminate).
  cbn [column]. destruct (col_get (df_cols f) s) as [c|] eqn:E.
  - assert (K : In s (map fst (df_cols f))) by (destruct (in_dec string_dec s (map fst (df_cols f))) as [?|N]; auto; apply col_get_none in N; congruence).
    apply decided_skip; [exists f, s, [y]; auto|]. unfold next, done, refuse. cbn [snd].
    assert (N : forallb is_str c = true) by (apply forallb_forall; intros v I; destruct (T f s c v eq_refl (col_get_in _ _ _ E) I) as (r & ->); reflexivity).
    rewrite N. cbn [negb snd fst]. apply decided_nil.
  - unfold next, fails. cbn [snd]. apply decided_fails. intros (f' & s' & l' & H1 & H2 & H3). injection H1 as <-. injection H2 as <- <-. apply col_get_none in E. auto.
Qed.
Print Assumptions C83_qfinder.
(** IDSD: the target must be in the dataset. *)
Theorem C83_idsd : forall S df t (w : world S), simple t -> pandas_frame df ->
  decided_by (snd (idsd_checks df t w))
    [(a_frame df, TypeError); (a_tuple t, TypeError); (texts_only df, DatasetAttributeTypeError); (has_first t, IndexError); (names_column df t, ValueError);
     (has_second t, IndexError); (value_present df t, ValueError)].
Proof.
  intros S df t w Hs Hp. apply decided_refuse; [apply b_frame|]. intros (f & ->). apply decided_refuse; [apply b_tuple|]. intros (l & ->).
  apply decided_refuse; [apply b_texts|]. intros _. unfold item. cbn [elements frame]. destruct l as [|x l]; cbn [nth_error].
  - unfold next, fails. cbn [snd]. apply decided_fails. intros (y & m & H). discriminate.
  - apply decided_skip; [exists x, l; auto|]. unfold next at 1, done at 1.
    apply decided_refuse.
    { unfold names_column. destruct x as [s|z|u|b| | | | |]; try (split; [discriminate|intros (f' & s' & l' & _ & H & _); discriminate]). cbn [is_column]. rewrite negb_false_iff. split.
      - intros H. exists f, s, l. split; auto. split; auto. destruct (in_dec string_dec s (map fst (df_cols f))) as [?|N]; auto. apply col_get_none in N. rewrite N in H. discriminate.
      - intros (f' & s' & l' & H1 & H2 & H3). injection H1 as <-. injection H2 as <- <-. destruct (col_get (df_cols f) s) eqn:E; auto. apply col_get_none in E. contradiction. }
    intros (f' & s & m & E1 & E2 & I). injection E1 as <-. injection E2 as -> <-. destruct l as [|v l]; cbn [nth_error].
    + unfold next, fails. cbn [snd]. apply decided_fails. intros (y & z & m & H). discriminate.
    + apply decided_skip; [exists (AStr s), v, l; auto|]. unfold next at 1, done at 1. cbn [column].
      destruct (col_get (df_cols f) s) as [c|] eqn:E; [|apply col_get_none in E; contradiction]. unfold next at 1, done at 1. cbn [snd].
      apply decided_refuse; [|intros _; apply decided_nil].
      destruct (Hp f eq_refl) as [_ ND]. rewrite negb_false_iff. unfold value_present.
      destruct v as [r|z|u|b| | | | |]; try (split; [discriminate|intros (f' & s' & c' & v' & l' & _ & H & _); discriminate]).
      rewrite occurs_in. split; [intros J; exists f, s, c, r, l; repeat split; auto; apply col_get_in; auto|].
      intros (f' & s' & c' & v' & l' & H1 & H2 & H3 & H4). injection H1 as <-. injection H2 as <- <- <-. apply (col_get_some _ _ _ ND) in H3. congruence.
Qed.
Print Assumptions C83_idsd.
(** SDIGA: also (a dataset that is no DataFrame is reported with another error class). *)
Theorem C83_sdiga : forall S df t (w : world S), simple t -> pandas_frame df ->
  decided_by (snd (sdiga_checks df t w))
    [(a_frame df, DatasetAttributeTypeError); (a_tuple t, TypeError); (a_pair t, ValueError); (two_texts t, TypeError); (texts_only df, DatasetAttributeTypeError);
     (names_column df t, KeyError); (value_present df t, ValueError)].
Proof.
  intros S df t w Hs Hp. apply decided_refuse; [apply b_frame|]. intros (f & ->). apply decided_refuse; [apply b_tuple|]. intros (l & ->).
  apply decided_refuse; [apply b_pair|]. intros (x & y & E). injection E as ->. unfold item. cbn [elements nth_error]. unfold next at 1, done at 1. unfold next at 1, done at 1.
  apply decided_refuse.
  { unfold two_texts. destruct x; cbn [is_text negb orb]; try (split; [discriminate|intros (s' & v' & l' & H); discriminate]).
    destruct y; cbn [is_text negb]; try (split; [discriminate|intros (s' & v' & l' & H); discriminate]). split; [eauto|reflexivity]. }
  intros (s & v & m & E). injection E as -> -> <-. apply decided_refuse; [apply b_texts|]. intros _. cbn [column frame].
  destruct (col_get (df_cols f) s) as [c|] eqn:E.
  - assert (K : In s (map fst (df_cols f))) by (destruct (in_dec string_dec s (map fst (df_cols f))) as [?|N]; auto; apply col_get_none in N; congruence).
    apply decided_skip; [exists f, s, [AStr v]; auto|]. unfold next at 1, done at 1. cbn [snd]. apply decided_refuse; [|intros _; apply decided_nil].
    destruct (Hp f eq_refl) as [_ ND]. rewrite negb_false_iff, occurs_in. unfold value_present. split.
    + intros J. exists f, s, c, v, []. repeat split; auto. apply col_get_in; auto.
    + intros (f' & s' & c' & v' & l' & H1 & H2 & H3 & H4). injection H1 as <-. injection H2 as <- <- <-. apply (col_get_some _ _ _ ND) in H3. congruence.
  - unfold next, fails. cbn [snd]. apply decided_fails. intros (f' & s' & l' & H1 & H2 & H3). injection H1 as <-. injection H2 as <- <-. apply col_get_none in E. auto.
Qed.
Print Assumptions C83_sdiga.
(** test_subgroups of QFinder. *)
Definition has_path_arg (write path : arg) : Prop := write = ABool true -> path <> ANone.
Definition text_path (write path : arg) : Prop := write = ABool true -> exists s, path = AStr s.
Theorem C83_test : forall S fitted df t write path (w : world S), simple t ->
  decided_by (snd (test_checks fitted df t write path w))
    ([(fitted = true, ValueError); (a_frame df, TypeError); (a_tuple t, TypeError); (a_flag_arg write, TypeError); (has_path_arg write path, ValueError); (text_path write path, TypeError)]
     ++ target_requirements df t).
Proof.
  intros S fitted df t write path w Hs. cbn [app]. apply decided_refuse; [apply negb_false_iff|]. intros _. apply decided_refuse; [apply b_frame|]. intros (f & ->).
  apply decided_refuse; [apply b_tuple|]. intros (l & ->). apply decided_refuse; [apply b_flag'|]. intros (b & ->). cbv zeta.
  pose proof (decided_target f l w Hs) as D. destruct b; cbn [andb].
  - destruct (is_none path) eqn:N.
    + unfold next at 1, fails at 1. cbn [snd]. apply decided_fails. intros H. destruct path; try discriminate. apply H; auto.
    + apply decided_skip; [intros _ ->; discriminate|]. apply decided_refuse; [|intros _; exact D].
      unfold text_path. destruct path; cbn [is_text negb]; (split; [intros H _; first [discriminate|eauto]|intros H; first [reflexivity|destruct (H eq_refl); discriminate]]).
  - apply decided_skip; [intros H; discriminate|]. apply decided_skip; [intros H; discriminate|]. exact D.
Qed.
Print Assumptions C83_test.

(** * What a refused call leaves *)
(** The rest of the method never runs, and neither the file nor the object changes: whatever the rest of the method is. *)
Lemma refused_call : forall {S A} (m : fitting S start) (rest : start -> fitting S A) w w' e, m w = (w', Err e) -> call m rest w = (w', Err e).
Proof. intros S A m rest w w' e H. unfold call, next. rewrite H. reflexivity. Qed.
Ltac steps H := repeat match type of H with context [next ?m ?k ?w] => unfold next at 1 in H end.
Lemma pure_next : forall {S A B} (m : fitting S A) (k : A -> fitting S B), (forall w, fst (m w) = w) -> (forall a w, fst (k a w) = w) -> forall w, fst (next m k w) = w.
Proof. intros S A B m k Hm Hk w. unfold next. specialize (Hm w). destruct (m w) as [w' [a|e]]; cbn [fst] in *; subst; auto. Qed.
Lemma pure_refuse : forall {S} b e (w : world S), fst (refuse b e w) = w.
Proof. intros S b e w. destruct b; reflexivity. Qed.
Lemma pure_item : forall {S} t i (w : world S), fst (item t i w) = w.
Proof. intros S t i w. unfold item. destruct (nth_error (elements t) i); reflexivity. Qed.
Lemma pure_column : forall {S} f x (w : world S), fst (column f x w) = w.
Proof. intros S f x w. destruct x; try reflexivity. unfold column. destruct (col_get (df_cols f) s); reflexivity. Qed.
Ltac pure := repeat first [apply pure_refuse | apply pure_item | apply pure_column | reflexivity | (apply pure_next; [|intros]) | match goal with |- fst ((if ?b then _ else _) _) = _ => destruct b end | progress intros].
Theorem C83_untouched : forall S A df t write path fitted (rest : start -> fitting S A) (w : world S) m e,
  In m [sdmap_checks df t; bsd_checks df t; idsd_checks df t; qfinder_checks df t; sdiga_checks df t; list_checks df t; test_checks fitted df t write path] ->
  snd (m w) = Err e -> call m rest w = (w, Err e).
Proof.
  intros S A df t write path fitted rest w m e I H. assert (P : fst (m w) = w).
  { cbn [In] in I. repeat match type of I with _ \/ _ => destruct I as [<-|I] end; [| | | | | | |destruct I]; clear; revert w.
    - unfold sdmap_checks. pure.
    - unfold bsd_checks. pure.
    - unfold idsd_checks. pure.
    - unfold qfinder_checks. pure.
    - unfold sdiga_checks. pure.
    - unfold list_checks. pure.
    - unfold test_checks. cbv zeta. pure. }
  destruct (m w) as [w' r] eqn:E. cbn [fst snd] in *. subst. apply refused_call; auto.
Qed.
Print Assumptions C83_untouched.
(** VLSD: a call that is refused for the dataset or the class of the target leaves everything as it was; one that is refused for the
    elements of the target, after the output file was opened, leaves that file empty and open. *)
Theorem C83_vlsd_file : forall S A writes df t (rest : start -> fitting S A) (w : world S) e, snd (vlsd_checks writes df t w) = Err e ->
  let first := a_frame df /\ a_tuple t /\ texts_only df in
  (~ first -> call (vlsd_checks writes df t) rest w = (w, Err e)) /\
  (first -> call (vlsd_checks writes df t) rest w = (if writes then World (Some "") true (w_obj w) else w, Err e)).
Proof.
  intros S A writes df t rest w e H first. destruct (negb (is_frame df)) eqn:E1.
  { split; intros F; [|exfalso; destruct F as [F _]; apply b_frame in F; congruence]. apply refused_call. revert H. unfold vlsd_checks, next, refuse. rewrite E1. cbn [fails snd]. intros H. unfold fails in *. cbn [snd] in H. congruence. }
  destruct (negb (is_tuple t)) eqn:E2.
  { split; intros F; [|exfalso; destruct F as (_ & F & _); apply b_tuple in F; congruence]. apply refused_call. revert H. unfold vlsd_checks, next, refuse. rewrite E1, E2. cbn [snd]. unfold done, fails. cbn [snd]. congruence. }
  pose proof E1 as E1'. apply b_frame in E1'. destruct E1' as (f & ->). destruct (negb (all_nominal f)) eqn:E3.
  { split; intros F; [|exfalso; destruct F as (_ & _ & F); apply b_texts in F; congruence]. apply refused_call. revert H. unfold vlsd_checks, next, refuse. cbn [frame]. rewrite E1, E2, E3. unfold done, fails. cbn [snd]. congruence. }
  assert (F : first) by (split; [apply b_frame; auto|split; [apply b_tuple; auto|apply b_texts; auto]]).
  split; [contradiction|intros _]. apply refused_call. set (w1 := if writes then World (Some "") true (w_obj w) else w).
  assert (K : vlsd_checks writes (AFrame f) t w = next (item t 0) (fun x => next (column f x) (fun c => next (item t 1) (fun v => done (Start f (fst c) v)))) w1).
  { unfold vlsd_checks. cbn [frame]. rewrite E1, E2, E3. unfold w1. destruct writes; reflexivity. }
  rewrite K in H |- *. assert (P : forall w2, fst (next (item t 0) (fun x => next (column f x) (fun c => next (item t 1) (fun v => @done S _ (Start f (fst c) v)))) w2) = w2) by (intros; pure).
  specialize (P w1). destruct (next _ _ w1) as [w' r]. cbn [fst snd] in *. subst. reflexivity.
Qed.
Print Assumptions C83_vlsd_file.

(** * What an accepted call starts with *)
(** The dataset and the first two elements of the target, as they were given; the dataset is categorical and has the target column, which
    is what the theorems about the algorithms suppose; the file and the object are as they were (VLSD: the file is open and empty). *)
Lemma starts_target : forall {S} f l (w : world S) s w', 
  next (item (ATuple l) 0) (fun x => next (column f x) (fun c => next (item (ATuple l) 1) (fun v => done (Start f (fst c) v)))) w = (w', Ok s) ->
  exists tcol v rest, l = AStr tcol :: v :: rest /\ s = Start f tcol v /\ w' = w /\ has_column f tcol.
Proof.
  intros S f l w s w' H. unfold next, item, done, fails in H. cbn [elements] in H. destruct l as [|x l]; cbn [nth_error] in H; [discriminate|].
  destruct x as [c|z|y|b| | | | |]; cbn [column] in H; try discriminate. destruct (col_get (df_cols f) c) as [col|] eqn:E; [|discriminate].
  unfold done in H. destruct l as [|v l]; cbn [nth_error fst] in H; [discriminate|]. unfold done in H. injection H as <- <-. exists c, v, l. repeat split; auto. exists col; auto.
Qed.
Lemma item_ok : forall {S} t i (w w' : world S) x, item t i w = (w', Ok x) -> w' = w /\ nth_error (elements t) i = Some x.
Proof. intros S t i w w' x H. unfold item, done, fails in H. destruct (nth_error (elements t) i); [|discriminate]. injection H as <- <-. auto. Qed.
Lemma refuse_ok : forall {S} b e (w w' : world S) u, refuse b e w = (w', Ok u) -> w' = w /\ b = false.
Proof. intros S b e w w' u H. destruct b; [discriminate|]. injection H as <- _. auto. Qed.
Lemma column_ok : forall {S} f x (w w' : world S) c, column f x w = (w', Ok c) -> w' = w /\ x = AStr (fst c) /\ col_get (df_cols f) (fst c) = Some (snd c).
Proof.
  intros S f x w w' c H. destruct x as [s|z|y|b| | | | |]; cbn [column] in H; try discriminate. destruct (col_get (df_cols f) s) eqn:E; [|discriminate]. unfold done in H. injection H as <- <-. auto.
Qed.
Lemma next_ok : forall {S A B} (m : fitting S A) (k : A -> fitting S B) w w' b, next m k w = (w', Ok b) -> exists w1 a, m w = (w1, Ok a) /\ k a w1 = (w', Ok b).
Proof. intros S A B m k w w' b H. unfold next in H. destruct (m w) as [w1 [a|e]]; [eauto|discriminate]. Qed.
Definition started (df t : arg) (s : start) : Prop :=
  df = AFrame (st_frame s) /\ (exists rest, t = ATuple (AStr (st_column s) :: st_value s :: rest)) /\ has_column (st_frame s) (st_column s).
Ltac ok_steps := repeat match goal with
  | H : next _ _ _ = (_, Ok _) |- _ => apply next_ok in H; destruct H as (? & ? & ? & H)
  | H : refuse _ _ _ = (_, Ok _) |- _ => apply refuse_ok in H; destruct H as [-> H]
  | H : item _ _ _ = (_, Ok _) |- _ => apply item_ok in H; destruct H as [-> H]
  | H : column _ _ _ = (_, Ok _) |- _ => apply column_ok in H; destruct H as (-> & -> & H)
  | H : done _ _ = (_, Ok _) |- _ => injection H as <- <-
  end.
Lemma started_intro : forall df t c v, negb (is_frame df) = false -> negb (is_tuple t) = false -> nth_error (elements t) 0 = Some (AStr (fst c)) ->
  nth_error (elements t) 1 = Some v -> col_get (df_cols (frame df)) (fst c) = Some (snd c) -> started df t (Start (frame df) (fst c) v).
Proof.
  intros df t c v E1 E2 H0 H1 Hc. destruct df; try discriminate. destruct t; try discriminate. cbn [elements frame] in *. split; auto. cbn [st_frame st_column st_value]. split; [|exists (snd c); auto].
  destruct l as [|x [|y l]]; cbn [nth_error] in *; try discriminate. injection H0 as ->. injection H1 as ->. eauto.
Qed.
Lemma first_steps : forall df, negb (is_frame df) = false -> negb (all_nominal (frame df)) = false -> texts_only df.
Proof. intros df E H. apply b_frame in E. destruct E as (f & ->). apply b_texts; auto. Qed.
Theorem C83_starts : forall S A df t (rest : start -> fitting S A) (w : world S) m s,
  In m [sdmap_checks df t; bsd_checks df t; idsd_checks df t; qfinder_checks df t; sdiga_checks df t; list_checks df t] -> snd (m w) = Ok s ->
  call m rest w = rest s w /\ started df t s /\ (pandas_frame df -> categorical (st_frame s)).
Proof.
  intros S A df t rest w m s I H. destruct (m w) as [w' r] eqn:E. cbn [snd] in H. subst r.
  assert (K : w' = w /\ started df t s /\ texts_only df).
  { cbn [In] in I. repeat match type of I with _ \/ _ => destruct I as [<-|I] end; [| | | | | |destruct I].
    all: unfold sdmap_checks, bsd_checks, idsd_checks, qfinder_checks, sdiga_checks, list_checks in E; ok_steps.
    all: split; [reflexivity|]; split; [apply started_intro; auto|apply first_steps; auto]. }
  destruct K as (-> & St & T). split; [unfold call, next; rewrite E; reflexivity|]. split; auto.
  intros HP. destruct St as (-> & _). destruct (HP _ eq_refl) as [W ND]. split; auto. split; auto. intros a col v I1 I2. destruct (T _ a col v eq_refl I1 I2) as (x & ->). reflexivity.
Qed.
Print Assumptions C83_starts.
Theorem C83_vlsd_starts : forall S A writes df t (rest : start -> fitting S A) (w : world S) s, snd (vlsd_checks writes df t w) = Ok s ->
  call (vlsd_checks writes df t) rest w = rest s (if writes then World (Some "") true (w_obj w) else w) /\ started df t s /\ (pandas_frame df -> categorical (st_frame s)).
Proof.
  intros S A writes df t rest w s H. destruct (vlsd_checks writes df t w) as [w' r] eqn:E. cbn [snd] in H. subst r.
  assert (K : w' = (if writes then World (Some "") true (w_obj w) else w) /\ started df t s /\ texts_only df).
  { unfold vlsd_checks in E. ok_steps. match goal with H : open_file _ _ = _ |- _ => rename H into HO end. unfold open_file in HO.
    split; [destruct writes; injection HO as <-; reflexivity|]. split; [apply started_intro; auto|apply first_steps; auto]. }
  destruct K as (-> & St & T). split; [unfold call, next; rewrite E; reflexivity|]. split; auto.
  intros HP. destruct St as (-> & _). destruct (HP _ eq_refl) as [W ND]. split; auto. split; auto. intros a col v I1 I2. destruct (T _ a col v eq_refl I1 I2) as (x & ->). reflexivity.
Qed.
Print Assumptions C83_vlsd_starts.

(** * The models of the algorithms refuse in the same way *)
(** For a dataset and two strings, the fits modelled in SDMapModel.v ... SDIGAModel.v raise the error of the refused call. *)
Lemma target_err : forall {S} f tcol tval (w : world S) e,
  snd (next (item (ATuple [AStr tcol; AStr tval]) 0) (fun x => next (column f x) (fun c => next (item (ATuple [AStr tcol; AStr tval]) 1) (fun v => done (Start f (fst c) v)))) w) = Err e ->
  e = KeyError /\ target_mask f tcol (VStr tval) = Err KeyError.
Proof.
  intros S f tcol tval w e H. unfold target_mask, df_col. unfold next, item, done in H. cbn [elements nth_error column] in H. destruct (col_get (df_cols f) tcol) as [c|]; [discriminate|]. unfold fails in H. cbn [snd] in H. injection H as <-. auto.
Qed.
Ltac nominal_case f H := unfold next at 1, refuse in H; cbn [is_frame negb] in H; unfold done at 1 in H; unfold next at 1, refuse in H; cbn [is_tuple negb] in H; unfold done at 1 in H.
Theorem C83_models : forall S f tcol tval (w : world S) e, let df := AFrame f in let t := ATuple [AStr tcol; AStr tval] in
  (snd (sdmap_checks df t w) = Err e -> forall V (c : sd_config V) st st0, sdmap_new c = Ok st0 -> sdmap_fit c st f tcol tval = Err e) /\
  (snd (sdmap_checks df t w) = Err e -> forall V (c : star_config V) st, star_fit c st f tcol tval = Err e) /\
  (forall writes, snd (vlsd_checks writes df t w) = Err e -> forall Seq V (impl : vl_impl Seq) (c : vl_config V) st, vlsd_fit impl c st f tcol tval = Err e) /\
  (snd (bsd_checks df t w) = Err e -> forall V (c : bsd_config V) st, bsd_fit c st f tcol tval = Err e) /\
  (snd (idsd_checks df t w) = Err e -> forall c st, idsd_fit c st f tcol tval = Err e) /\
  (snd (qfinder_checks df t w) = Err e -> forall c, qfinder_fit c f tcol tval = Err e) /\
  (snd (sdiga_checks df t w) = Err e -> forall cfg env st, sdiga_fit cfg env st f tcol tval = Err e).
Proof.
  intros S f tcol tval w e df t.
  assert (Shape : forall w : world S, snd (sdmap_checks df t w) = Err e -> (all_nominal f = false /\ e = DatasetAttributeTypeError) \/ (all_nominal f = true /\ e = KeyError /\ target_mask f tcol (VStr tval) = Err KeyError)).
  { intros w0 H. unfold sdmap_checks, df, t in H. nominal_case f H. unfold next at 1, refuse in H. cbn [frame] in H. destruct (all_nominal f); cbn [negb] in H; [right|left; unfold fails in H; cbn [snd] in H; injection H as <-; auto].
    unfold done at 1 in H. split; auto. apply (target_err f tcol tval _ e H). }
  split; [|split; [|split; [|split; [|split; [|split]]]]].
  - intros H V c st st0 N. unfold sdmap_fit. destruct (Shape w H) as [[-> ->]|(-> & -> & M)]; [reflexivity|]. cbn [negb]. unfold generate_set_of_frequent_selectors. unfold sdmap_new in N. destruct (thresholds _ _ _); [|discriminate]. cbn [bind]. rewrite M. reflexivity.
  - intros H V c st. unfold star_fit. destruct (Shape w H) as [[-> ->]|(-> & -> & M)]; [reflexivity|]. cbn [negb]. rewrite M. reflexivity.
  - intros writes H Seq V impl c st. unfold vlsd_fit.
    assert (K : exists w0 : world S, snd (sdmap_checks df t w0) = Err e).
    { exists (if all_nominal f then (if writes then World (Some "") true (w_obj w) else w) else w). revert H. unfold vlsd_checks, sdmap_checks, next, refuse, df, t. cbn [is_frame is_tuple negb frame]. unfold done, fails, open_file. destruct (all_nominal f); cbn [negb]; [|auto]. destruct writes; auto. }
    destruct K as (w0 & K). destruct (Shape w0 K) as [[-> ->]|(-> & -> & M)]; [reflexivity|]. cbn [negb]. rewrite M. reflexivity.
  - intros H V c st. unfold bsd_fit, target_mask, df_col. unfold bsd_checks, df, t in H. unfold next, refuse, item, done, fails in H. cbn [is_frame is_tuple is_text negb elements length nth_error Nat.eqb frame column] in H.
    destruct (all_nominal f); cbn [negb] in *; [|cbn [snd] in H; injection H as <-; reflexivity]. destruct (col_get (df_cols f) tcol); [discriminate|]. cbn [fails snd] in H. unfold fails in H. cbn [snd] in H. injection H as <-. reflexivity.
  - intros H c st. unfold idsd_fit. unfold idsd_checks, df, t in H. unfold next, refuse, item, done, fails in H. cbn [is_frame is_tuple is_text negb elements length nth_error frame column is_column] in H.
    destruct (all_nominal f); cbn [negb] in *; [|cbn [snd] in H; injection H as <-; reflexivity]. destruct (col_get (df_cols f) tcol) as [c0|]; cbn [negb] in H; [|cbn [snd] in H; injection H as <-; reflexivity].
    unfold done in H. cbn [snd occurs] in H. destruct (existsb _ c0); cbn [negb] in *; [discriminate|]. cbn [snd] in H. injection H as <-. reflexivity.
  - intros H c. unfold qfinder_fit, target_mask, df_col. unfold qfinder_checks, df, t in H. unfold next, refuse, item, done, fails in H. cbn [is_frame is_tuple is_text negb elements length nth_error Nat.eqb frame column] in H.
    destruct (all_nominal f) eqn:N; cbn [negb] in *; [|cbn [snd] in H; injection H as <-; reflexivity]. destruct (col_get (df_cols f) tcol) as [c0|] eqn:E; [|unfold fails in H; cbn [snd] in H; injection H as <-; reflexivity].
    exfalso. unfold done in H. cbn [snd] in H. assert (forallb is_str c0 = true) as Z by (unfold all_nominal in N; rewrite forallb_forall in N; apply (N _ (col_get_in _ _ _ E))). rewrite Z in H. discriminate.
  - intros H cfg env st. unfold sdiga_fit, target_mask, df_col. unfold sdiga_checks, df, t in H. unfold next, refuse, item, done, fails in H. cbn [is_frame is_tuple is_text negb orb elements length nth_error Nat.eqb frame column] in H.
    destruct (all_nominal f); cbn [negb] in *; [|cbn [snd] in H; injection H as <-; reflexivity]. destruct (col_get (df_cols f) tcol) as [c0|]; [|unfold fails in H; cbn [snd] in H; injection H as <-; reflexivity].
    unfold done in H. cbn [snd occurs bind] in *. unfold any_true. assert (Z : existsb (fun b => b) (map (fun v => py_eq v (VStr tval)) c0) = existsb (fun v => py_eq v (VStr tval)) c0) by (clear; induction c0 as [|x l IH]; cbn; [auto|rewrite IH; auto]).
    rewrite Z. destruct (existsb _ c0); cbn [negb] in *; [discriminate|]. cbn [snd] in H. injection H as <-. reflexivity.
Qed.
Print Assumptions C83_models.

(** * Concrete calls *)
Definition small : dataframe := DF 2 [("a", [VStr "x"; VStr "y"]); ("class", [VStr "p"; VStr "n"])].
Definition numbers : dataframe := DF 1 [("a", [VInt 1]); ("class", [VStr "p"])].
Definition disk : world nat := World (Some "old results") false 7.
Example C83_nonvacuous :
  simple (ATuple [AStr "class"; AStr "p"]) /\ pandas_frame (AFrame small) /\
  snd (idsd_checks (AFrame small) (ATuple [AStr "class"; AStr "p"]) disk) = Ok (Start small "class" (AStr "p")) /\
  snd (sdiga_checks (AFrame small) (ATuple [AStr "class"; AStr "p"]) disk) = Ok (Start small "class" (AStr "p")) /\
  snd (bsd_checks (AFrame small) (ATuple [AStr "class"; AStr "p"]) disk) = Ok (Start small "class" (AStr "p")) /\
  snd (sdmap_checks (AFrame numbers) (ATuple [AStr "class"; AStr "p"]) disk) = Err DatasetAttributeTypeError /\
  snd (sdmap_checks (AOther 0) (AList [AStr "class"; AStr "p"]) disk) = Err TypeError /\
  snd (sdiga_checks (AOther 0) (AList [AStr "class"; AStr "p"]) disk) = Err DatasetAttributeTypeError /\
  snd (list_checks (AFrame (DF 0 [])) (AList []) disk) = Err ValueError /\
  snd (test_checks true (AFrame small) (ATuple [AStr "class"; AStr "p"]) (ABool true) (AInt 3) disk) = Err TypeError.
Proof.
  split; [intros l x H I; injection H as <-; cbn in I; destruct I as [<-|[<-|[]]]; exact Logic.I|].
  split; [intros f H; injection H as <-; split; [intros a c [H|[H|[]]]; injection H as <- <-; reflexivity|repeat constructor; cbn; intuition discriminate]|].
  repeat split.
Qed.
(** A value that does not occur in the target column: IDSD and SDIGA refuse it, the others start. *)
Theorem C83_absent_value : forall S (w : world S), let t := ATuple [AStr "class"; AStr "z"] in
  snd (idsd_checks (AFrame small) t w) = Err ValueError /\ snd (sdiga_checks (AFrame small) t w) = Err ValueError /\
  snd (sdmap_checks (AFrame small) t w) = Ok (Start small "class" (AStr "z")) /\ snd (bsd_checks (AFrame small) t w) = Ok (Start small "class" (AStr "z")) /\
  snd (qfinder_checks (AFrame small) t w) = Ok (Start small "class" (AStr "z")) /\ snd (list_checks (AFrame small) t w) = Ok (Start small "class" (AStr "z")).
Proof. repeat split. Qed.
Print Assumptions C83_absent_value.
(** Refuted: a refused fit leaves the output file as it was. VLSD with a misspelt target attribute empties it and keeps it open. *)
Theorem C83_untouched_refuted : forall A (rest : start -> fitting nat A),
  call (vlsd_checks true (AFrame small) (ATuple [AStr "clas"; AStr "p"])) rest disk = (World (Some "") true 7, Err KeyError).
Proof. reflexivity. Qed.
Print Assumptions C83_untouched_refuted.
(** Refuted: every fit refuses a target that is not a pair of strings. *)
Theorem C83_pair_refuted : forall S (w : world S),
  snd (sdmap_checks (AFrame small) (ATuple [AStr "class"; AStr "p"; AInt 1]) w) = Ok (Start small "class" (AStr "p")) /\
  snd (list_checks (AFrame small) (ATuple [AStr "class"; ANone]) w) = Ok (Start small "class" ANone) /\
  snd (bsd_checks (AFrame small) (ATuple [AStr "class"; AInt 1]) w) = Ok (Start small "class" (AInt 1)).
Proof. repeat split. Qed.
Print Assumptions C83_pair_refuted.
