(** C39-C42: the subgroup-list learners GMSL, PSLD and DSLM. *)
From Verif Require Import ListSpec ListProofs SubgroupListSpec SubgroupListProofs MiningSpec MiningProofs FPTreeProofs SDMapProofs CoreSpec Properties_Core Properties_Structures Properties_SDMap Properties_SDMapStar.
From Coq Require Import QArith Lia.
Open Scope string_scope.
Open Scope list_scope.
Open Scope nat_scope.

(** * Specification *)
(** The rows of the target. *)
Definition target_bits (df : dataframe) (tcol tval : string) : list bool :=
  map (fun i => row_matchesb df i (Sel tcol EQUAL (VStr tval))) (seq 0 (df_n df)).
(** The arguments of the algorithms: a categorical dataset with at least one row and the target column, candidates whose bitarrays
    have one bit per row (the loader rejects the others, gmsl.py:173-180) and gains that are compared by a strict order. *)
Definition learner_input {G} (c : list_config G) (df : dataframe) (tcol : string) (xs : list candidate3) : Prop :=
  categorical df /\ has_column df tcol /\ 0 < df_n df /\
  (forall x, In x xs -> length (c_pos x) = df_n df /\ length (c_neg x) = df_n df) /\ strict_order (lc_gt c).
(** The list with the given members, in order, built with [add_subgroup] from the empty list. *)
Definition empty_list (df : dataframe) (tcol tval : string) (l : sglist) : Prop :=
  sl_init (target_bits df tcol tval) (map negb (target_bits df tcol tval)) (df_n df) = Ok l.
Definition with_members (l : sglist) (st : list candidate3) : sglist :=
  sl_history l (map (fun x => SLAdd (c_group x) (c_pos x) (c_neg x)) st).
(** [runs]: for each list the positions of its members in the input. *)
Definition explains {G} (c : list_config G) (df : dataframe) (tcol tval : string) (xs : list candidate3) (out : list sglist) (runs : list (list nat)) : Prop :=
  exists l0, empty_list df tcol tval l0 /\ out = map (fun r => with_members l0 (map (cand xs) r)) runs /\
  forall j r, nth_error runs j = Some r -> list_run c df (target_bits df tcol tval) xs (concat (firstn j runs)) r.

Lemma target_mask_bits : forall df tcol tval, categorical df -> has_column df tcol ->
  target_mask df tcol (VStr tval) = Ok (target_bits df tcol tval).
Proof.
  intros df tcol tval Hc Hh. destruct (mask_spec df tcol tval Hc Hh) as (mask & E & L & N). rewrite E. f_equal. unfold target_bits.
  apply nth_ext with (d := false) (d' := false); [now rewrite map_length, seq_length|]. intros i Hi. rewrite L in Hi. rewrite (N i Hi).
  rewrite nth_indep with (d' := (fun i => row_matchesb df i (Sel tcol EQUAL (VStr tval))) 0) by now rewrite map_length, seq_length.
  rewrite (map_nth (fun i => row_matchesb df i (Sel tcol EQUAL (VStr tval)))), seq_nth by auto. reflexivity.
Qed.
Lemma target_bits_length : forall df tcol tval, length (target_bits df tcol tval) = df_n df.
Proof. intros. unfold target_bits. now rewrite map_length, seq_length. Qed.
Lemma categorical_nominal : forall df, categorical df -> all_nominal df = true.
Proof. intros df (_ & _ & H). unfold all_nominal. apply forallb_forall. intros [a col] I. apply forallb_forall. intros v Iv. apply (H a col); auto. Qed.
Lemma empty_SLS : forall df tcol tval, empty_list df tcol tval (SLS df (target_bits df tcol tval) []).
Proof.
  intros. unfold empty_list, sl_init. rewrite map_length, !target_bits_length, Nat.eqb_refl. cbn [negb]. reflexivity.
Qed.
Lemma fit_unfold : forall {G} (c : list_config G) df tcol tval xs, learner_input c df tcol xs ->
  learner_fit c df tcol tval xs = learn_lists c df (df_n df) (repeat (SLS df (target_bits df tcol tval) []) (Z.to_nat (lc_max_sl c))) (alive c xs []).
Proof.
  intros G c df tcol tval xs (H1 & H2 & H3 & H4 & H5). unfold learner_fit. replace (df_n df =? 0) with false by (symmetry; apply Nat.eqb_neq; lia).
  rewrite (categorical_nominal df H1). cbn [negb]. rewrite (target_mask_bits df tcol tval H1 H2). cbn [bind]. rewrite (empty_SLS df tcol tval). cbn [bind]. now rewrite alive_nil.
Qed.
Lemma input_sized : forall {G} (c : list_config G) df tcol xs, learner_input c df tcol xs -> Forall (sized df) xs.
Proof. intros G c df tcol xs (_ & _ & _ & H & _). apply Forall_forall. exact H. Qed.

(** What the algorithms compute: every list is the result of best choices, until no candidate improves it or it is full. *)
Lemma fit_explained : forall {G} (c : list_config G) df tcol tval xs out, learner_input c df tcol xs ->
  learner_fit c df tcol tval xs = Ok out ->
  exists runs, length runs = Z.to_nat (lc_max_sl c) /\ explains c df tcol tval xs out runs /\ Forall (Forall (fun a => a < length xs)) runs /\
    (total_order (lc_gt c) -> forall j r k a, nth_error runs j = Some r -> nth_error r k = Some a ->
       first_choice c df (target_bits df tcol tval) xs (concat (firstn j runs) ++ firstn k r) (map (cand xs) (firstn k r)) a).
Proof.
  intros G c df tcol tval xs out HI E. rewrite fit_unfold in E by auto. assert (S1 := input_sized c df tcol xs HI). destruct HI as (H1 & H2 & H3 & H4 & H5 & H6).
  destruct (learn_lists_spec c df (target_bits df tcol tval) xs (target_bits_length df tcol tval) S1 H5 H6 (Z.to_nat (lc_max_sl c)) [] out E) as (runs & L & -> & F & Hr).
  exists runs. split; auto. split; [|split; auto].
  - exists (SLS df (target_bits df tcol tval) []). split; [apply empty_SLS|]. split; [|intros j r Hj; destruct (Hr j r Hj) as [A _]; exact A].
    apply map_ext_in. intros r Ir. rewrite Forall_forall in F. unfold with_members. apply SLS_history. apply cands_sized; auto.
  - intros T j r k a Hj Hk. destruct (Hr j r Hj) as [_ B]. exact (B T k a Hk).
Qed.

(** * C39 *)
(** The algorithms stop with a result when the code length of each description is defined (i.e. its attributes exist) ... *)
Theorem C39_terminates : forall {G} (c : list_config G) df tcol tval xs, learner_input c df tcol xs ->
  (forall k x, In x xs -> exists m, lc_model c df k (g_desc (c_group x)) = Ok m) ->
  exists out, learner_fit c df tcol tval xs = Ok out.
Proof.
  intros G c df tcol tval xs HI Hm. rewrite fit_unfold by auto. assert (S1 := input_sized c df tcol xs HI). destruct HI as (H1 & H2 & H3 & H4 & H5 & H6).
  apply learn_lists_total; auto; [apply target_bits_length|]. intros k a Ha. apply Hm, nth_In. auto.
Qed.
(** ... and otherwise they stop with the error of that computation. *)
Theorem C39_errors : forall {G} (c : list_config G) df tcol tval xs e, learner_input c df tcol xs ->
  learner_fit c df tcol tval xs = Err e -> exists k x, In x xs /\ lc_model c df k (g_desc (c_group x)) = Err e.
Proof.
  intros G c df tcol tval xs e HI E. rewrite fit_unfold in E by auto. assert (S1 := input_sized c df tcol xs HI). destruct HI as (H1 & H2 & H3 & H4 & H5 & H6).
  destruct (learn_lists_err c df (target_bits df tcol tval) xs (target_bits_length df tcol tval) S1 H5 H6 e _ [] E) as (k & a & Ha & Hk). exists k, (cand xs a). split; auto. apply nth_In. auto.
Qed.
Lemma run_nodup : forall {G} (c : list_config G) df tgt xs runs prior,
  (forall j r, nth_error runs j = Some r -> list_run c df tgt xs (prior ++ concat (firstn j runs)) r) -> NoDup prior -> NoDup (prior ++ concat runs).
Proof.
  intros G c df tgt xs. induction runs as [|r runs IH]; intros prior H N; cbn [concat]; [rewrite app_nil_r; auto|].
  rewrite app_assoc. apply IH.
  - intros j r' E. specialize (H (S j) r' E). cbn [firstn concat] in H. now rewrite app_assoc in H.
  - destruct (H 0 r eq_refl) as [H0 _]. cbn [firstn concat] in H0. rewrite app_nil_r in H0. clear H.
    assert (K : forall k, k <= length r -> NoDup (prior ++ firstn k r)).
    { induction k as [|k IHk]; intros Hk; [cbn; rewrite app_nil_r; auto|]. destruct (nth_error r k) as [a|] eqn:Ea; [|apply nth_error_None in Ea; lia].
      assert (Ef : firstn (S k) r = firstn k r ++ [a]).
      { clear -Ea. revert k Ea. induction r as [|x r IH]; intros [|k] Ea; cbn in *; try discriminate; [injection Ea as ->; auto|]. now rewrite (IH k Ea). }
      rewrite Ef, app_assoc. destruct (H0 k a Ea) as [_ [(_ & Na & _) _]]. apply NoDup_rev in IHk as X; [|lia]. rewrite <- (rev_involutive ((prior ++ firstn k r) ++ [a])). apply NoDup_rev.
      rewrite rev_app_distr. cbn [rev app]. constructor; [intros I; apply Na, in_rev; auto|auto]. }
    specialize (K (length r) (le_n _)). rewrite firstn_all in K. auto.
Qed.
(** One list per iteration; each attributes every row to exactly one subgroup or to the default rule; the members are candidates,
    each used at most once over all the lists; PSLD and DSLM respect the maximum size. *)
Theorem C39_well_formed : forall {G} (c : list_config G) df tcol tval xs out, learner_input c df tcol xs ->
  learner_fit c df tcol tval xs = Ok out ->
  length out = Z.to_nat (lc_max_sl c) /\
  (forall l i, In l out -> i < df_n df -> exists! o, attributed l i o) /\
  exists runs : list (list nat), NoDup (concat runs) /\ (forall a, In a (concat runs) -> a < length xs) /\
    map (fun l => combine (combine (sl_subgroups l) (sl_orig_pos l)) (sl_orig_neg l)) out = map (map (cand xs)) runs /\
    (lc_class c <> GMSL -> (0 <= lc_sl_max_size c)%Z -> forall l, In l out -> (Z.of_nat (sl_len l) <= lc_sl_max_size c)%Z).
Proof.
  intros G c df tcol tval xs out HI E. destruct (fit_explained c df tcol tval xs out HI E) as (runs & L & (l0 & Hl0 & -> & Hr) & F & _).
  assert (S1 := input_sized c df tcol xs HI). rewrite map_length. split; auto. split.
  - intros l i Il Hi. apply in_map_iff in Il. destruct Il as (r & <- & Ir). exact (C23_partition _ _ _ l0 Hl0 i Hi).
  - exists runs. split; [apply (run_nodup c df (target_bits df tcol tval) xs runs []); auto; constructor|]. split.
    { intros a Ia. apply in_concat in Ia. destruct Ia as (r & Ir & Ia). rewrite Forall_forall in F. specialize (F r Ir). rewrite Forall_forall in F. auto. }
    assert (El0 : l0 = SLS df (target_bits df tcol tval) []) by (assert (X := empty_SLS df tcol tval); unfold empty_list in *; congruence). subst l0.
    split.
    { rewrite map_map. apply map_ext_in. intros r Ir. rewrite Forall_forall in F. unfold with_members. rewrite <- SLS_history by (apply cands_sized; auto).
      cbn [SLS sl_subgroups sl_orig_pos sl_orig_neg]. generalize (map (cand xs) r) as st. induction st as [|[[g p] q] st IH]; cbn; [reflexivity|]. now rewrite IH. }
    { intros Hc Hp l Il. apply in_map_iff in Il. destruct Il as (r & <- & Ir). rewrite Forall_forall in F. unfold with_members. rewrite <- SLS_history by (apply cands_sized; auto).
      unfold sl_len. cbn [SLS sl_subgroups]. rewrite !map_length. apply In_nth_error in Ir as Ij. destruct Ij as (j & Ej). destruct (Hr j r Ej) as [Hk _].
      destruct r as [|a0 r']; [cbn; lia|]. destruct (nth_error (a0 :: r') (length r')) as [a|] eqn:Ea; [|apply nth_error_None in Ea; cbn in Ea; lia].
      destruct (Hk _ a Ea) as [R _]. unfold room in R. cbn [length]. destruct (lc_class c); [congruence| |]; lia. }
Qed.
Print Assumptions C39_terminates. Print Assumptions C39_errors. Print Assumptions C39_well_formed.

(** * C40 *)
(** The members of a list with their bitarrays. *)
Definition members (l : sglist) : list candidate3 := combine (combine (sl_subgroups l) (sl_orig_pos l)) (sl_orig_neg l).
Lemma members_runs : forall {G} (c : list_config G) df tcol tval xs out, learner_input c df tcol xs -> learner_fit c df tcol tval xs = Ok out ->
  exists runs, map members out = map (map (cand xs)) runs /\ Forall (Forall (fun a => a < length xs)) runs /\
    forall j r, nth_error runs j = Some r -> list_run c df (target_bits df tcol tval) xs (concat (firstn j runs)) r.
Proof.
  intros G c df tcol tval xs out HI E. destruct (fit_explained c df tcol tval xs out HI E) as (runs & L & (l0 & Hl0 & -> & Hr) & F & _). exists runs. split; auto.
  assert (El0 : l0 = SLS df (target_bits df tcol tval) []) by (assert (X := empty_SLS df tcol tval); unfold empty_list in *; congruence). subst l0. assert (S1 := input_sized c df tcol xs HI).
  rewrite map_map. apply map_ext_in. intros r Ir. rewrite Forall_forall in F. unfold members, with_members. rewrite <- SLS_history by (apply cands_sized; auto).
  cbn [SLS sl_subgroups sl_orig_pos sl_orig_neg]. generalize (map (cand xs) r) as st. induction st as [|[[g p] q] st IH]; cbn; [reflexivity|]. now rewrite IH.
Qed.
Lemma member_choice : forall {G} (c : list_config G) df tcol tval xs out l st x rest, learner_input c df tcol xs -> learner_fit c df tcol tval xs = Ok out ->
  In l out -> members l = st ++ x :: rest -> exists prior a, x = cand xs a /\ best_choice c df (target_bits df tcol tval) xs prior st a /\
    forall y, In y st -> exists b, y = cand xs b /\ In b prior.
Proof.
  intros G c df tcol tval xs out l st x rest HI E Il Em. destruct (members_runs c df tcol tval xs out HI E) as (runs & Er & F & Hr).
  assert (I : In (members l) (map members out)) by (apply in_map; auto). rewrite Er in I. apply in_map_iff in I. destruct I as (r & Ec & Ir). rewrite Em in Ec.
  apply In_nth_error in Ir. destruct Ir as (j & Ej). destruct (Hr j r Ej) as [Hk _].
  destruct (nth_error r (length st)) as [a|] eqn:Ea.
  - exists (concat (firstn j runs) ++ firstn (length st) r), a. destruct (Hk _ a Ea) as [_ B].
    assert (Est : map (cand xs) (firstn (length st) r) = st) by (rewrite <- firstn_map, Ec, firstn_app, Nat.sub_diag, firstn_all; cbn; apply app_nil_r).
    rewrite Est in B. split; [|split; auto].
    + assert (X : nth_error (map (cand xs) r) (length st) = Some (cand xs a)) by (rewrite nth_error_map, Ea; auto). rewrite Ec, nth_error_app2, Nat.sub_diag in X by lia. cbn in X. congruence.
    + intros y Iy. rewrite <- Est in Iy. apply in_map_iff in Iy. destruct Iy as (b & <- & Ib). exists b. split; auto. apply in_or_app. auto.
  - apply nth_error_None in Ea. assert (X : length (map (cand xs) r) = length (st ++ x :: rest)) by now rewrite Ec. rewrite map_length, app_length in X. cbn [length] in X. lia.
Qed.
(** The bitarrays of the candidate are those of its subgroup in the dataset. *)
Definition true_bits (df : dataframe) (x : candidate3) : Prop :=
  forall i, i < df_n df ->
    bit (c_pos x) i = row_matchesb df i (g_target (c_group x)) && matches_all df (g_desc (c_group x)) i /\
    bit (c_neg x) i = negb (row_matchesb df i (g_target (c_group x))) && matches_all df (g_desc (c_group x)) i.
Definition refines (g k : subgroup) : Prop := incl (g_desc k) (g_desc g) /\ g_target g = g_target k.
Lemma own_nothing : forall df tgt st x y, In y st -> true_bits df x -> true_bits df y -> refines (c_group x) (c_group y) -> own_rows df tgt st x = (0, 0).
Proof.
  intros df tgt st x y Iy Tx Ty [Hi Ht]. unfold own_rows.
  assert (Z : forall f, (forall i, i < df_n df -> f i = false) -> length (filter f (seq 0 (df_n df))) = 0).
  { intros f Hf. assert (X : filter f (seq 0 (df_n df)) = []); [|now rewrite X]. rewrite (filter_ext_in f (fun _ => false)); [generalize (seq 0 (df_n df)) as l; induction l; auto|]. intros i Ii. apply in_seq in Ii. apply Hf. lia. }
  assert (M : forall i, matches_all df (g_desc (c_group x)) i = true -> matches_all df (g_desc (c_group y)) i = true).
  { intros i H. unfold matches_all in *. rewrite forallb_forall in *. auto. }
  f_equal; apply Z; intros i Li; destruct (Tx i Li) as [X1 X2]; destruct (Ty i Li) as [Y1 Y2].
  - destruct (bit (c_pos x) i) eqn:B; [|apply andb_false_r]. rewrite andb_true_r. symmetry in X1. apply andb_true_iff in X1. destruct X1 as [A1 A2].
    unfold free_pos. apply andb_false_iff. right. apply not_true_iff_false. intros H. rewrite forallb_forall in H. specialize (H y Iy). rewrite Y1, <- Ht, A1, (M i A2) in H. discriminate.
  - destruct (bit (c_neg x) i) eqn:B; [|apply andb_false_r]. rewrite andb_true_r. symmetry in X2. apply andb_true_iff in X2. destruct X2 as [A1 A2].
    unfold free_neg. apply andb_false_iff. right. apply not_true_iff_false. intros H. rewrite forallb_forall in H. specialize (H y Iy). rewrite Y2, <- Ht, A1, (M i A2) in H. discriminate.
Qed.
(** No member is a refinement (its own copies included) of an earlier member, when the bitarrays are those of the dataset. *)
Theorem C40_no_refinement : forall {G} (c : list_config G) df tcol tval xs out l st x rest y, learner_input c df tcol xs ->
  (forall z, In z xs -> true_bits df z) -> learner_fit c df tcol tval xs = Ok out ->
  In l out -> members l = st ++ x :: rest -> In y st -> ~ refines (c_group x) (c_group y).
Proof.
  intros G c df tcol tval xs out l st x rest y HI HT E Il Em Iy R. destruct (member_choice c df tcol tval xs out l st x rest HI E Il Em) as (prior & a & -> & B & Hst).
  destruct B as (Av & _ & g & Hg & Hz & _). destruct (Hst y Iy) as (b & -> & Ib).
  assert (In (cand xs a) xs) by (apply nth_In; apply Av).
  assert (In (cand xs b) xs).
  { destruct (members_runs c df tcol tval xs out HI E) as (runs & Er & F & _). assert (I : In (members l) (map members out)) by (apply in_map; auto). rewrite Er in I. apply in_map_iff in I. destruct I as (r & Ec & Ir).
    assert (I2 : In (cand xs b) (map (cand xs) r)) by (rewrite Ec, Em; apply in_or_app; auto). apply in_map_iff in I2. destruct I2 as (b' & <- & Ib'). apply nth_In. rewrite Forall_forall in F. specialize (F r Ir). rewrite Forall_forall in F. auto. }
  unfold gain_is in Hg. rewrite (own_nothing df _ st (cand xs a) (cand xs b)) in Hg by auto. cbn in Hg. subst g. destruct HI as (_ & _ & _ & _ & Irr & _). congruence.
Qed.
(** For arbitrary bitarrays: no member of any list is a strict refinement of an earlier member of the same list or of a member of
    an earlier list; with PSLD and DSLM neither is it generalized by one. *)
Lemma concat_split : forall {A B} (f : A -> B) (runs : list (list A)) st x rest, concat (map (map f) runs) = st ++ x :: rest ->
  exists j r k a, nth_error runs j = Some r /\ nth_error r k = Some a /\ x = f a /\ st = map f (concat (firstn j runs) ++ firstn k r).
Proof.
  intros A B f. induction runs as [|r runs IH]; intros st x rest H; cbn [map concat] in H; [destruct st; discriminate|].
  destruct (Nat.lt_ge_cases (length st) (length r)) as [L|L].
  - destruct (nth_error r (length st)) as [a|] eqn:Ea; [|apply nth_error_None in Ea; lia]. exists 0, r, (length st), a. split; auto. split; auto.
    assert (X : nth_error (map f r ++ concat (map (map f) runs)) (length st) = Some x) by (rewrite H, nth_error_app2, Nat.sub_diag by lia; auto).
    rewrite nth_error_app1, nth_error_map, Ea in X by (rewrite map_length; auto). cbn in X. split; [congruence|]. cbn [firstn concat app].
    assert (Y : firstn (length st) (map f r ++ concat (map (map f) runs)) = st) by (rewrite H, firstn_app, Nat.sub_diag, firstn_all; cbn; apply app_nil_r).
    rewrite firstn_app, map_length in Y. replace (length st - length r) with 0 in Y by lia. cbn [firstn] in Y. rewrite app_nil_r, firstn_map in Y. congruence.
  - assert (Y : st = map f r ++ skipn (length r) st).
    { assert (Z : firstn (length r) (st ++ x :: rest) = map f r) by (rewrite <- H, firstn_app, <- (map_length f r), Nat.sub_diag, firstn_all; cbn; apply app_nil_r).
      rewrite firstn_app in Z. replace (length r - length st) with 0 in Z by lia. cbn [firstn] in Z. rewrite app_nil_r in Z. rewrite <- Z. symmetry. apply firstn_skipn. }
    rewrite Y in H. rewrite <- app_assoc in H. apply app_inv_head in H. destruct (IH _ _ _ H) as (j & r' & k & a & A1 & A2 & A3 & A4). exists (S j), r', k, a. cbn [nth_error firstn concat]. split; auto. split; auto. split; auto.
    rewrite Y, A4, <- app_assoc, !map_app. reflexivity.
Qed.
Theorem C40_no_strict_refinement : forall {G} (c : list_config G) df tcol tval xs out st x rest y, learner_input c df tcol xs ->
  learner_fit c df tcol tval xs = Ok out -> concat (map members out) = st ++ x :: rest -> In y st ->
  subgroup_is_refinement (lc_hash c) (c_group y) (c_group x) false = false /\
  (lc_class c <> GMSL -> subgroup_is_refinement (lc_hash c) (c_group x) (c_group y) false = false).
Proof.
  intros G c df tcol tval xs out st x rest y HI E Ec Iy. destruct (members_runs c df tcol tval xs out HI E) as (runs & Er & F & Hr). rewrite Er in Ec.
  destruct (concat_split _ _ _ _ _ Ec) as (j & r & k & a & Ej & Ek & -> & ->). apply in_map_iff in Iy. destruct Iy as (b & <- & Ib).
  destruct (Hr j r Ej) as [Hk _]. destruct (Hk k a Ek) as [_ [(_ & _ & Hrel) _]]. specialize (Hrel b Ib). unfold related in Hrel.
  destruct (lc_class c); [split; auto; congruence|apply orb_false_iff in Hrel; tauto|apply orb_false_iff in Hrel; tauto].
Qed.
(** In terms of sets of selectors, for descriptions of nominal selectors. *)
Definition nominal_group (g : subgroup) : Prop :=
  Forall nominal (g_desc g) /\ nominal (g_target g) /\ sorted_strictly (g_desc g).
Lemma refinement_nominal : forall h g k, nominal_group g -> nominal_group k -> refines k g -> ~ refines g k -> subgroup_is_refinement h g k false = true.
Proof.
  intros h g k (N1 & T1 & S1) (N2 & T2 & S2) [R1 R2] NR. apply C12_subgroup_refinement_typed; auto using nominal_homogeneous.
  - assert (N : Forall nominal (g_desc g ++ g_desc k)) by (apply Forall_app; auto). rewrite Forall_forall in N. split.
    + intros s Is. destruct (N s Is) as [_ X]. destruct (s_val s); try discriminate. exact I.
    + intros s t Is It _. destruct (N s Is) as [_ X]. destruct (N t It) as [_ Y]. destruct (s_val s); try discriminate. destruct (s_val t); try discriminate. exact I.
  - split.
    + intros s [<-|[<-|[]]]; [destruct T1 as [_ X]|destruct T2 as [_ X]]; destruct (s_val _); try discriminate; exact I.
    + intros s t Is It _. assert (X : is_str (s_val s) = true) by (destruct Is as [<-|[<-|[]]]; [apply T1|apply T2]). assert (Y : is_str (s_val t) = true) by (destruct It as [<-|[<-|[]]]; [apply T1|apply T2]).
      destruct (s_val s); try discriminate. destruct (s_val t); try discriminate. exact I.
  - split; auto. split; auto. intros X. exfalso. apply NR. split; auto.
Qed.
Theorem C40_no_two_related : forall {G} (c : list_config G) df tcol tval xs out l st x rest y, learner_input c df tcol xs -> lc_class c <> GMSL ->
  (forall z, In z xs -> true_bits df z /\ nominal_group (c_group z)) -> learner_fit c df tcol tval xs = Ok out ->
  In l out -> members l = st ++ x :: rest -> In y st -> ~ refines (c_group x) (c_group y) /\ ~ refines (c_group y) (c_group x).
Proof.
  intros G c df tcol tval xs out l st x rest y HI Hc HT E Il Em Iy. assert (A : ~ refines (c_group x) (c_group y)) by (eapply C40_no_refinement; eauto; intros z Iz; apply HT; auto).
  split; auto. intros R. assert (Ic : exists st' rest', concat (map members out) = st' ++ x :: rest' /\ In y st').
  { apply in_split in Il. destruct Il as (l1 & l2 & ->). rewrite map_app, concat_app. cbn [map concat]. rewrite Em. exists (concat (map members l1) ++ st), (rest ++ concat (map members l2)).
    split; [rewrite <- !app_assoc; reflexivity|apply in_or_app; auto]. }
  destruct Ic as (st' & rest' & Ec & Iy'). destruct (C40_no_strict_refinement c df tcol tval xs out st' x rest' y HI E Ec Iy') as [_ B]. specialize (B Hc).
  assert (Im : forall z, In z (members l) -> In z xs).
  { intros z Iz. destruct (members_runs c df tcol tval xs out HI E) as (runs & Er & F & _). assert (I : In (members l) (map members out)) by (apply in_map; auto). rewrite Er in I. apply in_map_iff in I. destruct I as (r & Er' & Ir).
    rewrite <- Er' in Iz. apply in_map_iff in Iz. destruct Iz as (b' & <- & Ib'). apply nth_In. rewrite Forall_forall in F. specialize (F r Ir). rewrite Forall_forall in F. auto. }
  rewrite (refinement_nominal (lc_hash c) (c_group x) (c_group y)) in B; auto; [discriminate| |]; apply HT, Im; rewrite Em; apply in_or_app; cbn; auto.
Qed.
Print Assumptions C40_no_refinement. Print Assumptions C40_no_strict_refinement. Print Assumptions C40_no_two_related.

(** * C41 *)
(** Evaluating a candidate leaves the list as it was, whatever its history. *)
Theorem C41_evaluation_keeps_list : forall {G} (c : list_config G) df pos neg n l0 ops pc nc x l' g adm, sl_init pos neg n = Ok l0 ->
  evaluate c df pc nc (sl_history l0 ops) x = Ok (l', g, adm) -> l' = sl_history l0 ops.
Proof.
  intros G c df pos neg n l0 ops pc nc x l' g adm H0 E. unfold evaluate, delta_data in E.
  destruct (sl_add (sl_history l0 ops) (c_group x) (c_pos x) (c_neg x)) as [l1|e] eqn:Ea; cbn [bind] in E; [|discriminate].
  destruct (sl_get sl_pos l1 (-1)) as [p|e]; cbn [bind] in E; [|discriminate]. destruct (sl_get sl_neg l1 (-1)) as [q|e]; cbn [bind] in E; [|discriminate].
  rewrite (C24_delete_undoes_add pos neg n ops l0 _ _ _ l1 H0 Ea) in E. cbn [bind] in E. destruct (bits_count p + bits_count q =? 0); [congruence|].
  destruct (lc_model c df (sl_len (sl_history l0 ops)) (g_desc (c_group x))) as [m|e]; cbn [bind] in E; [|discriminate]. destruct (lc_class c); congruence.
Qed.
(** Every member has the maximal positive gain among the candidates that were available when it was added, and a list ends only when
    it is full or no available candidate has a positive gain. *)
Theorem C41_greedy : forall {G} (c : list_config G) df tcol tval xs out, learner_input c df tcol xs ->
  learner_fit c df tcol tval xs = Ok out -> exists runs, explains c df tcol tval xs out runs.
Proof. intros G c df tcol tval xs out HI E. destruct (fit_explained c df tcol tval xs out HI E) as (runs & _ & H & _). eauto. Qed.
(** The first one among ties. *)
Theorem C41_first_among_ties : forall {G} (c : list_config G) df tcol tval xs out, learner_input c df tcol xs -> total_order (lc_gt c) ->
  learner_fit c df tcol tval xs = Ok out -> exists runs, explains c df tcol tval xs out runs /\
  forall j r k a, nth_error runs j = Some r -> nth_error r k = Some a ->
    first_choice c df (target_bits df tcol tval) xs (concat (firstn j runs) ++ firstn k r) (map (cand xs) (firstn k r)) a.
Proof. intros G c df tcol tval xs out HI T E. destruct (fit_explained c df tcol tval xs out HI E) as (runs & _ & H & _ & F). exists runs. split; auto. Qed.
Print Assumptions C41_evaluation_keeps_list. Print Assumptions C41_greedy. Print Assumptions C41_first_among_ties.

(** * C42 *)
Theorem C42_admitted : forall {G} (c : list_config G) df tcol tval xs out l st x rest, learner_input c df tcol xs -> lc_class c = DSLM ->
  learner_fit c df tcol tval xs = Ok out -> In l out -> members l = st ++ x :: rest ->
  lc_pos_ok c (overlap_pos df st x) = true /\ lc_neg_ok c (overlap_neg df st x) = true /\ 0 < fst (own_rows df (target_bits df tcol tval) st x).
Proof.
  intros G c df tcol tval xs out l st x rest HI Hc E Il Em. destruct (member_choice c df tcol tval xs out l st x rest HI E Il Em) as (prior & a & -> & (_ & A & _) & _).
  unfold admissible in A. rewrite Hc in A. tauto.
Qed.
(** The comparison of exact quotients with the limits. *)
Theorem C42_overlap : forall {G} (c : list_config G) mp mn df tcol tval xs out l st x rest, learner_input c df tcol xs -> lc_class c = DSLM ->
  (forall f, lc_pos_ok c f = true <-> (f <= mp)%Q) -> (forall f, lc_neg_ok c f = true <-> (f <= mn)%Q) ->
  learner_fit c df tcol tval xs = Ok out -> In l out -> members l = st ++ x :: rest ->
  (overlap_pos df st x <= mp)%Q /\ (overlap_neg df st x <= mn)%Q /\ 0 < fst (own_rows df (target_bits df tcol tval) st x).
Proof.
  intros G c mp mn df tcol tval xs out l st x rest HI Hc Hp Hn E Il Em. rewrite <- Hp, <- Hn. eapply C42_admitted; eauto.
Qed.
Lemma list_sum_zero : forall l, list_sum l = 0 -> forall x, In x l -> x = 0.
Proof. induction l as [|y l IH]; intros H x I; [destruct I|]. unfold list_sum in H. cbn [fold_right] in H. fold (list_sum l) in H. destruct I as [->|I]; [lia|apply IH; auto; lia]. Qed.
Lemma list_sum_bound : forall {A} (f : A -> nat) l m, (forall x, f x <= m) -> list_sum (map f l) <= length l * m.
Proof. intros A f l m H. unfold list_sum. induction l as [|x l IH]; cbn [map fold_right length Nat.mul]; auto. pose proof (H x). lia. Qed.
(** A comparison that only admits the quotient 0: the rows of the members of a list are disjoint. *)
Lemma only_zero_disjoint : forall {G} (c : list_config G) df tcol tval xs out l st x rest, learner_input c df tcol xs -> lc_class c = DSLM ->
  learner_fit c df tcol tval xs = Ok out -> In l out -> members l = st ++ x :: rest ->
  ((forall a b, a <= b -> b <= df_n df * length st -> lc_pos_ok c (ratio a b) = true -> a = 0) -> forall y i, In y st -> i < df_n df -> bit (c_pos x) i = true -> bit (c_pos y) i = false) /\
  ((forall a b, a <= b -> b <= df_n df * length st -> lc_neg_ok c (ratio a b) = true -> a = 0) -> forall y i, In y st -> i < df_n df -> bit (c_neg x) i = true -> bit (c_neg y) i = false).
Proof.
  intros G c df tcol tval xs out l st x rest HI Hc E Il Em. destruct (C42_admitted c df tcol tval xs out l st x rest HI Hc E Il Em) as (P & N & _).
  assert (Le : forall (f : nat -> nat) p l, list_sum (map f (filter p l)) <= list_sum (map f l)).
  { intros f p. induction l0 as [|z l0 IH]; cbn [filter map]; auto. unfold list_sum in *. destruct (p z); cbn [map fold_right]; lia. }
  assert (T : forall (f : candidate3 -> bool) s, length (filter f s) = 0 -> forall y, In y s -> f y = false).
  { intros f s H y Iy. destruct (f y) eqn:Ef; auto. assert (X : In y (filter f s)) by (apply filter_In; auto). destruct (filter f s); [destruct X|discriminate]. }
  assert (Lf : forall (f : candidate3 -> bool) s, length (filter f s) <= length s) by (intros f s; induction s as [|z s IH]; cbn; [lia|destruct (f z); cbn; lia]).
  split; intros Hz y i Iy Hi B.
  - unfold overlap_pos in P. assert (Ex : existsb (bit (c_pos x)) (seq 0 (df_n df)) = true) by (apply existsb_exists; exists i; split; auto; apply in_seq; lia). rewrite Ex in P.
    apply Hz in P; [|apply Le|rewrite <- (seq_length (df_n df) 0) at 2; apply list_sum_bound; intros; apply Lf].
    assert (X : times_pos st i = 0) by (apply (list_sum_zero _ P); apply in_map; apply filter_In; split; auto; apply in_seq; lia). apply (T (fun y => bit (c_pos y) i) st); auto.
  - unfold overlap_neg in N. assert (Ex : existsb (bit (c_neg x)) (seq 0 (df_n df)) = true) by (apply existsb_exists; exists i; split; auto; apply in_seq; lia). rewrite Ex in N.
    apply Hz in N; [|apply Le|rewrite <- (seq_length (df_n df) 0) at 2; apply list_sum_bound; intros; apply Lf].
    assert (X : times_neg st i = 0) by (apply (list_sum_zero _ N); apply in_map; apply filter_In; split; auto; apply in_seq; lia). apply (T (fun y => bit (c_neg y) i) st); auto.
Qed.
(** Limit 0: the positive rows of the members of a list are disjoint (likewise the negative rows). *)
Theorem C42_limit_zero : forall {G} (c : list_config G) mp mn df tcol tval xs out l st x rest, learner_input c df tcol xs -> lc_class c = DSLM ->
  (forall f, lc_pos_ok c f = true <-> (f <= mp)%Q) -> (forall f, lc_neg_ok c f = true <-> (f <= mn)%Q) ->
  learner_fit c df tcol tval xs = Ok out -> In l out -> members l = st ++ x :: rest ->
  ((mp == 0)%Q -> forall y i, In y st -> i < df_n df -> bit (c_pos x) i = true -> bit (c_pos y) i = false) /\
  ((mn == 0)%Q -> forall y i, In y st -> i < df_n df -> bit (c_neg x) i = true -> bit (c_neg y) i = false).
Proof.
  intros G c mp mn df tcol tval xs out l st x rest HI Hc Hp Hn E Il Em.
  assert (R : forall a b, (ratio a b <= 0)%Q -> a <= b -> a = 0).
  { intros a b H L. unfold ratio in H. destruct (b =? 0) eqn:Eb; [apply Nat.eqb_eq in Eb; lia|]. apply Nat.eqb_neq in Eb. destruct (Nat.eq_dec a 0); auto. exfalso.
    apply (Qlt_not_le 0 (nat_Q a / nat_Q b)); auto. unfold nat_Q. apply Qlt_shift_div_l; [change 0%Q with (inject_Z 0); rewrite <- Zlt_Qlt; lia|]. rewrite Qmult_0_l. change 0%Q with (inject_Z 0). rewrite <- Zlt_Qlt. lia. }
  destruct (only_zero_disjoint c df tcol tval xs out l st x rest HI Hc E Il Em) as [P N]. split; intros Hz; [apply P|apply N]; intros a b L _ H; [apply Hp in H|apply Hn in H]; rewrite Hz in H; eapply R; eauto.
Qed.
Print Assumptions C42_overlap. Print Assumptions C42_limit_zero.

(** * Examples *)
(** Gains: the number of rows that a candidate covers, as an integer. *)
Definition zconf (cl : list_class) (max_sl size : Z) (mp mn : Q) : list_config Z :=
  LC cl Z.gtb 0%Z (fun _ _ _ _ own => Z.of_nat (fst own + snd own)) (fun _ _ _ => Ok 0%Z) (fun m d _ => (m + d)%Z)
     (fun g po no => if Qle_bool 1 po || Qle_bool 1 no then 0%Z else g) max_sl size (fun f => Qle_bool f mp) (fun f => Qle_bool f mn) (fun s => Z.of_nat (String.length s)).
Lemma zconf_order : forall cl max_sl size mp mn, total_order (lc_gt (zconf cl max_sl size mp mn)).
Proof.
  intros. cbn [zconf lc_gt]. split; [split|].
  - intros x. rewrite Z.gtb_ltb. apply Z.ltb_irrefl.
  - intros x y z. rewrite !Z.gtb_ltb, !Z.ltb_lt. lia.
  - intros x y z. rewrite !Z.gtb_ltb, !Z.ltb_lt. lia.
Qed.
Definition gx (l : list (string * string)) : subgroup := SG (map (fun p => Sel (fst p) EQUAL (VStr (snd p))) l) (Sel "class" EQUAL (VStr "p")).
(** Six rows, the first four positive, and five candidates. *)
Definition six : dataframe := rows3 [("x","w","0","p"); ("x","w","1","p"); ("x","u","2","p"); ("y","u","3","p"); ("x","w","4","n"); ("y","w","5","n")].
Definition six_cands : list candidate3 :=
  [(gx [("b", "w")], [true; true; false; false; false; false], [false; false; false; false; true; true]);
   (gx [("a", "x")], [true; true; true; false; false; false], [false; false; false; false; true; false]);
   (gx [("a", "x"); ("b", "u")], [false; false; true; false; false; false], [false; false; false; false; false; false]);
   (gx [("b", "u")], [false; false; true; true; false; false], [false; false; false; false; false; false]);
   (gx [("a", "y")], [false; false; false; true; false; false], [false; false; false; false; false; true])].
Lemma six_input : forall cl max_sl size mp mn, learner_input (zconf cl max_sl size mp mn) six "class" six_cands.
Proof.
  intros. destruct (rows3_ok [("x","w","0","p"); ("x","w","1","p"); ("x","u","2","p"); ("y","u","3","p"); ("x","w","4","n"); ("y","w","5","n")]) as (H1 & _ & H3).
  split; auto. split; auto. split; [cbn; lia|]. split; [|apply zconf_order].
  intros x Hx. repeat (destruct Hx as [<-|Hx]; [split; reflexivity|]). destruct Hx.
Qed.
Lemma six_bits : forall z, In z six_cands -> true_bits six z /\ nominal_group (c_group z).
Proof.
  intros z Hz. split.
  - repeat (destruct Hz as [<-|Hz]; [intros i Hi; cbn in Hi; do 6 (destruct i as [|i]; [split; reflexivity|]); lia|]). destruct Hz.
  - assert (S2 : forall s t, sel_lt s t = true -> sorted_strictly [s; t]) by (intros s t H; repeat constructor; auto).
    repeat (destruct Hz as [<-|Hz]; [split; [repeat constructor|split; [split; reflexivity|try (apply S2; vm_compute; reflexivity); repeat constructor]]|]). destruct Hz.
Qed.
Definition brief_lists (r : res (list sglist)) : res (list (list subgroup)) := do out <- r; Ok (map sl_subgroups out).
Example C39_nonvacuous : brief_lists (learner_fit (zconf GMSL 2 0 0 0) six "class" "p" six_cands) =
  Ok [[gx [("b", "w")]; gx [("b", "u")]]; [gx [("a", "x")]; gx [("a", "y")]]].
Proof. vm_compute. reflexivity. Qed.
Example C42_nonvacuous : let c := zconf DSLM 2 5 (1#2) (1#2) in exists out l x y, learner_input c six "class" six_cands /\
  learner_fit c six "class" "p" six_cands = Ok out /\ In l out /\ members l = [x; y] /\
  c_group x = gx [("b", "w")] /\ c_group y = gx [("b", "u")] /\ (overlap_pos six [x] y == 0)%Q.
Proof.
  cbn zeta. do 4 eexists. split; [apply six_input|]. split; [vm_compute; reflexivity|]. split; [left; reflexivity|]. split; [vm_compute; reflexivity|]. repeat split; vm_compute; reflexivity.
Qed.
(** Two lines with the same subgroup and different bitarrays (an inconsistent file) may both be in the same list: the deletion step
    spares equal subgroups. *)
Definition twice : list candidate3 :=
  [(gx [("a", "x")], [true; true; false; false; false; false], [false; false; false; false; false; false]);
   (gx [("a", "x")], [false; false; true; false; false; false], [false; false; false; false; false; false])].
Theorem C40_inconsistent_file_counterexample :
  brief_lists (learner_fit (zconf PSLD 1 5 0 0) six "class" "p" twice) = Ok [[gx [("a", "x")]; gx [("a", "x")]]] /\
  brief_lists (learner_fit (zconf GMSL 1 5 0 0) six "class" "p" twice) = Ok [[gx [("a", "x")]; gx [("a", "x")]]].
Proof. split; vm_compute; reflexivity. Qed.
Print Assumptions C40_inconsistent_file_counterexample.
