(** Proofs about vertical lists (C21, C22). *)
From Verif Require Import VerticalSpec.
Open Scope list_scope.
Open Scope nat_scope.

Lemma last_elem_app : forall {A} (l : list A) x, last_elem (l ++ [x]) = Ok x.
Proof. intros A l x. unfold last_elem. now rewrite rev_app_distr. Qed.
Lemma last_elem_inv : forall {A} (l : list A) x, last_elem l = Ok x -> l = removelast l ++ [x].
Proof.
  intros A l x H. destruct (exists_last (l := l)) as (l' & y & E).
  - intros ->. discriminate.
  - subst l. rewrite last_elem_app in H. injection H as ->. now rewrite removelast_last.
Qed.

Lemma in_set_of : forall l i, In i (set_of l) <-> In i l.
Proof. intros. apply nodup_In. Qed.
Lemma set_of_nodup : forall l, NoDup (set_of l).
Proof. intros. apply NoDup_nodup. Qed.
Lemma in_set_inter : forall a b i, In i (set_inter a b) <-> In i a /\ In i b.
Proof.
  intros a b i. unfold set_inter. rewrite filter_In, existsb_exists. split.
  - intros (H & x & Hx & E). apply Nat.eqb_eq in E. subst. auto.
  - intros (H & H'). split; auto. exists i. split; auto. apply Nat.eqb_refl.
Qed.
Lemma set_inter_nodup : forall a b, NoDup a -> NoDup (set_inter a b).
Proof. intros. now apply NoDup_filter. Qed.

Lemma bits_and_length : forall a b, length a = length b -> length (bits_and a b) = length a.
Proof. intros a b H. unfold bits_and. rewrite map_length, combine_length, <- H. apply Nat.min_id. Qed.
Lemma bits_or_length : forall a b, length a = length b -> length (bits_or a b) = length a.
Proof. intros a b H. unfold bits_or. rewrite map_length, combine_length, <- H. apply Nat.min_id. Qed.
Lemma nth_bits_and : forall a b i, nth i (bits_and a b) false = nth i a false && nth i b false.
Proof.
  induction a as [|x a IH]; intros [|y b] i; destruct i as [|i]; simpl; try reflexivity;
    try (now rewrite andb_false_r); apply IH.
Qed.
Lemma nth_bits_or : forall a b i, length a = length b -> nth i (bits_or a b) false = nth i a false || nth i b false.
Proof.
  induction a as [|x a IH]; intros [|y b] i H; destruct i as [|i]; simpl in *; try reflexivity; try discriminate.
  apply IH. lia.
Qed.
Lemma nth_bits_not : forall a i, i < length a -> nth i (bits_not a) false = negb (nth i a false).
Proof.
  intros a i H. unfold bits_not. rewrite (nth_indep _ false (negb false)) by (now rewrite map_length).
  apply map_nth.
Qed.
Lemma bits_set_ok : forall b i, i < length b ->
  exists b', bits_set b i = Ok b' /\ length b' = length b /\
             forall j, nth j b' false = (j =? i) || nth j b false.
Proof.
  intros b i H. unfold bits_set. rewrite (proj2 (Nat.ltb_lt _ _) H). eexists. split; [reflexivity|]. split.
  - rewrite app_length, firstn_length. cbn [length]. rewrite skipn_length. lia.
  - revert i H. induction b as [|x b IH]; intros i H j; simpl in H; [lia|].
    destruct i as [|i]; destruct j as [|j]; simpl; try reflexivity. apply IH. lia.
Qed.
Lemma bits_fold_ok : forall l b, (forall i, In i l -> i < length b) ->
  exists b', fold_res bits_set l b = Ok b' /\ length b' = length b /\
             forall j, nth j b' false = true <-> In j l \/ nth j b false = true.
Proof.
  induction l as [|i l IH]; intros b H.
  - exists b. simpl. split; [reflexivity|]. split; [reflexivity|]. intros j. intuition.
  - destruct (bits_set_ok b i) as (b1 & E1 & L1 & N1); [apply H; now left|].
    destruct (IH b1) as (b2 & E2 & L2 & N2); [intros k Hk; rewrite L1; apply H; now right|].
    exists b2. simpl. rewrite E1. simpl. split; [assumption|]. split; [congruence|].
    intros j. rewrite N2, N1. rewrite orb_true_iff, Nat.eqb_eq. intuition.
Qed.

Lemma filter_nth_shift : forall b k, length (filter (fun i => nth (i - k) b false) (seq k (length b))) = length (filter (fun x => x) b).
Proof.
  induction b as [|x b IH]; intros k; [reflexivity|]. simpl length at 1. simpl seq. simpl filter.
  rewrite Nat.sub_diag. assert (E : filter (fun i => match i - k with 0 => x | S m => nth m b false end) (seq (S k) (length b)) =
    filter (fun i => nth (i - S k) b false) (seq (S k) (length b))).
  { apply filter_ext_in. intros a Ha. apply in_seq in Ha. replace (a - k) with (S (a - S k)) by lia. reflexivity. }
  rewrite E. destruct x; simpl; rewrite IH; reflexivity.
Qed.
Lemma bits_count_seq : forall b, bits_count b = length (filter (fun i => nth i b false) (seq 0 (length b))).
Proof.
  intros b. unfold bits_count. rewrite <- (filter_nth_shift b 0). f_equal. apply filter_ext. intros i. now rewrite Nat.sub_0_r.
Qed.
(** A duplicate-free set with the members of the bitarray has as many elements as it has ones. *)
Lemma count_rel : forall s b, NoDup s -> (forall i, In i s <-> nth i b false = true) -> length s = bits_count b.
Proof.
  intros s b Hs H. rewrite bits_count_seq. apply Permutation_length, NoDup_Permutation; [assumption| |].
  - apply NoDup_filter, seq_NoDup.
  - intros i. rewrite filter_In, in_seq, H. split; [|tauto]. intros E. split; [|assumption].
    destruct (Nat.lt_ge_cases i (length b)); [lia|]. rewrite nth_overflow in E by assumption. discriminate.
Qed.

Definition vrel {V} (a : vlist (list nat) V) (b : vlist (list bool) V) : Prop :=
  vl_sels a = vl_sels b /\ vl_tp a = vl_tp b /\ vl_fp a = vl_fp b /\ vl_size a = vl_size b /\ vl_quality a = vl_quality b /\
  NoDup (vl_seq_tp a) /\ NoDup (vl_seq_fp a) /\
  (forall i, In i (vl_seq_tp a) <-> nth i (vl_seq_tp b) false = true) /\
  (forall i, In i (vl_seq_fp a) <-> nth i (vl_seq_fp b) false = true).
Inductive orel {V} : option (vlist (list nat) V) -> option (vlist (list bool) V) -> Prop :=
| orel_none : orel None None
| orel_some : forall a b, vrel a b -> orel (Some a) (Some b).
Inductive rrel {V} : res (option (vlist (list nat) V)) -> res (option (vlist (list bool) V)) -> Prop :=
| rrel_err : forall e, rrel (Err e) (Err e)
| rrel_ok : forall x y, orel x y -> rrel (Ok x) (Ok y).

Lemma join_rel : forall {V} (qf : nat -> nat -> res V) a b a' b' flag, vrel a b -> vrel a' b' ->
  rrel (vls_join qf a a' flag) (vlb_join qf b b' flag).
Proof.
  intros V qf a b a' b' flag (S1 & T1 & F1 & N1 & Q1 & D1 & D2 & M1 & M2) (S2 & T2 & F2 & N2 & Q2 & D3 & D4 & M3 & M4).
  unfold vls_join, vlb_join. rewrite N1, N2. destruct (negb (vl_size b =? vl_size b')); [constructor|].
  assert (CT : length (set_inter (vl_seq_tp a) (vl_seq_tp a')) = bits_count (bits_and (vl_seq_tp b) (vl_seq_tp b'))).
  { apply count_rel; [now apply set_inter_nodup|]. intros i. rewrite in_set_inter, nth_bits_and, andb_true_iff, M1, M3. tauto. }
  assert (CF : length (set_inter (vl_seq_fp a) (vl_seq_fp a')) = bits_count (bits_and (vl_seq_fp b) (vl_seq_fp b'))).
  { apply count_rel; [now apply set_inter_nodup|]. intros i. rewrite in_set_inter, nth_bits_and, andb_true_iff, M2, M4. tauto. }
  cbn zeta. rewrite CT, CF, S2, S1. destruct (negb flag || _); [|constructor; constructor].
  destruct (last_elem (vl_sels b')) as [l|e]; simpl; [|constructor].
  destruct (qf _ _) as [q|e]; simpl; constructor. constructor. unfold vrel; simpl. repeat split; try assumption; try reflexivity;
    try (now apply set_inter_nodup); rewrite in_set_inter, nth_bits_and, andb_true_iff, ?M1, ?M3, ?M2, ?M4; tauto.
Qed.
Lemma eval_rel : forall {V} (qf : nat -> nat -> res V) e, ids_in_range e -> rrel (eval_sets qf e) (eval_bits qf e).
Proof.
  intros V qf. induction e as [sels tp fp n q|a IHa b IHb flag]; intros H; simpl in *.
  - unfold vlb_init.
    destruct (bits_fold_ok tp (bits_zero n)) as (b1 & E1 & L1 & N1); [intros i Hi; unfold bits_zero; rewrite repeat_length; auto|].
    destruct (bits_fold_ok fp (bits_zero n)) as (b2 & E2 & L2 & N2); [intros i Hi; unfold bits_zero; rewrite repeat_length; auto|].
    rewrite E1, E2. simpl. constructor. constructor. unfold vrel; simpl.
    assert (Z : forall i, nth i (bits_zero n) false = false) by (intros i; unfold bits_zero; apply nth_repeat).
    repeat split; try reflexivity; try apply set_of_nodup; rewrite in_set_of.
    + intros Hi. apply N1. now left.
    + intros Hi. apply N1 in Hi. rewrite Z in Hi. destruct Hi; [assumption|discriminate].
    + intros Hi. apply N2. now left.
    + intros Hi. apply N2 in Hi. rewrite Z in Hi. destruct Hi; [assumption|discriminate].
  - destruct H as (Ha & Hb). destruct (IHa Ha) as [e|x y Hx]; simpl; [constructor|].
    destruct (IHb Hb) as [e|x' y' Hx']; simpl; [constructor|].
    inversion Hx; subst; simpl; [constructor|]. inversion Hx'; subst; simpl; [constructor|]. now apply join_rel.
Qed.
Lemma representations_agree : forall {V} (qf : nat -> nat -> res V) e, ids_in_range e ->
  observe_res (eval_sets qf e) = observe_res (eval_bits qf e).
Proof.
  intros V qf e H. destruct (eval_rel qf e H) as [x|x y Hx]; [reflexivity|]. destruct Hx as [|a b Hv]; [reflexivity|].
  destruct Hv as (S1 & T1 & F1 & N1 & Q1 & _). simpl. unfold observe, vl_n. now rewrite S1, T1, F1, N1, Q1.
Qed.

(** ** C21 *)
Lemma matches_all_app : forall df a b i, matches_all df (a ++ b) i = matches_all df a i && matches_all df b i.
Proof. intros. unfold matches_all. apply forallb_app. Qed.
Lemma matches_all_incl : forall df a b i, incl a b -> matches_all df b i = true -> matches_all df a i = true.
Proof. intros df a b i H. unfold matches_all. rewrite !forallb_forall. auto. Qed.
Lemma matches_join : forall df a b x i, b = removelast b ++ [x] -> incl (removelast b) a ->
  matches_all df (a ++ [x]) i = matches_all df a i && matches_all df b i.
Proof.
  intros df a b x i Hb Hi. rewrite matches_all_app.
  rewrite Hb at 1. rewrite matches_all_app. destruct (matches_all df a i) eqn:E; [|reflexivity].
  rewrite (matches_all_incl df (removelast b) a i Hi E). reflexivity.
Qed.
Lemma in_pos_rows : forall df t l i, In i (pos_rows df t l) <-> i < df_n df /\ row_matchesb df i t = true /\ matches_all df l i = true.
Proof. intros. unfold pos_rows. rewrite filter_In, in_seq, andb_true_iff. intuition lia. Qed.
Lemma in_neg_rows : forall df t l i, In i (neg_rows df t l) <-> i < df_n df /\ row_matchesb df i t = false /\ matches_all df l i = true.
Proof. intros. unfold neg_rows. rewrite filter_In, in_seq, andb_true_iff, negb_true_iff. intuition lia. Qed.
Lemma pos_neg_cover : forall df t l, length (pos_rows df t l) + length (neg_rows df t l) = coverage df l.
Proof.
  intros df t l. unfold pos_rows, neg_rows, coverage. generalize (seq 0 (df_n df)) as r. induction r as [|i r IH]; [reflexivity|].
  cbn [filter]. change (forallb (row_matchesb df i) l) with (matches_all df l i).
  destruct (row_matchesb df i t), (matches_all df l i); cbn [andb negb length]; lia.
Qed.

Definition set_exact {V} df t (v : vlist (list nat) V) : Prop :=
  NoDup (vl_seq_tp v) /\ NoDup (vl_seq_fp v) /\
  (forall i, In i (vl_seq_tp v) <-> In i (pos_rows df t (vl_sels v))) /\
  (forall i, In i (vl_seq_fp v) <-> In i (neg_rows df t (vl_sels v))).
Definition bit_exact {V} df t (v : vlist (list bool) V) : Prop :=
  (forall i, nth i (vl_seq_tp v) false = true <-> In i (pos_rows df t (vl_sels v))) /\
  (forall i, nth i (vl_seq_fp v) false = true <-> In i (neg_rows df t (vl_sels v))).
Lemma nodup_pos : forall df t l, NoDup (pos_rows df t l). Proof. intros. apply NoDup_filter, seq_NoDup. Qed.
Lemma nodup_neg : forall df t l, NoDup (neg_rows df t l). Proof. intros. apply NoDup_filter, seq_NoDup. Qed.
Lemma nodup_same_length : forall (a b : list nat), NoDup a -> NoDup b -> (forall i, In i a <-> In i b) -> length a = length b.
Proof. intros. apply Permutation_length. now apply NoDup_Permutation. Qed.

Lemma in_pos_join : forall df t a b x i, b = removelast b ++ [x] -> incl (removelast b) a ->
  (In i (pos_rows df t (a ++ [x])) <-> In i (pos_rows df t a) /\ In i (pos_rows df t b)).
Proof. intros. rewrite !in_pos_rows, (matches_join df a b x) by assumption. rewrite andb_true_iff. tauto. Qed.
Lemma in_neg_join : forall df t a b x i, b = removelast b ++ [x] -> incl (removelast b) a ->
  (In i (neg_rows df t (a ++ [x])) <-> In i (neg_rows df t a) /\ In i (neg_rows df t b)).
Proof. intros. rewrite !in_neg_rows, (matches_join df a b x) by assumption. rewrite andb_true_iff. tauto. Qed.

Lemma built_sets_exact : forall {V} df t (qf : nat -> nat -> res V) v, built_on df t qf vls_init (vls_join qf) v ->
  set_exact df t v /\ describes_rows df t qf v.
Proof.
  intros V df t qf v H. induction H as [s q v Hq Hv|a b flag v Ha (EA & DA) Hb (EB & DB) Hincl Hv].
  - unfold vls_init in Hv. injection Hv as <-. split.
    + unfold set_exact; simpl. split; [apply set_of_nodup|]. split; [apply set_of_nodup|]. split; intros i; apply in_set_of.
    + unfold describes_rows, vl_n; simpl. repeat split; auto. apply pos_neg_cover.
  - unfold vls_join in Hv. destruct (negb (vl_size a =? vl_size b)); [discriminate|]. cbn zeta in Hv.
    destruct (negb flag || _); [|discriminate]. destruct (last_elem (vl_sels b)) as [x|] eqn:El; simpl in Hv; [|discriminate].
    destruct (qf _ _) as [q|] eqn:Eq; simpl in Hv; [|discriminate]. injection Hv as <-.
    apply last_elem_inv in El. destruct EA as (D1 & D2 & M1 & M2), EB as (D3 & D4 & M3 & M4).
    destruct DA as (_ & _ & _ & SA & _).
    assert (MT : forall i, In i (set_inter (vl_seq_tp a) (vl_seq_tp b)) <-> In i (pos_rows df t (vl_sels a ++ [x]))).
    { intros i. rewrite in_set_inter, M1, M3. now rewrite (in_pos_join df t (vl_sels a) (vl_sels b) x i El Hincl). }
    assert (MF : forall i, In i (set_inter (vl_seq_fp a) (vl_seq_fp b)) <-> In i (neg_rows df t (vl_sels a ++ [x]))).
    { intros i. rewrite in_set_inter, M2, M4. now rewrite (in_neg_join df t (vl_sels a) (vl_sels b) x i El Hincl). }
    assert (LT : length (set_inter (vl_seq_tp a) (vl_seq_tp b)) = length (pos_rows df t (vl_sels a ++ [x]))).
    { apply nodup_same_length; [now apply set_inter_nodup|apply nodup_pos|assumption]. }
    assert (LF : length (set_inter (vl_seq_fp a) (vl_seq_fp b)) = length (neg_rows df t (vl_sels a ++ [x]))).
    { apply nodup_same_length; [now apply set_inter_nodup|apply nodup_neg|assumption]. }
    split.
    + unfold set_exact; simpl. split; [now apply set_inter_nodup|]. split; [now apply set_inter_nodup|]. auto.
    + unfold describes_rows, vl_n; simpl. repeat split; auto. rewrite LT, LF. apply pos_neg_cover.
Qed.
Lemma built_bits_exact : forall {V} df t (qf : nat -> nat -> res V) v, built_on df t qf vlb_init (vlb_join qf) v ->
  bit_exact df t v /\ describes_rows df t qf v.
Proof.
  intros V df t qf v H. induction H as [s q v Hq Hv|a b flag v Ha (EA & DA) Hb (EB & DB) Hincl Hv].
  - unfold vlb_init in Hv.
    destruct (bits_fold_ok (pos_rows df t [s]) (bits_zero (df_n df))) as (b1 & E1 & L1 & N1);
      [intros i Hi; unfold bits_zero; rewrite repeat_length; apply in_pos_rows in Hi; tauto|].
    destruct (bits_fold_ok (neg_rows df t [s]) (bits_zero (df_n df))) as (b2 & E2 & L2 & N2);
      [intros i Hi; unfold bits_zero; rewrite repeat_length; apply in_neg_rows in Hi; tauto|].
    rewrite E1, E2 in Hv. simpl in Hv. injection Hv as <-.
    assert (Z : forall i, nth i (bits_zero (df_n df)) false = false) by (intros i; unfold bits_zero; apply nth_repeat).
    split.
    + unfold bit_exact; simpl. split; intros i; [rewrite N1|rewrite N2]; rewrite Z; intuition discriminate.
    + unfold describes_rows, vl_n; simpl. repeat split; auto. apply pos_neg_cover.
  - unfold vlb_join in Hv. destruct (negb (vl_size a =? vl_size b)); [discriminate|]. cbn zeta in Hv.
    destruct (negb flag || _); [|discriminate]. destruct (last_elem (vl_sels b)) as [x|] eqn:El; simpl in Hv; [|discriminate].
    destruct (qf _ _) as [q|] eqn:Eq; simpl in Hv; [|discriminate]. injection Hv as <-.
    apply last_elem_inv in El. destruct EA as (M1 & M2), EB as (M3 & M4).
    destruct DA as (_ & _ & _ & SA & _).
    assert (MT : forall i, nth i (bits_and (vl_seq_tp a) (vl_seq_tp b)) false = true <-> In i (pos_rows df t (vl_sels a ++ [x]))).
    { intros i. rewrite nth_bits_and, andb_true_iff, M1, M3. now rewrite (in_pos_join df t (vl_sels a) (vl_sels b) x i El Hincl). }
    assert (MF : forall i, nth i (bits_and (vl_seq_fp a) (vl_seq_fp b)) false = true <-> In i (neg_rows df t (vl_sels a ++ [x]))).
    { intros i. rewrite nth_bits_and, andb_true_iff, M2, M4. now rewrite (in_neg_join df t (vl_sels a) (vl_sels b) x i El Hincl). }
    assert (LT : bits_count (bits_and (vl_seq_tp a) (vl_seq_tp b)) = length (pos_rows df t (vl_sels a ++ [x]))).
    { symmetry. apply count_rel; [apply nodup_pos|]. intros i. symmetry. apply MT. }
    assert (LF : bits_count (bits_and (vl_seq_fp a) (vl_seq_fp b)) = length (neg_rows df t (vl_sels a ++ [x]))).
    { symmetry. apply count_rel; [apply nodup_neg|]. intros i. symmetry. apply MF. }
    split.
    + unfold bit_exact; simpl. auto.
    + unfold describes_rows, vl_n; simpl. repeat split; auto. rewrite LT, LF. apply pos_neg_cover.
Qed.

(** When does a join return None / raise? *)
Lemma built_sels_nonempty : forall {S V} df t (qf : nat -> nat -> res V) init join (v : vlist S V),
  (forall s a b n q v, init s a b n q = Ok v -> vl_sels v = s) ->
  (forall a b f v, join a b f = Ok (Some v) -> exists x, vl_sels v = vl_sels a ++ [x]) ->
  built_on df t qf init join v -> vl_sels v <> [].
Proof.
  intros S V df t qf init join v Hi Hj H. induction H as [s q v Hq Hv|a b flag v Ha IA Hb IB Hincl Hv].
  - rewrite (Hi _ _ _ _ _ _ Hv). discriminate.
  - destruct (Hj _ _ _ _ Hv) as (x & ->). now destruct (vl_sels a).
Qed.
Lemma last_elem_some : forall {A} (l : list A), l <> [] -> exists x, last_elem l = Ok x.
Proof. intros A l H. destruct (exists_last H) as (l' & y & ->). exists y. apply last_elem_app. Qed.

Lemma vls_join_cases : forall {V} df t (qf : nat -> nat -> res V) a b flag,
  built_on df t qf vls_init (vls_join qf) a -> built_on df t qf vls_init (vls_join qf) b ->
  incl (removelast (vl_sels b)) (vl_sels a) ->
  (vls_join qf a b flag = Ok None <-> flag = true /\ coverage df (vl_sels a ++ vl_sels b) = 0) /\
  (forall e, vls_join qf a b flag = Err e ->
     qf (length (pos_rows df t (vl_sels a ++ vl_sels b))) (length (neg_rows df t (vl_sels a ++ vl_sels b))) = Err e).
Proof.
  intros V df t qf a b flag Ha Hb Hincl.
  destruct (built_sets_exact df t qf a Ha) as ((D1 & D2 & M1 & M2) & (_ & _ & _ & SA & _)).
  destruct (built_sets_exact df t qf b Hb) as ((D3 & D4 & M3 & M4) & (_ & _ & _ & SB & _)).
  assert (MT : length (set_inter (vl_seq_tp a) (vl_seq_tp b)) = length (pos_rows df t (vl_sels a ++ vl_sels b))).
  { apply nodup_same_length; [now apply set_inter_nodup|apply nodup_pos|].
    intros i. rewrite in_set_inter, M1, M3, !in_pos_rows, matches_all_app, andb_true_iff. tauto. }
  assert (MF : length (set_inter (vl_seq_fp a) (vl_seq_fp b)) = length (neg_rows df t (vl_sels a ++ vl_sels b))).
  { apply nodup_same_length; [now apply set_inter_nodup|apply nodup_neg|].
    intros i. rewrite in_set_inter, M2, M4, !in_neg_rows, matches_all_app, andb_true_iff. tauto. }
  destruct (last_elem_some (vl_sels b)) as (x & Ex).
  { apply (built_sels_nonempty df t qf vls_init (vls_join qf) b); [| |assumption].
    - intros s x y n q v Hv. unfold vls_init in Hv. injection Hv as <-. reflexivity.
    - intros c d f v Hv. unfold vls_join in Hv. destruct (negb (vl_size c =? vl_size d)); [discriminate|]. cbn zeta in Hv.
      destruct (negb f || _); [|discriminate]. destruct (last_elem _) as [l|]; simpl in Hv; [|discriminate].
      destruct (qf _ _); simpl in Hv; [|discriminate]. injection Hv as <-. now exists l. }
  unfold vls_join. rewrite SA, SB, Nat.eqb_refl. cbn [negb]. cbn zeta.
  rewrite MT, MF, (pos_neg_cover df t), Ex. cbn [bind].
  destruct flag; cbn [negb orb].
  - destruct (0 <? coverage df (vl_sels a ++ vl_sels b)) eqn:E.
    + apply Nat.ltb_lt in E. destruct (qf _ _) as [q|e]; cbn [bind]; split.
      * split; [discriminate|lia]. * discriminate. * split; [discriminate|lia]. * intros e' H. now injection H as ->.
    + apply Nat.ltb_ge in E. split; [split; [intros _; split; [reflexivity|lia]|reflexivity]|discriminate].
  - destruct (qf _ _) as [q|e]; cbn [bind]; split.
    + split; [discriminate|intros (X & _); discriminate]. + discriminate. + split; [discriminate|intros (X & _); discriminate].
    + intros e' H. now injection H as ->.
Qed.
