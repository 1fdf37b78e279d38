(** Invariants of the BSD, CBSD and CPBSD searches. *)
From Verif Require Export BSDRows Properties_VLSD.
From Verif Require Import OrderFacts CoreOrder CorePattern CoreFrame SDMapProofs MiningProofs Properties_SDMapStar.
Open Scope string_scope.
Open Scope list_scope.
Open Scope Z_scope.

(** * Generic facts *)
Lemma count_le : forall {A} (f g : A -> bool) l, (length (filter (fun i => f i && g i) l) <= length (filter f l))%nat.
Proof. intros A f g l. induction l as [|x l IH]; cbn [filter length]; auto. destruct (f x), (g x); cbn [andb length]; lia. Qed.
Lemma count_and : forall {A} (f g : A -> bool) l, (length (filter (fun i => f i && g i) l) =? length (filter f l))%nat = forallb (fun i => implb (f i) (g i)) l.
Proof.
  intros A f g l. induction l as [|x l IH]; cbn [filter length forallb]; auto. pose proof (count_le f g l).
  destruct (f x), (g x); cbn [andb implb length]; auto. apply Nat.eqb_neq. lia.
Qed.
Lemma count_lt : forall {A} (f g : A -> bool) l, (length (filter (fun i => f i && g i) l) <? length (filter f l))%nat = negb (forallb (fun i => implb (f i) (g i)) l).
Proof.
  intros A f g l. rewrite <- count_and. pose proof (count_le f g l). destruct (_ =? _)%nat eqn:E; cbn [negb].
  - apply Nat.eqb_eq in E. apply Nat.ltb_ge. lia.
  - apply Nat.eqb_neq in E. apply Nat.ltb_lt. lia.
Qed.
Lemma any_index_map : forall {A} (h : A -> bool) (p : nat -> res bool) R k, (forall i x, nth_error R i = Some x -> p (k + i)%nat = Ok (h x)) ->
  any_index p k (length R) = Ok (existsb h R).
Proof.
  intros A h p R. induction R as [|x R IH]; intros k H; cbn [length any_index existsb]; auto.
  assert (H0 := H 0%nat x eq_refl). rewrite Nat.add_0_r in H0. rewrite H0. cbn [bind]. destruct (h x); cbn [orb]; auto.
  apply IH. intros i y Hi. rewrite <- (H (S i) y Hi). f_equal. lia.
Qed.
Lemma FOP_in : forall {A} (R : A -> A -> Prop) l, (forall x y, R x y -> R y x) -> (ForallOrdPairs R l <-> forall i j x y, nth_error l i = Some x -> nth_error l j = Some y -> i <> j -> R x y).
Proof.
  intros A R l Sy. split.
  - intros F. induction F as [|a l Fa F IH]; intros [|i] [|j] x y Hi Hj N; cbn [nth_error] in *; try discriminate; try congruence.
    + injection Hi as ->. apply nth_error_In in Hj. rewrite Forall_forall in Fa. auto.
    + injection Hj as ->. apply nth_error_In in Hi. rewrite Forall_forall in Fa. auto.
    + apply (IH i j); auto.
  - induction l as [|a l IH]; intros H; constructor.
    + apply Forall_forall. intros x Ix. apply In_nth_error in Ix. destruct Ix as [i Hi]. apply (H 0%nat (S i)); auto.
    + apply IH. intros i j x y Hi Hj N. apply (H (S i) (S j)); auto.
Qed.
Lemma FOP_perm : forall {A} (R : A -> A -> Prop) l m, (forall x y, R x y -> R y x) -> Permutation l m -> ForallOrdPairs R l -> ForallOrdPairs R m.
Proof.
  intros A R l m Sy P. induction P as [|x l m P IH|x y l|l m n P1 IH1 P2 IH2]; auto; intros F.
  - inversion F as [|? ? F1 F2]; subst. constructor; auto. eapply Permutation_Forall; eauto.
  - inversion F as [|? ? F1 F2]; subst. inversion F2 as [|? ? F3 F4]; subst. inversion F1 as [|? ? F5 F6]; subst. repeat constructor; auto.
Qed.
Lemma FOP_filter : forall {A} (R : A -> A -> Prop) f l, ForallOrdPairs R l -> ForallOrdPairs R (filter f l).
Proof.
  intros A R f l F. induction F as [|a l Fa F IH]; cbn [filter]; [constructor|]. destruct (f a); auto. constructor; auto.
  rewrite Forall_forall in *. intros x Ix. apply filter_In in Ix. apply Fa. tauto.
Qed.
Lemma FOP_tl : forall {A} (R : A -> A -> Prop) l, ForallOrdPairs R l -> ForallOrdPairs R (tl l).
Proof. intros A R l F. destruct F; cbn [tl]; auto. constructor. Qed.
Lemma FOP_app_inv : forall {A} (R : A -> A -> Prop) l m, ForallOrdPairs R (l ++ m) -> ForallOrdPairs R l /\ ForallOrdPairs R m.
Proof.
  intros A R l m. induction l as [|a l IH]; cbn [app]; intros F; [split; [constructor|auto]|]. inversion F as [|? ? F1 F2]; subst.
  apply Forall_app in F1. destruct (IH F2). split; auto. constructor; tauto.
Qed.
Lemma SS_filter : forall {A} (R : A -> A -> Prop) f l, StronglySorted R l -> StronglySorted R (filter f l).
Proof.
  intros A R f l F. induction F as [|a l F IH Fa]; cbn [filter]; [constructor|]. destruct (f a); auto. constructor; auto.
  rewrite Forall_forall in *. intros x Ix. apply filter_In in Ix. apply Fa. tauto.
Qed.
Lemma SS_tl : forall {A} (R : A -> A -> Prop) l, StronglySorted R l -> StronglySorted R (tl l).
Proof. intros A R l F. destruct F; cbn [tl]; auto. constructor. Qed.
Lemma sort_by_sorted : forall {A V} (lt : V -> V -> bool) (f : A -> V), strict_weak_order lt -> forall l,
  StronglySorted (fun x y => lt (f y) (f x) = false) (sort_by (fun x y => lt (f x) (f y)) l).
Proof.
  intros A V lt f (S1 & S3 & S2) l. induction l as [|x l IH]; cbn [sort_by]; [constructor|].
  assert (I : forall x l, StronglySorted (fun x y => lt (f y) (f x) = false) l -> StronglySorted (fun x y => lt (f y) (f x) = false) (insert_by (fun x y => lt (f x) (f y)) x l)).
  { clear -S1 S2 S3. intros x l H. induction H as [|y l H IH F]; cbn [insert_by]; [repeat constructor|]. destruct (lt (f y) (f x)) eqn:E.
    - constructor; auto. apply Forall_forall. intros z Iz. apply (Permutation_in z (Permutation_sym (insert_by_perm (fun x y => lt (f x) (f y)) x l))) in Iz.
      rewrite Forall_forall in F. destruct Iz as [<-|Iz]; auto.
    - constructor; [constructor; auto|]. constructor; auto. rewrite Forall_forall in *. intros z Iz. apply (S2 (f z) (f y) (f x)); auto. }
  apply I, IH.
Qed.
Lemma tl_in : forall {A} (l : list A) x, In x (tl l) -> In x l.
Proof. intros A [|a l] x I; [destruct I|right; auto]. Qed.
Lemma NoDup_map_tl : forall {A B} (f : A -> B) l, NoDup (map f l) -> NoDup (map f (tl l)).
Proof. intros A B f [|a l] N; cbn [tl map] in *; auto. inversion N; auto. Qed.
Lemma NoDup_map_filter : forall {A B} (f : A -> B) g l, NoDup (map f l) -> NoDup (map f (filter g l)).
Proof.
  intros A B f g l. induction l as [|a l IH]; cbn [map filter]; auto. intros N. inversion N as [|? ? N1 N2]; subst. destruct (g a); auto. cbn [map]. constructor; auto.
  intros I. apply N1. apply in_map_iff in I. destruct I as (x & E & Ix). apply filter_In in Ix. rewrite <- E. apply in_map. tauto.
Qed.

Section Search.
  Context {V : Type}.
  Variable c : bsd_config V.
  Variable df : dataframe.
  Variables tcol tval : string.
  Hypothesis Hcat : categorical df.
  Hypothesis Hquo : distinct_texts df tcol.
  Hypothesis Hcol : has_column df tcol.
  Let tsel := Sel tcol EQUAL (VStr tval).
  Variable mask : list bool.
  Hypothesis Hmask : target_mask df tcol (VStr tval) = Ok mask.
  Let L := BSDRows.L df tcol mask (bc_min_support c).
  Notation P := (prow df tcol tval).
  Notation N := (nrow df tcol tval).
  Notation bits := (bits_of df).
  Notation entry := (bsd_entry V).
  Notation state := (bsd_state V).
  Notation lt := (bc_lt c).

  (** * Comparisons of row sets *)
  Definition within (R : list nat) (X Y : list selector) : bool := forallb (fun i => implb (matches_all df X i) (matches_all df Y i)) R.
  Lemma within_spec : forall R X Y, within R X Y = true <-> forall i, In i R -> matches_all df X i = true -> matches_all df Y i = true.
  Proof.
    intros R X Y. unfold within. rewrite forallb_forall. split; intros H i Ii; specialize (H i Ii).
    - intros E. rewrite E in H. exact H.
    - destruct (matches_all df X i); cbn [implb]; auto.
  Qed.
  Lemma card_lt : forall R X Y, (cardinality (map (fun i => matches_all df X i && matches_all df Y i) R) <? cardinality (bits R X)) = negb (within R X Y).
  Proof.
    intros R X Y. unfold bits_of. rewrite !card_map. unfold within. rewrite <- count_lt. destruct (_ <? _)%nat eqn:E.
    - apply Nat.ltb_lt in E. apply Z.ltb_lt. lia.
    - apply Nat.ltb_ge in E. apply Z.ltb_ge. lia.
  Qed.
  Lemma card_eq : forall R X Y, (cardinality (map (fun i => matches_all df X i && matches_all df Y i) R) =? cardinality (bits R X)) = within R X Y.
  Proof.
    intros R X Y. unfold bits_of. rewrite !card_map. unfold within. rewrite <- count_and. destruct (_ =? _)%nat eqn:E.
    - apply Nat.eqb_eq in E. apply Z.eqb_eq. lia.
    - apply Nat.eqb_neq in E. apply Z.eqb_neq. lia.
  Qed.
  Lemma map_and_comm : forall R X Y, map (fun i => matches_all df X i && matches_all df Y i) R = map (fun i => matches_all df Y i && matches_all df X i) R.
  Proof. intros R X Y. apply map_ext. intros i. apply andb_comm. Qed.
  Lemma first_bits : forall X Y, firstn (length (bits P X)) (bits P Y ++ bits N Y) = bits P Y.
  Proof.
    intros X Y. assert (E : length (bits P X) = length (bits P Y)) by (unfold bits_of; rewrite !map_length; auto).
    rewrite E, firstn_app, Nat.sub_diag, firstn_all. cbn [firstn]. apply app_nil_r.
  Qed.
  Lemma last_bits_spec : forall X Y, N <> [] -> last_bits (length (bits N X)) (bits P Y ++ bits N Y) = bits N Y.
  Proof.
    intros X Y HN. unfold last_bits. assert (E : length (bits N X) = length (bits N Y)) by (unfold bits_of; rewrite !map_length; auto).
    destruct (length (bits N X)) eqn:E0.
    - unfold bits_of in E0. rewrite map_length in E0. destruct N; [congruence|discriminate].
    - rewrite E, app_length. replace (length (bits P Y) + length (bits N Y) - length (bits N Y))%nat with (length (bits P Y)) by lia.
      rewrite skipn_app, skipn_all, Nat.sub_diag. reflexivity.
  Qed.
  Lemma and_bits : forall R X Y, logical_and (bits R X) (bits R Y) = Ok (map (fun i => matches_all df X i && matches_all df Y i) R).
  Proof. intros R X Y. apply and_map. Qed.
  Lemma no_negatives : N = [] -> P <> [] -> forall X Y, logical_and (bits N X) (last_bits (length (bits N X)) (bits P Y ++ bits N Y)) = Err TypeError.
  Proof.
    intros EN HP X Y. rewrite EN. cbn [bits_of map length last_bits]. rewrite app_nil_r. unfold logical_and. unfold bits_of. rewrite map_length.
    destruct P; [congruence|reflexivity].
  Qed.

  (** The stored elements. *)
  Definition entry_ok (e : entry) : Prop :=
    candidate df tcol (e_pattern e) /\ incl (e_pattern e) L /\
    e_bits e = bits P (e_pattern e) ++ bits N (e_pattern e) /\
    e_tp e = tp_of df tsel (e_pattern e) /\ e_fp e = fp_of df tsel (e_pattern e) /\
    quality (bc_measure c) df tcol tval (e_pattern e) = Ok (e_quality e) /\ quality (bc_oe c) df tcol tval (e_pattern e) = Ok (e_oe e).
  Definition no_dataset_negatives (e : exn) : Prop := e = TypeError /\ bc_class c = BSD /\ N = [] /\ P <> [].
  (** Why fit can raise. *)
  Definition raises (e : exn) : Prop :=
    (exists X, candidate df tcol X /\ (quality (bc_measure c) df tcol tval X = Err e \/ quality (bc_oe c) df tcol tval X = Err e)) \/
    (e = TypeError /\ exists X q, candidate df tcol X /\ quality (bc_measure c) df tcol tval X = Ok q /\ bc_is_float c q = false) \/
    no_dataset_negatives e.

  Definition dominated (X Y : list selector) : bool := within P X Y && within N Y X.
  Lemma bsd_relevant_spec : forall k X, bc_class c = BSD -> Forall entry_ok k -> (P <> [] \/ N <> []) ->
    match bsd_relevant_to k (bits P X) (bits N X) with
    | Ok b => b = forallb (fun e => negb (dominated X (e_pattern e))) k
    | Err e => no_dataset_negatives e
    end.
  Proof.
    intros k X Hc Hk HR. induction Hk as [|e k (_ & _ & Eb & _) Hk IH]; cbn [bsd_relevant_to forallb]; auto.
    rewrite Eb, first_bits, and_bits. cbn [bind]. rewrite card_lt.
    change (dominated X (e_pattern e)) with (within P X (e_pattern e) && within N (e_pattern e) X).
    destruct (within P X (e_pattern e)) eqn:EP; cbn [negb andb]; [|exact IH].
    assert (DN : N = [] \/ N <> []) by (destruct N; [left|right]; congruence). destruct DN as [EN|EN].
    - assert (HP : P <> []) by (destruct HR; congruence). rewrite no_negatives by auto. cbn [bind]. repeat split; auto.
    - rewrite last_bits_spec by auto. rewrite and_bits. cbn [bind]. rewrite map_and_comm, card_eq.
      destruct (within N (e_pattern e) X); cbn [negb andb]; auto.
  Qed.
  Lemma bsd_still_spec : forall e X, bc_class c = BSD -> entry_ok e -> (P <> [] \/ N <> []) ->
    match bsd_still_relevant (bits P X) (bits N X) X e with
    | Ok b => b = (pattern_eq (e_pattern e) X || negb (dominated (e_pattern e) X))
    | Err e => no_dataset_negatives e
    end.
  Proof.
    intros e X Hc (_ & _ & Eb & _) HR. unfold bsd_still_relevant. destruct (pattern_eq (e_pattern e) X); cbn [orb]; auto.
    rewrite Eb, first_bits, and_bits. cbn [bind]. rewrite map_and_comm, card_lt.
    change (dominated (e_pattern e) X) with (within P (e_pattern e) X && within N X (e_pattern e)).
    destruct (within P (e_pattern e) X) eqn:EP; cbn [negb andb]; auto.
    assert (DN : N = [] \/ N <> []) by (destruct N; [left|right]; congruence). destruct DN as [EN|EN].
    - assert (HP : P <> []) by (destruct HR; congruence). rewrite no_negatives by auto. cbn [bind]. repeat split; auto.
    - rewrite last_bits_spec by auto. rewrite and_bits. cbn [bind]. rewrite card_eq. reflexivity.
  Qed.

  (** The rows compared by the closed variants. *)
  Definition crow : list nat := match bc_class c with CPBSD => P | _ => P ++ N end.
  Lemma closed_bits_spec : forall X, closed_bits c (bits P X) (bits N X) = bits crow X.
  Proof. intros X. unfold closed_bits, crow, bits_of. destruct (bc_class c); auto; rewrite map_app; auto. Qed.
  Lemma closed_length_spec : forall X Y, closed_length c (bits P Y ++ bits N Y) (bits P X) = length crow.
  Proof. intros X Y. unfold closed_length, crow, bits_of. destruct (bc_class c); rewrite ?app_length, ?map_length; auto. Qed.
  Lemma bit_map : forall {A} (f : A -> bool) R tail i x, nth_error R i = Some x -> bit_at (map f R ++ tail) i = Ok (f x).
  Proof.
    intros A f R tail i x H. unfold bit_at. rewrite nth_error_app1.
    - rewrite (map_nth_error f i R H). reflexivity.
    - rewrite map_length. apply nth_error_Some. congruence.
  Qed.
  Lemma crow_tail : exists tail, forall Y, exists t, bits P Y ++ bits N Y = bits crow Y ++ t /\ (tail = true -> t = []).
  Proof.
    unfold crow. destruct (bc_class c); [exists true|exists true|exists false]; intros Y; [exists []|exists []|exists (bits N Y)]; unfold bits_of; rewrite ?map_app, ?app_nil_r; split; auto; discriminate.
  Qed.
  Lemma within_not : forall R X Y, existsb (fun i => matches_all df X i && negb (matches_all df Y i)) R = negb (within R X Y).
  Proof. intros R X Y. unfold within. induction R as [|x R IH]; cbn [existsb forallb]; auto. rewrite IH. destruct (matches_all df X x), (matches_all df Y x); reflexivity. Qed.
  Lemma not_within_old_spec : forall X Y, not_within_old (bits P Y ++ bits N Y) (closed_bits c (bits P X) (bits N X)) (closed_length c (bits P Y ++ bits N Y) (bits P X)) = Ok (negb (within crow X Y)).
  Proof.
    intros X Y. rewrite closed_bits_spec, closed_length_spec, <- within_not. destruct crow_tail as (b & H). destruct (H Y) as (t & E & _). rewrite E.
    unfold not_within_old. apply any_index_map. intros i x Hx. cbn [Nat.add]. unfold bits_of. rewrite (bit_map _ crow t i x Hx). cbn [bind].
    destruct (matches_all df Y x); cbn [negb]; [rewrite andb_false_r; reflexivity|]. rewrite <- (app_nil_r (map _ _)), (bit_map _ crow [] i x Hx), andb_true_r. reflexivity.
  Qed.
  Lemma not_within_new_spec : forall X Y, not_within_new (bits P Y ++ bits N Y) (closed_bits c (bits P X) (bits N X)) (closed_length c (bits P Y ++ bits N Y) (bits P X)) = Ok (negb (within crow Y X)).
  Proof.
    intros X Y. rewrite closed_bits_spec, closed_length_spec, <- within_not. destruct crow_tail as (b & H). destruct (H Y) as (t & E & _). rewrite E.
    unfold not_within_new. apply any_index_map. intros i x Hx. cbn [Nat.add]. unfold bits_of. rewrite (bit_map _ crow t i x Hx). cbn [bind].
    destruct (matches_all df Y x); cbn [negb]; auto. rewrite <- (app_nil_r (map _ _)), (bit_map _ crow [] i x Hx). reflexivity.
  Qed.
  (** [closed_hit]: the stored element has the quality [q] and covers the rows of [X]. *)
  Definition closed_hit (X : list selector) (q : V) (e : entry) : bool := value_eq c (e_quality e) q && within crow X (e_pattern e).
  Lemma closed_relevant_spec : forall k X q p, Forall entry_ok k ->
    match closed_relevant_to c k (bits P X) (bits N X) q p with
    | Ok (Some (k', x)) => exists k1 k2, k = k1 ++ x ++ k2 /\ k' = k1 ++ k2 /\ existsb (closed_hit X q) k1 = false /\
        ((x = [] /\ k2 = []) \/ exists e, x = [e] /\ closed_hit X q e = true /\ (length (e_pattern e) <= length p)%nat)
    | Ok None => exists k1 e k2, k = k1 ++ e :: k2 /\ existsb (closed_hit X q) k1 = false /\ closed_hit X q e = true /\ (length p < length (e_pattern e))%nat
    | Err e => False
    end.
  Proof.
    intros k X q p Hk. induction Hk as [|e k Oe Hk IH]; cbn [closed_relevant_to].
    - exists [], []. repeat split; auto.
    - assert (Next : closed_hit X q e = false -> match (do r <- closed_relevant_to c k (bits P X) (bits N X) q p; Ok match r with Some (l, x) => Some (e :: l, x) | None => None end) with
        | Ok (Some (k', x)) => exists k1 k2, e :: k = k1 ++ x ++ k2 /\ k' = k1 ++ k2 /\ existsb (closed_hit X q) k1 = false /\
            ((x = [] /\ k2 = []) \/ exists e, x = [e] /\ closed_hit X q e = true /\ (length (e_pattern e) <= length p)%nat)
        | Ok None => exists k1 e0 k2, e :: k = k1 ++ e0 :: k2 /\ existsb (closed_hit X q) k1 = false /\ closed_hit X q e0 = true /\ (length p < length (e_pattern e0))%nat
        | Err e => False
        end).
      { intros Hf. destruct (closed_relevant_to c k (bits P X) (bits N X) q p) as [[[k' x]|]|]; cbn [bind]; auto.
        - destruct IH as (k1 & k2 & -> & -> & Ef & D). exists (e :: k1), k2. cbn [app existsb]. rewrite Hf, Ef. auto.
        - destruct IH as (k1 & e0 & k2 & -> & Ef & D). exists (e :: k1), e0, k2. cbn [app existsb]. rewrite Hf, Ef. auto. }
      destruct Oe as (_ & _ & Eb & _). unfold closed_hit at 1 in Next. destruct (value_eq c (e_quality e) q) eqn:Ev; [|apply Next; auto].
      rewrite Eb, not_within_old_spec. cbn [bind]. destruct (within crow X (e_pattern e)) eqn:Ew; cbn [negb andb] in *; [|apply Next; auto].
      assert (Hh : closed_hit X q e = true) by (unfold closed_hit; rewrite Ev, Ew; auto).
      destruct (length p <? length (e_pattern e))%nat eqn:El.
      + apply Nat.ltb_lt in El. exists [], e, k. repeat split; auto.
      + apply Nat.ltb_ge in El. exists [], k. cbn [app existsb]. repeat split; auto. right. exists e. auto.
  Qed.
  Lemma closed_still_spec : forall e X q p, entry_ok e ->
    closed_still_relevant c (bits P X) (bits N X) q p e = Ok (pattern_eq (e_pattern e) p || negb (value_eq c (e_quality e) q) || negb (within crow (e_pattern e) X)).
  Proof.
    intros e X q p (_ & _ & Eb & _). unfold closed_still_relevant. destruct (pattern_eq (e_pattern e) p || negb (value_eq c (e_quality e) q)); cbn [orb]; auto.
    rewrite Eb. apply not_within_new_spec.
  Qed.

  (** What the insertion of [p] (rows of [p], quality [q]) keeps. *)
  Definition kept (p : pattern) (q : V) (e : entry) : bool :=
    pattern_eq (e_pattern e) p ||
    match bc_class c with
    | BSD => negb (dominated (e_pattern e) p)
    | _ => negb (value_eq c (e_quality e) q) || negb (within crow (e_pattern e) p)
    end.
  Lemma still_spec : forall e p q, entry_ok e -> (P <> [] \/ N <> []) ->
    match still_relevant c (bits P p) (bits N p) q p e with
    | Ok b => b = kept p q e
    | Err e => no_dataset_negatives e
    end.
  Proof.
    intros e p q He HR. unfold still_relevant, kept. destruct (bc_class c) eqn:Ec.
    - apply bsd_still_spec; auto.
    - rewrite closed_still_spec by auto. rewrite orb_assoc. reflexivity.
    - rewrite closed_still_spec by auto. rewrite orb_assoc. reflexivity.
  Qed.
  Lemma split_spec : forall k p q, Forall entry_ok k -> (P <> [] \/ N <> []) ->
    match split_relevant (still_relevant c (bits P p) (bits N p) q p) k with
    | Ok r => r = (filter (kept p q) k, filter (fun e => negb (kept p q e)) k)
    | Err e => no_dataset_negatives e
    end.
  Proof.
    intros k p q Hk HR. induction Hk as [|e k He Hk IH]; cbn [split_relevant filter]; auto.
    pose proof (still_spec e p q He HR) as S1. destruct (still_relevant c (bits P p) (bits N p) q p e) as [b|]; cbn [bind]; auto. subst b.
    destruct (split_relevant (still_relevant c (bits P p) (bits N p) q p) k) as [r|]; cbn [bind]; auto. subst r. cbn [fst snd]. destruct (kept p q e); reflexivity.
  Qed.
  (** * The list of the best subgroups *)
  Hypothesis Hswo : strict_weak_order lt.
  Hypothesis Hnum : 1 <= bc_num c.
  Hypothesis Hdummy : forall X q, candidate df tcol X -> quality (bc_measure c) df tcol tval X = Ok q -> lt q (bc_dummy c) = false.
  Definition rel (e e' : entry) : Prop :=
    match bc_class c with
    | BSD => dominated (e_pattern e) (e_pattern e') = false /\ dominated (e_pattern e') (e_pattern e) = false
    | _ => value_eq c (e_quality e) (e_quality e') = true -> within crow (e_pattern e) (e_pattern e') && within crow (e_pattern e') (e_pattern e) = false
    end.
  Lemma rel_sym : forall e e', rel e e' -> rel e' e.
  Proof.
    intros e e'. unfold rel. destruct (bc_class c); [tauto| |]; intros H Ev; rewrite andb_comm; apply H; unfold value_eq in *; rewrite andb_comm; exact Ev.
  Qed.
  Definition ascending (k : list entry) : Prop := StronglySorted (fun x y => lt (e_quality y) (e_quality x) = false) k.
  Definition kinv (k : list entry) : Prop :=
    k <> [] /\ Z.of_nat (length k) <= bc_num c /\ ascending k /\ NoDup (map e_pattern k) /\ Forall entry_ok k /\ ForallOrdPairs rel k.
  Lemma covers : forall X, candidate df tcol X -> P <> [] \/ N <> [].
  Proof.
    intros X K. destruct (candidate_counts df tcol tval X K) as (A1 & A2 & A3). rewrite TP_length in A2. rewrite FP_length in A3.
    destruct P; [|left; discriminate]. destruct N; [|right; discriminate]. cbn [length] in *. lia.
  Qed.
  Lemma pattern_refl : forall X, pattern_eq X X = true.
  Proof. intros X. apply pattern_eq_Forall2. induction X; constructor; auto. apply sel_eq_refl. Qed.
  Lemma pattern_eq_true : forall X Y, candidate df tcol X -> candidate df tcol Y -> pattern_eq X Y = true -> X = Y.
  Proof.
    intros X Y KX KY E. apply pattern_eq_Forall2 in E.
    destruct (candidate_U df tcol X Hcat (proj1 KX)) as [_ NX]. destruct (candidate_U df tcol Y Hcat (proj1 KY)) as [_ NY].
    clear KX KY. induction E as [|x y X Y E F IH]; auto. inversion NX as [|? ? A1 A2]; subst. inversion NY as [|? ? B1 B2]; subst. f_equal; auto.
    assert (M : member x [y]) by (exists y; split; [left; auto|rewrite sel_eq_sym; exact E]).
    apply member_nominal in M; auto. destruct M as [M|[]]; auto.
  Qed.
  Lemma perm_filter : forall {A} (f : A -> bool) l m, Permutation l m -> Permutation (filter f l) (filter f m).
  Proof.
    intros A f l m Pm. induction Pm as [|x l m Pm IH|x y l|]; cbn [filter]; auto.
    - destruct (f x); auto.
    - destruct (f x), (f y); auto. constructor.
    - etransitivity; eauto.
  Qed.
  Lemma entry_nonempty : forall e, entry_ok e -> exists s X, e_pattern e = s :: X.
  Proof. intros e (((NX & _) & _) & _). destruct (e_pattern e) as [|s X]; [congruence|eauto]. Qed.
  Lemma sel_rel_insert : forall (st : state) e, entry_ok e -> Forall entry_ok (bs_k st) -> Z.of_nat (length (bs_k st)) <= bc_num c ->
    NoDup (map e_pattern (bs_k st)) -> ForallOrdPairs rel (bs_k st) -> ~ In (e_pattern e) (map e_pattern (bs_k st)) ->
    (bc_class c = BSD -> forall x, In x (bs_k st) -> dominated (e_pattern e) (e_pattern x) = false) ->
    match insert_entry c st e (bits P (e_pattern e)) (bits N (e_pattern e)) with
    | Ok st' => kinv (bs_k st') /\ (forall x, In x (bs_k st') -> x = e \/ In x (bs_k st)) /\ bs_TP st' = bs_TP st /\ bs_FP st' = bs_FP st /\ bs_log st' = bs_log st
    | Err e => no_dataset_negatives e
    end.
  Proof.
    intros st e He Hk Hlen HND HF Hnew Hdom. unfold insert_entry. cbn [set_k bs_k].
    set (f := fun x y : entry => lt (e_quality x) (e_quality y)). set (k1 := sort_by f (bs_k st ++ [e])).
    assert (Pm : Permutation (bs_k st ++ [e]) k1) by apply sort_by_perm.
    assert (Hk1 : Forall entry_ok k1) by (eapply Permutation_Forall; [exact Pm|]; apply Forall_app; split; auto).
    assert (Sk1 : ascending k1) by (apply (sort_by_sorted lt e_quality Hswo)).
    unfold check_relevancies. cbn [set_k bs_k].
    assert (F1 : exists e0, first_entry k1 = Ok e0 /\ entry_ok e0).
    { destruct k1 as [|e0 k'] eqn:E1; [exfalso; apply Permutation_length in Pm; rewrite app_length in Pm; cbn [length] in Pm; lia|]. exists e0. split; auto. inversion Hk1; auto. }
    destruct F1 as (e0 & -> & He0). cbn [bind]. destruct (entry_nonempty e0 He0) as (s0 & X0 & ->).
    pose proof (split_spec k1 (e_pattern e) (e_quality e) Hk1 (covers _ (proj1 He))) as SP.
    destruct (split_relevant (still_relevant c (bits P (e_pattern e)) (bits N (e_pattern e)) (e_quality e) (e_pattern e)) k1) as [r|]; cbn [bind]; auto. subst r. cbn [fst snd].
    set (g := kept (e_pattern e) (e_quality e)).
    assert (Ge : g e = true) by (unfold g, kept; rewrite pattern_refl; reflexivity).
    assert (Pg : Permutation (filter g (bs_k st) ++ [e]) (filter g k1)).
    { assert (E : filter g (bs_k st ++ [e]) = filter g (bs_k st) ++ [e]) by (rewrite filter_app; cbn [filter]; rewrite Ge; reflexivity). rewrite <- E. apply perm_filter; auto. }
    assert (K0 : Z.of_nat (length (filter g k1)) <= bc_num c + 1 /\ ascending (filter g k1) /\ NoDup (map e_pattern (filter g k1)) /\ Forall entry_ok (filter g k1) /\ ForallOrdPairs rel (filter g k1)).
    { split; [|split; [|split; [|split]]].
      - rewrite <- (Permutation_length Pg), app_length. cbn [length]. assert (length (filter g (bs_k st)) <= length (bs_k st))%nat; [|lia].
        clear. induction (bs_k st) as [|x l IH]; cbn [filter length]; auto. destruct (g x); cbn [length]; lia.
      - apply SS_filter; auto.
      - eapply Permutation_NoDup; [apply Permutation_map; exact Pg|]. rewrite map_app. cbn [map].
        apply (Permutation_NoDup (Permutation_cons_append _ _)). constructor; [|apply NoDup_map_filter; auto].
        intros I. apply Hnew. apply in_map_iff in I. destruct I as (x & Ex & Ix). apply filter_In in Ix. rewrite <- Ex. apply in_map. tauto.
      - rewrite Forall_forall in *. intros x Ix. apply filter_In in Ix. apply Hk1. tauto.
      - eapply FOP_perm; [apply rel_sym|exact Pg|]. apply FOP_app; [apply FOP_filter; auto|repeat constructor|].
        intros x y Ix [<-|[]]. apply filter_In in Ix. destruct Ix as [Ix Gx]. rewrite Forall_forall in Hk.
        unfold g, kept in Gx. destruct (pattern_eq (e_pattern x) (e_pattern e)) eqn:Ep; [exfalso; apply Hnew; rewrite <- (pattern_eq_true _ _ (proj1 (Hk x Ix)) (proj1 He) Ep); apply in_map; auto|].
        cbn [orb] in Gx. unfold rel. destruct (bc_class c) eqn:Ec; [split; [apply negb_true_iff; auto|apply Hdom; auto]| |];
          intros Ev; rewrite Ev in Gx; cbn [negb orb] in Gx; apply negb_true_iff in Gx; rewrite Gx; reflexivity. }
    destruct K0 as (A1 & A2 & A3 & A4 & A5).
    assert (Ie : In e (filter g k1)) by (apply (Permutation_in _ Pg), in_or_app; right; left; auto).
    assert (Iall : forall x, In x (filter g k1) -> x = e \/ In x (bs_k st)).
    { intros x Ix. apply filter_In in Ix. destruct Ix as [Ix _]. apply (Permutation_in _ (Permutation_sym Pm)) in Ix. apply in_app_or in Ix. destruct Ix as [Ix|[<-|[]]]; auto. }
    cbn [add_unselected add_irrelevants set_k bs_k]. destruct (bc_num c <? Z.of_nat (length (filter g k1))) eqn:En; cbn [add_unselected set_k bs_k bs_TP bs_FP bs_log].
    - apply Z.ltb_lt in En. split; [|split; [intros x Ix; apply Iall, tl_in; auto|auto]].
      destruct (filter g k1) as [|x0 l0] eqn:Ef; [destruct Ie|]. cbn [tl length] in *. split; [|split; [lia|split; [|split; [|split]]]].
      + destruct l0; [cbn [length] in *; lia|discriminate].
      + apply (SS_tl _ (x0 :: l0)); auto.
      + apply (NoDup_map_tl e_pattern (x0 :: l0)); auto.
      + inversion A4; auto.
      + apply (FOP_tl _ (x0 :: l0)); auto.
    - apply Z.ltb_ge in En. split; [|split; auto]. split; [|split; auto]. destruct (filter g k1); [destruct Ie|discriminate].
  Qed.
  Lemma first_insert : forall (st : state) e, entry_ok e -> bs_k st = [dummy_entry c] ->
    match insert_entry c st e (bits P (e_pattern e)) (bits N (e_pattern e)) with
    | Ok st' => bs_k st' = [e] /\ bs_TP st' = bs_TP st /\ bs_FP st' = bs_FP st /\ bs_log st' = bs_log st
    | Err e => no_dataset_negatives e
    end.
  Proof.
    intros st e He Hk. unfold insert_entry. rewrite Hk. cbn [app set_k bs_k sort_by insert_by].
    replace (e_quality (dummy_entry c)) with (bc_dummy c) by reflexivity.
    assert (Eq := proj1 (proj2 (proj2 (proj2 (proj2 (proj2 He)))))). rewrite (Hdummy _ _ (proj1 He) Eq).
    unfold check_relevancies. cbn [set_k bs_k first_entry bind]. replace (e_pattern (dummy_entry c)) with (@nil selector) by reflexivity. cbn [tl split_relevant].
    pose proof (still_spec e (e_pattern e) (e_quality e) He (covers _ (proj1 He))) as SP.
    destruct (still_relevant c (bits P (e_pattern e)) (bits N (e_pattern e)) (e_quality e) (e_pattern e) e) as [b|]; cbn [bind]; auto. subst b.
    assert (Kt : kept (e_pattern e) (e_quality e) e = true) by (unfold kept; rewrite pattern_refl; reflexivity). rewrite Kt.
    cbn [fst snd add_unselected add_irrelevants set_k bs_k length]. destruct (bc_num c <? Z.of_nat 1) eqn:En; [apply Z.ltb_lt in En; lia|].
    cbn [bs_k bs_TP bs_FP bs_log]. auto.
  Qed.
  Lemma kinv_single : forall e, entry_ok e -> kinv [e].
  Proof.
    intros e He. split; [discriminate|]. split; [cbn [length]; lia|]. split; [repeat constructor|]. split; [constructor; [intros []|constructor]|]. split; [constructor; auto|repeat constructor].
  Qed.

  (** * One candidate *)
  Definition kgood (k : list entry) : Prop := k = [dummy_entry c] \/ kinv k.
  Definition visited (st : state) : list pattern := map fst (bs_log st).
  Definition Inv (st : state) : Prop :=
    kgood (bs_k st) /\ bs_TP st = TP_of df tcol tval /\ bs_FP st = FP_of df tcol tval /\ NoDup (visited st) /\
    (forall e, In e (bs_k st) -> e = dummy_entry c \/ In (e_pattern e) (visited st)) /\
    (forall p k, In (p, k) (bs_log st) -> kgood k).
  Lemma inv_same : forall st st', Inv st -> bs_k st' = bs_k st -> bs_TP st' = bs_TP st -> bs_FP st' = bs_FP st -> bs_log st' = bs_log st -> Inv st'.
  Proof. intros st st' H E1 E2 E3 E4. unfold Inv, visited in *. rewrite E1, E2, E3, E4. exact H. Qed.
  Lemma kgood_first : forall k, kgood k -> exists e k', k = e :: k'.
  Proof. intros k [->|(H & _)]; [eexists _, _; reflexivity|]. destruct k; [congruence|eauto]. Qed.
  Lemma inv_log : forall st X st', Inv st -> ~ In X (visited st) -> kgood (bs_k st') -> (forall x, In x (bs_k st') -> x = dummy_entry c \/ e_pattern x = X \/ In x (bs_k st)) ->
    bs_TP st' = bs_TP st -> bs_FP st' = bs_FP st -> bs_log st' = bs_log st -> Inv (add_log X st').
  Proof.
    intros st X st' (I1 & I2 & I3 & I4 & I5 & I6) Hn Hk Hi E2 E3 E4. unfold Inv, visited, add_log. cbn [bs_k bs_TP bs_FP bs_log]. rewrite E4, map_app. cbn [map fst].
    split; auto. split; [congruence|]. split; [congruence|]. split; [|split].
    - apply (Permutation_NoDup (Permutation_cons_append _ _)). constructor; auto.
    - intros e Ie. destruct (Hi e Ie) as [->|[<-|Ik]]; auto.
      + right. apply in_or_app. right. left; auto.
      + destruct (I5 e Ik); auto. right. apply in_or_app; auto.
    - intros p k I. apply in_app_or in I. destruct I as [I|[I|[]]]; [eauto|]. injection I as <- <-. exact Hk.
  Qed.
  Lemma handle_spec : forall st selCond s oe q nsr X, Inv st -> X = extend_pattern selCond s -> candidate df tcol X -> incl X L -> ~ In X (visited st) ->
    quality (bc_measure c) df tcol tval X = Ok q -> quality (bc_oe c) df tcol tval X = Ok oe ->
    match bsd_handle c st selCond s oe q (bits P X) (bits N X) nsr (tp_of df tsel X) (fp_of df tsel X) with
    | Ok (nsr', st') => Inv st' /\ bs_log st' = bs_log st ++ [(X, bs_k st')] /\ (nsr' = nsr \/ nsr' = nsr ++ [(oe, s)])
    | Err e => raises e
    end.
  Proof.
    intros st selCond s oe q nsr X HI EX K HL Hn Eq Eo. unfold bsd_handle. cbn [add_visited bs_k]. rewrite <- EX.
    destruct HI as (I1 & I2 & I3 & I4 & I5 & I6). assert (HI : Inv st) by (repeat split; auto).
    destruct (kgood_first _ I1) as (w & kw & Ek). rewrite Ek. cbn [first_entry bind]. rewrite <- Ek.
    destruct (passes c oe (e_quality w) || not_full c (bs_k st)).
    2:{ split; [|split; auto]. apply (inv_log st); auto. }
    set (st0 := add_visited st). assert (Out : forall st', Inv (add_log X st') -> bs_log st' = bs_log st -> 
      Inv (add_log X st') /\ bs_log (add_log X st') = bs_log st ++ [(X, bs_k (add_log X st'))] /\ (nsr ++ [(oe, s)] = nsr \/ nsr ++ [(oe, s)] = nsr ++ [(oe, s)])).
    { intros st' H1 H2. split; auto. split; auto. cbn [add_log bs_log bs_k]. rewrite H2. reflexivity. }
    destruct (passes c q (e_quality w) || not_full c (bs_k st)).
    2:{ cbn [bind]. apply Out; auto. apply (inv_log st); auto. }
    unfold check_rel. destruct (bc_is_float c q) eqn:Ef; cbn [negb].
    2:{ cbn [bind]. right. left. split; auto. exists X, q. auto. }
    unfold st0 at 1. cbn [add_visited bs_k]. rewrite Ek. cbn [first_entry bind].
    set (e := BE q X (bits P X ++ bits N X) oe (tp_of df tsel X) (fp_of df tsel X)).
    assert (He : entry_ok e) by (unfold entry_ok, e; cbn [e_pattern e_bits e_tp e_fp e_quality e_oe]; split; auto; split; auto; split; auto; split; auto; split; auto).
    destruct I1 as [Ed|Hki].
    - assert (Ew : w = dummy_entry c) by congruence. subst w. replace (e_pattern (dummy_entry c)) with (@nil selector) by reflexivity. cbn [bind fst snd].
      pose proof (first_insert st0 e He Ed) as FI. change (e_pattern e) with X in FI.
      destruct (insert_entry c st0 e (bits P X) (bits N X)) as [st1|]; cbn [bind]; [|right; right; auto].
      destruct FI as (F1 & F2 & F3 & F4). apply Out; auto. apply (inv_log st); auto; rewrite F1; [right; apply kinv_single; auto|]. intros x [<-|[]]. auto.
    - destruct Hki as (K1 & K2 & K3 & K4 & K5 & K6). assert (Hw : entry_ok w) by (rewrite Ek in K5; inversion K5; auto). destruct (entry_nonempty w Hw) as (s0 & X0 & ->).
      assert (Ndum : forall x, In x (bs_k st) -> In (e_pattern x) (visited st)).
      { intros x Ix. destruct (I5 x Ix) as [->|]; auto. exfalso. rewrite Forall_forall in K5. destruct (entry_nonempty _ (K5 _ Ix)) as (a & b & Eab). discriminate. }
      assert (Fin : forall st2, Forall entry_ok (bs_k st2) -> Z.of_nat (length (bs_k st2)) <= bc_num c -> NoDup (map e_pattern (bs_k st2)) -> ForallOrdPairs rel (bs_k st2) ->
        incl (bs_k st2) (bs_k st) -> bs_TP st2 = bs_TP st -> bs_FP st2 = bs_FP st -> bs_log st2 = bs_log st ->
        (bc_class c = BSD -> forall x, In x (bs_k st2) -> dominated X (e_pattern x) = false) ->
        match (do st3 <- insert_entry c st2 e (bits P X) (bits N X); Ok (nsr ++ [(oe, s)], add_log X st3)) with
        | Ok (nsr', st') => Inv st' /\ bs_log st' = bs_log st ++ [(X, bs_k st')] /\ (nsr' = nsr \/ nsr' = nsr ++ [(oe, s)])
        | Err e => raises e
        end).
      { intros st2 B1 B2 B3 B4 B5 B6 B7 B8 B9. pose proof (sel_rel_insert st2 e He B1 B2 B3 B4) as SI. change (e_pattern e) with X in SI.
        assert (Hnew : ~ In X (map e_pattern (bs_k st2))) by (intros I; apply in_map_iff in I; destruct I as (x & Ex & Ix); apply Hn; rewrite <- Ex; apply Ndum, B5; auto).
        specialize (SI Hnew B9). destruct (insert_entry c st2 e (bits P X) (bits N X)) as [st3|]; cbn [bind]; [|right; right; auto].
        destruct SI as (S1 & S2 & S3 & S4 & S5). apply Out; [|congruence]. apply (inv_log st); auto; try congruence; [right; auto|].
        intros x Ix. destruct (S2 x Ix) as [->|Ix']; auto. }
      destruct (bc_class c) eqn:Ec.
      + pose proof (bsd_relevant_spec (bs_k st) X Ec K5 (covers X K)) as RS. unfold st0 at 1. cbn [add_visited bs_k].
        destruct (bsd_relevant_to (bs_k st) (bits P X) (bits N X)) as [r|]; cbn [bind]; [|right; right; auto]. cbn [fst snd]. destruct r.
        * apply (Fin st0); auto. { intros x; auto. } intros _ x Ix. symmetry in RS. rewrite forallb_forall in RS. apply negb_true_iff. apply RS. exact Ix.
        * cbn [bind]. apply Out; auto. apply (inv_log st); auto. right. repeat split; auto.
      + pose proof (closed_relevant_spec (bs_k st) X q X K5) as RS. unfold st0 at 1. cbn [add_visited bs_k].
        destruct (closed_relevant_to c (bs_k st) (bits P X) (bits N X) q X) as [[[k' x]|]|]; [| |destruct RS]; cbn [bind fst snd].
        * destruct RS as (k1 & k2 & Ek1 & -> & _ & _).
          apply (Fin (add_unselected (length x) (add_irrelevants (set_k st0 (k1 ++ k2)) (map irrelevant_of x)))); cbn [add_unselected add_irrelevants set_k bs_k bs_TP bs_FP bs_log]; auto.
          -- rewrite Ek1 in K5. apply Forall_app in K5. destruct K5 as [A B]. apply Forall_app in B. apply Forall_app. tauto.
          -- rewrite Ek1 in K2. rewrite !app_length in *. lia.
          -- rewrite Ek1, !map_app in K4. rewrite map_app. clear -K4. induction (map e_pattern x) as [|z l IH]; cbn [app] in *; auto. apply IH. apply NoDup_remove_1 in K4. exact K4.
          -- rewrite Ek1 in K6. apply (FOP_perm _ _ (x ++ (k1 ++ k2)) rel_sym) in K6; [apply FOP_app_inv in K6; tauto|]. rewrite !app_assoc. apply Permutation_app_tail, Permutation_app_comm.
          -- intros z Iz. rewrite Ek1. apply in_app_or in Iz. apply in_or_app. destruct Iz; auto. right. apply in_or_app; auto.
          -- discriminate.
        * apply Out; auto. apply (inv_log st); auto. right. repeat split; auto.
      + pose proof (closed_relevant_spec (bs_k st) X q X K5) as RS. unfold st0 at 1. cbn [add_visited bs_k].
        destruct (closed_relevant_to c (bs_k st) (bits P X) (bits N X) q X) as [[[k' x]|]|]; [| |destruct RS]; cbn [bind fst snd].
        * destruct RS as (k1 & k2 & Ek1 & -> & _ & _).
          apply (Fin (add_unselected (length x) (add_irrelevants (set_k st0 (k1 ++ k2)) (map irrelevant_of x)))); cbn [add_unselected add_irrelevants set_k bs_k bs_TP bs_FP bs_log]; auto.
          -- rewrite Ek1 in K5. apply Forall_app in K5. destruct K5 as [A B]. apply Forall_app in B. apply Forall_app. tauto.
          -- rewrite Ek1 in K2. rewrite !app_length in *. lia.
          -- rewrite Ek1, !map_app in K4. rewrite map_app. clear -K4. induction (map e_pattern x) as [|z l IH]; cbn [app] in *; auto. apply IH. apply NoDup_remove_1 in K4. exact K4.
          -- rewrite Ek1 in K6. apply (FOP_perm _ _ (x ++ (k1 ++ k2)) rel_sym) in K6; [apply FOP_app_inv in K6; tauto|]. rewrite !app_assoc. apply Permutation_app_tail, Permutation_app_comm.
          -- intros z Iz. rewrite Ek1. apply in_app_or in Iz. apply in_or_app. destruct Iz; auto. right. apply in_or_app; auto.
          -- discriminate.
        * apply Out; auto. apply (inv_log st); auto. right. repeat split; auto.
  Qed.
  (** * The search *)
  Lemma extend_spec : forall C s, Forall nominal C -> sorted_strictly C -> nominal s -> ~ In s C ->
    sorted_strictly (extend_pattern C s) /\ (forall x, In x (extend_pattern C s) <-> x = s \/ In x C) /\ length (extend_pattern C s) = S (length C).
  Proof.
    intros C s NC SC Ns Nin. destruct C as [|a C'] eqn:EC.
    - cbn. split; [repeat constructor|]. split; auto. intros x. split; [intros [<-|[]]; auto|intros [->|[]]; auto].
    - assert (E0 : extend_pattern (a :: C') s = add_selector (a :: C') s) by reflexivity. rewrite E0. clear E0. rewrite <- EC in *. clear EC a C'.
      assert (Hall : Forall nominal (s :: C)) by (constructor; auto).
      assert (Hh := nominal_homogeneous _ Hall). assert (HC := nominal_homogeneous _ NC).
      assert (Cp : compat C s).
      { intros x Ix. apply Hh; [right; auto|left; auto]. }
      destruct (add_selector_spec C s (proj1 (sorted_strictly_slt C HC) SC) Cp) as (S1 & I1 & M1 & L1).
      assert (NX : Forall nominal (add_selector C s)) by (apply Forall_forall; intros x Ix; rewrite Forall_forall in Hall; apply Hall, I1; auto).
      split; [apply sorted_strictly_slt; auto using nominal_homogeneous|]. split.
      + intros x. split.
        * intros Ix. apply I1 in Ix. destruct Ix as [<-|]; auto.
        * intros Hx. assert (Ix : In x (s :: C)) by (destruct Hx as [->|]; [left|right]; auto).
          assert (Nx : nominal x) by (rewrite Forall_forall in Hall; auto). apply (member_nominal _ x NX Nx), M1, member_nominal; auto.
      + rewrite L1. destruct (memberb s C) eqn:Em; auto. exfalso. apply Nin. unfold memberb in Em. apply existsb_exists in Em. destruct Em as (x & Ix & Ex).
        apply (member_nominal C s NC Ns). exists x. auto.
  Qed.
  Lemma L_nominal : forall X, incl X L -> Forall nominal X.
  Proof. intros X HX. apply Forall_forall. intros s Is. apply (U_nominal df tcol). apply (L_U df tcol tval Hcat Hcol mask Hmask (bc_min_support c)). apply HX; auto. Qed.
  Definition node (C : pattern) (R : list selector) : Prop := sorted_strictly C /\ incl C L /\ NoDup R /\ incl R L /\ forall s, In s R -> ~ In s C.
  Lemma node_extend : forall C R s, node C R -> In s R -> sorted_strictly (extend_pattern C s) /\ (forall x, In x (extend_pattern C s) <-> x = s \/ In x C) /\
    length (extend_pattern C s) = S (length C) /\ incl (extend_pattern C s) L.
  Proof.
    intros C R s (SC & IC & NR & IR & D) Is. destruct (extend_spec C s) as (A1 & A2 & A3); auto.
    - apply L_nominal; auto.
    - assert (F : Forall nominal [s]) by (apply L_nominal; intros x [<-|[]]; auto). inversion F; auto.
    - split; auto. split; auto. split; auto. intros x Ix. apply A2 in Ix. destruct Ix as [->|]; auto.
  Qed.
  Lemma node_description : forall C R s, node C R -> In s R -> description df tcol (extend_pattern C s).
  Proof.
    intros C R s HN Is. destruct (node_extend C R s HN Is) as (A1 & A2 & A3 & A4). split; [intros E; rewrite E in A3; discriminate|]. split; auto.
    intros x Ix. apply (U_description df tcol Hcat). apply (L_U df tcol tval Hcat Hcol mask Hmask (bc_min_support c)). apply A4; auto.
  Qed.
  Notation dpos := (build_bitset df mask tcol L).
  Notation dneg := (build_bitset df (map negb mask) tcol L).
  Lemma pget : forall s, In s L -> bitset_get dpos s = Ok (bits P [s]).
  Proof. intros s Is. apply (get_pos df tcol tval Hcat Hquo Hcol mask Hmask); auto. Qed.
  Lemma nget : forall s, In s L -> bitset_get dneg s = Ok (bits N [s]).
  Proof. intros s Is. apply (get_neg df tcol tval Hcat Hquo Hcol mask Hmask); auto. Qed.
  Lemma extend_bits : forall C R s Q, node C R -> In s R -> bits Q (s :: C) = bits Q (extend_pattern C s).
  Proof. intros C R s Q HN Is. apply bits_same. intros x. destruct (node_extend C R s HN Is) as (_ & A & _). rewrite A. cbn [In]. split; intros [H|H]; auto. Qed.
  Lemma evaluate_spec : forall C R s st nsr, node C R -> In s R -> Inv st -> ~ In (extend_pattern C s) (visited st) ->
    match bsd_evaluate c dpos dneg C (bits P C) (bits N C) (nsr, st) s with
    | Ok (nsr', st') => Inv st' /\ exists o, (nsr' = nsr \/ nsr' = nsr ++ [(o, s)]) /\
        ((visited st' = visited st /\ nsr' = nsr) \/ (visited st' = visited st ++ [extend_pattern C s] /\ candidate df tcol (extend_pattern C s)))
    | Err e => raises e
    end.
  Proof.
    intros C R s st nsr HN Is HI Hf. unfold bsd_evaluate. set (X := extend_pattern C s) in *.
    assert (Ls : In s L) by (apply HN; auto). rewrite (pget s Ls), (nget s Ls). cbn [bind].
    assert (Ep : (match C with [] => Ok (bits P [s]) | _ :: _ => logical_and (bits P C) (bits P [s]) end) = Ok (bits P X)).
    { unfold X. rewrite <- (extend_bits C R s _ HN Is). destruct C; auto. apply BSDRows.bits_and. }
    assert (En : (match C with [] => Ok (bits N [s]) | _ :: _ => logical_and (bits N C) (bits N [s]) end) = Ok (bits N X)).
    { unfold X. rewrite <- (extend_bits C R s _ HN Is). destruct C; auto. apply BSDRows.bits_and. }
    rewrite Ep. cbn [bind]. rewrite En. cbn [bind]. rewrite card_pos, card_neg. fold tsel. 
    pose proof (cover_sum df tcol tval X) as CS. fold tsel in CS. rewrite CS. destruct (Z.of_nat (coverage df X) =? 0) eqn:Ez.
    - split; [apply (inv_same st); auto|]. exists (bc_dummy c). split; auto.
    - apply Z.eqb_neq in Ez. assert (K : candidate df tcol X) by (split; [apply (node_description C R s); auto|lia]).
      destruct HI as (I1 & I2 & I3 & I4 & I5 & I6). assert (HI : Inv st) by (repeat split; auto). rewrite I2, I3.
      change (bc_oe c (tp_of df tsel X) (fp_of df tsel X) (TP_of df tcol tval) (FP_of df tcol tval)) with (quality (bc_oe c) df tcol tval X).
      change (bc_measure c (tp_of df tsel X) (fp_of df tsel X) (TP_of df tcol tval) (FP_of df tcol tval)) with (quality (bc_measure c) df tcol tval X).
      destruct (quality (bc_oe c) df tcol tval X) as [oe|e] eqn:Eo; cbn [bind]; [|left; exists X; auto].
      destruct (quality (bc_measure c) df tcol tval X) as [q|e] eqn:Eq; cbn [bind]; [|left; exists X; auto].
      pose proof (handle_spec st C s oe q nsr X HI eq_refl K (proj2 (proj2 (proj2 (node_extend C R s HN Is)))) Hf Eq Eo) as HS.
      destruct (bsd_handle c st C s oe q (bits P X) (bits N X) nsr (tp_of df tsel X) (fp_of df tsel X)) as [[nsr' st']|]; auto.
      destruct HS as (H1 & H2 & H3). split; auto. exists oe. split; auto. right. split; auto. unfold visited. rewrite H2, map_app. reflexivity.
  Qed.
  Lemma extend_inj : forall C R s t, node C R -> In s R -> In t R -> extend_pattern C s = extend_pattern C t -> s = t.
  Proof.
    intros C R s t HN Is It E. destruct (node_extend C R s HN Is) as (_ & A & _). destruct (node_extend C R t HN It) as (_ & B & _).
    assert (I : In s (extend_pattern C t)) by (rewrite <- E; apply A; auto). apply B in I. destruct I as [|I]; auto. exfalso. apply HN in I; auto.
  Qed.
  Definition one_more (C : pattern) (R : list selector) (X : pattern) : Prop := exists s, In s R /\ X = extend_pattern C s /\ candidate df tcol X.
  Lemma fold_evaluate : forall C R, node C R -> forall R' st nsr, incl R' R -> NoDup R' -> Inv st -> (forall s, In s R' -> ~ In (extend_pattern C s) (visited st)) ->
    match fold_res (bsd_evaluate c dpos dneg C (bits P C) (bits N C)) R' (nsr, st) with
    | Ok (nsr', st') => Inv st' /\ (exists more, nsr' = nsr ++ more /\ incl (map snd more) R' /\ NoDup (map snd more)) /\
        exists new, visited st' = visited st ++ new /\ Forall (one_more C R') new
    | Err e => raises e
    end.
  Proof.
    intros C R HN R'. induction R' as [|s R' IH]; intros st nsr HI ND Hinv Hf; cbn [fold_res].
    - split; auto. split; [exists []; rewrite app_nil_r; split; auto; split; [intros x []|constructor]|]. exists []. rewrite app_nil_r. auto.
    - assert (Is : In s R) by (apply HI; left; auto). inversion ND as [|? ? N1 N2]; subst.
      pose proof (evaluate_spec C R s st nsr HN Is Hinv (Hf s (or_introl eq_refl))) as ES.
      destruct (bsd_evaluate c dpos dneg C (bits P C) (bits N C) (nsr, st) s) as [[nsr1 st1]|]; cbn [bind]; auto.
      destruct ES as (Hinv1 & o & Hn1 & Hv1).
      assert (Hf1 : forall t, In t R' -> ~ In (extend_pattern C t) (visited st1)).
      { intros t It I. assert (Ht := Hf t (or_intror It)). destruct Hv1 as [[E _]|[E _]]; rewrite E in I; [auto|]. apply in_app_or in I. destruct I as [I|[I|[]]]; auto.
        apply (extend_inj C R s t HN Is (HI t (or_intror It))) in I. subst t. auto. }
      assert (IH' := IH st1 nsr1 (fun x Ix => HI x (or_intror Ix)) N2 Hinv1 Hf1).
      destruct (fold_res (bsd_evaluate c dpos dneg C (bits P C) (bits N C)) R' (nsr1, st1)) as [[nsr2 st2]|]; auto.
      destruct IH' as (Hinv2 & (more & E1 & E2 & E3) & new & E4 & E5). split; auto. split.
      + destruct Hn1 as [->| ->].
        * exists more. split; auto. split; auto. intros x Ix. right; auto.
        * exists ((o, s) :: more). rewrite E1, <- app_assoc. split; auto. cbn [map snd]. split; [intros x [<-|Ix]; [left; auto|right; auto]|]. constructor; auto.
      + assert (E5' : Forall (one_more C (s :: R')) new).
        { eapply Forall_impl; [|exact E5]. intros X (t & It & H). exists t. split; [right; auto|auto]. }
        destruct Hv1 as [[E _]|[E K]]; rewrite E in E4; [exists new; auto|]. exists (extend_pattern C s :: new). rewrite E4, <- app_assoc. split; auto.
        constructor; auto. exists s. split; [left; auto|auto].
  Qed.

  Definition extends (C : pattern) (R : list selector) (X : pattern) : Prop := incl C X /\ incl X (C ++ R) /\ exists x, In x X /\ ~ In x C.
  Definition fresh (st : state) (C : pattern) (R : list selector) : Prop := forall X, In X (visited st) -> ~ extends C R X.
  (** The sets of [C] and at least two elements of [R]. *)
  Definition fresh2 (st : state) (C : pattern) (R : list selector) : Prop :=
    forall X x y, In X (visited st) -> incl C X -> incl X (C ++ R) -> In x X -> In y X -> ~ In x C -> ~ In y C -> x <> y -> False.
  Definition deep (depth : Z) (X : pattern) : Prop := Z.of_nat (length X) <= Z.max (depth + 1) (bc_max_depth c + 1).
  Definition result (C : pattern) (R : list selector) (depth : Z) (st : state) (r : res state) : Prop :=
    match r with
    | Ok st' => Inv st' /\ exists new, visited st' = visited st ++ new /\ Forall (fun X => extends C R X /\ candidate df tcol X /\ incl X L /\ deep depth X) new
    | Err e => raises e
    end.
  Lemma remove_first_spec : forall s l, incl l L -> NoDup l -> In s l -> exists l', remove_first s l = Ok l' /\ NoDup l' /\ length l = S (length l') /\ forall x, In x l' <-> In x l /\ x <> s.
  Proof.
    intros s l HL ND Is. induction l as [|x l IH]; [destruct Is|]. cbn [remove_first]. inversion ND as [|? ? N1 N2]; subst.
    assert (Hnom : Forall nominal (x :: l)) by (apply L_nominal; auto).
    destruct (sel_eq x s) eqn:E.
    - assert (x = s).
      { assert (M : member s [x]) by (exists x; split; [left; auto|auto]). rewrite Forall_forall in Hnom.
        apply member_nominal in M; [destruct M as [|[]]; auto|constructor; [apply Hnom; left; auto|constructor]|apply Hnom; auto]. }
      subst x. exists l. split; auto. split; auto. split; auto. intros x. split; [intros Ix; split; [right; auto|intros ->; auto]|]. intros [[<-|Ix] Ne]; [congruence|auto].
    - assert (Is' : In s l) by (destruct Is as [->|]; auto; rewrite sel_eq_refl in E; discriminate).
      destruct (IH (fun y Iy => HL y (or_intror Iy)) N2 Is') as (l' & -> & N3 & Ll & Hl'). cbn [bind]. exists (x :: l'). split; auto.
      split; [constructor; auto; intros I; apply Hl' in I; tauto|]. split; [cbn [length]; lia|].
      intros y. cbn [In]. rewrite Hl'. split; [intros [->|[Iy Ne]]; split; auto; intros ->|intros [[->|Iy] Ne]; auto].
      rewrite sel_eq_refl in E. discriminate.
  Qed.
  Lemma search_spec : forall fuel C R depth st, (length R < fuel)%nat -> node C R -> depth = Z.of_nat (length C) -> Inv st -> fresh st C R ->
    result C R depth st (bsd_search c dpos dneg fuel C R (bits P C) (bits N C) depth st).
  Proof.
    intros fuel. induction fuel as [|f IHf]; intros C R depth st Hl HN Hd HI Hf; [lia|]. cbn [bsd_search].
    assert (HF0 : forall s, In s R -> ~ In (extend_pattern C s) (visited st)).
    { intros s Is I. destruct (node_extend C R s HN Is) as (_ & A & _). apply (Hf _ I). split; [intros x Ix; apply A; auto|]. split; [intros x Ix; apply A in Ix; apply in_or_app; destruct Ix as [->|]; auto|].
      exists s. split; [apply A; auto|]. apply HN; auto. }
    pose proof (fold_evaluate C R HN R st [] (fun x I => I) (proj1 (proj2 (proj2 HN))) HI HF0) as FE.
    destruct (fold_res (bsd_evaluate c dpos dneg C (bits P C) (bits N C)) R ([], st)) as [[nsr st1]|]; cbn [bind]; auto. cbn [fst snd].
    destruct FE as (HI1 & (more & E1 & Em & NDm) & new1 & Ev1 & Fn1). cbn [app] in E1. subst nsr.
    assert (Fn1' : Forall (fun X => extends C R X /\ candidate df tcol X /\ incl X L /\ deep depth X) new1).
    { eapply Forall_impl; [|exact Fn1]. intros X (s & Is & -> & K). destruct (node_extend C R s HN Is) as (_ & A & A3 & A4). split; [|split; auto; split; auto].
      - split; [intros x Ix; apply A; auto|]. split; [intros x Ix; apply A in Ix; apply in_or_app; destruct Ix as [->|]; auto|]. exists s. split; [apply A; auto|apply HN; auto].
      - unfold deep. rewrite A3. lia. }
    destruct (depth <? bc_max_depth c) eqn:Edepth; [|split; auto; exists new1; auto]. apply Z.ltb_lt in Edepth.
    set (nsr := sort_by (fun x y => pair_lt c y x) more).
    assert (Pm : Permutation more nsr) by apply sort_by_perm.
    assert (NDn : NoDup (map snd nsr)) by (eapply Permutation_NoDup; [apply Permutation_map; exact Pm|]; auto).
    assert (In1 : incl (map snd nsr) R) by (intros x Ix; apply Em; apply (Permutation_in _ (Permutation_sym (Permutation_map snd Pm))); auto).
    assert (F2 : fresh2 st1 C (map snd nsr)).
    { intros X x y IX IC IXR Ix Iy Nx Ny Nxy. rewrite Ev1 in IX. apply in_app_or in IX. destruct IX as [IX|IX].
      - apply (Hf X IX). split; auto. split; [intros z Iz; apply IXR in Iz; apply in_app_or in Iz; apply in_or_app; destruct Iz; auto|]. exists x; auto.
      - rewrite Forall_forall in Fn1. destruct (Fn1 X IX) as (s & Is & -> & _). destruct (node_extend C R s HN Is) as (_ & A & _).
        apply A in Ix, Iy. destruct Ix as [->|]; [|auto]. destruct Iy as [->|]; auto. }
    cut (forall l aux st2, NoDup aux -> incl aux R -> (length aux <= length R)%nat -> incl (map snd l) aux -> NoDup (map snd l) -> Inv st2 -> fresh2 st2 C aux ->
      result C R depth st2 ((fix loop (l : list (V * selector)) (aux : list selector) (st : state) {struct l} : res state :=
             match l with
             | [] => Ok st
             | x :: l' =>
                 do w <- first_entry (bs_k st);
                 if bc_lt c (e_quality w) (fst x) then
                   do aux <- remove_first (snd x) aux;
                   do bp <- bitset_get dpos (snd x);
                   do pos <- logical_and (bits P C) bp;
                   do bn <- bitset_get dneg (snd x);
                   do neg <- logical_and (bits N C) bn;
                   do st <- bsd_search c dpos dneg f (extend_pattern C (snd x)) aux pos neg (depth + 1) st;
                   loop l' aux st
                 else loop l' aux (add_unselected 1 (add_pruned st))
             end) l aux st2)).
    { intros Hloop. assert (Ll : (length (map snd nsr) <= length R)%nat) by (apply NoDup_incl_length; auto).
      specialize (Hloop nsr (map snd nsr) st1 NDn In1 Ll (fun x I => I) NDn HI1 F2). unfold result in *.
      match goal with |- context [match ?r with Ok _ => _ | Err _ => _ end] => destruct r as [st3|]; auto end.
      destruct Hloop as (HI3 & new2 & Ev2 & Fn2). split; auto. exists (new1 ++ new2). rewrite Ev2, Ev1, app_assoc. split; auto. apply Forall_app; auto. }
    intros l. induction l as [|[o s] l IHl]; intros aux st2 NDa Ia La Il NDl HI2 HF2; [split; auto; exists []; rewrite app_nil_r; auto|].
    destruct (kgood_first _ (proj1 HI2)) as (w & kw & Ew). rewrite Ew. cbn [first_entry bind]. cbn [map snd] in Il, NDl. inversion NDl as [|? ? N1 N2]; subst.
    destruct (bc_lt c (e_quality w) (fst (o, s))).
    2:{ assert (I' : incl (map snd l) aux) by (intros x Ix; apply Il; right; auto).
        assert (HI2' : Inv (add_unselected 1 (add_pruned st2))) by (apply (inv_same st2); auto).
        pose proof (IHl aux (add_unselected 1 (add_pruned st2)) NDa Ia La I' N2 HI2' HF2) as R1. unfold result in *.
        match goal with |- context [match ?r with Ok _ => _ | Err _ => _ end] => destruct r as [st3|]; auto end. }
    cbn [snd]. assert (Is : In s aux) by (apply Il; left; auto). assert (IsR : In s R) by auto. assert (IsL : In s L) by (apply HN; auto).
    assert (IaL : incl aux L) by (intros x Ix; apply HN; auto).
    destruct (remove_first_spec s aux IaL NDa Is) as (aux' & -> & NDa' & La' & Ha'). cbn [bind]. rewrite (pget s IsL), (nget s IsL). cbn [bind]. rewrite BSDRows.bits_and. cbn [bind]. rewrite BSDRows.bits_and. cbn [bind].
    rewrite (extend_bits C R s P HN IsR), (extend_bits C R s N HN IsR).
    destruct (node_extend C R s HN IsR) as (X1 & X2 & X3 & X4).
    assert (HN' : node (extend_pattern C s) aux').
    { split; auto. split; auto. split; auto. split; [intros x Ix; apply Ha' in Ix; apply IaL; tauto|]. intros x Ix I. apply Ha' in Ix. apply X2 in I. destruct I as [->|I]; [tauto|].
      destruct Ix as [Ix _]. apply Ia in Ix. apply HN in Ix. auto. }
    assert (HF' : fresh st2 (extend_pattern C s) aux').
    { intros X IX (B1 & B2 & x & Ix & Nx). apply (HF2 X s x IX).
      - intros y Iy. apply B1, X2; auto.
      - intros y Iy. apply B2 in Iy. apply in_app_or in Iy. apply in_or_app. destruct Iy as [Iy|Iy]; [apply X2 in Iy; destruct Iy as [->|]; auto|]. apply Ha' in Iy. tauto.
      - apply B1, X2; auto.
      - exact Ix.
      - apply HN; auto.
      - intros I. apply Nx, X2; auto.
      - intros <-. apply Nx, X2; auto. }
    assert (Hd' : Z.of_nat (length C) + 1 = Z.of_nat (length (extend_pattern C s))) by lia.
    assert (Hlen' : (length aux' < f)%nat) by lia.
    pose proof (IHf (extend_pattern C s) aux' (Z.of_nat (length C) + 1) st2 Hlen' HN' Hd' HI2 HF') as RS. unfold result in RS.
    destruct (bsd_search c dpos dneg f (extend_pattern C s) aux' (bits P (extend_pattern C s)) (bits N (extend_pattern C s)) (Z.of_nat (length C) + 1) st2) as [st3|]; cbn [bind]; [|exact RS].
    destruct RS as (HI3 & new3 & Ev3 & Fn3).
    assert (Ia'' : incl aux' R) by (intros x Ix; apply Ha' in Ix; apply Ia; tauto).
    assert (Il' : incl (map snd l) aux') by (intros x Ix; apply Ha'; split; [apply Il; right; auto|intros ->; auto]).
    assert (HF3 : fresh2 st3 C aux').
    { intros X x y IX IC IXR Ix Iy Nx Ny Nxy. rewrite Ev3 in IX. apply in_app_or in IX. destruct IX as [IX|IX].
      - apply (HF2 X x y IX); auto. intros z Iz. apply IXR in Iz. apply in_app_or in Iz. apply in_or_app. destruct Iz as [|Iz]; auto. apply Ha' in Iz. tauto.
      - rewrite Forall_forall in Fn3. destruct (Fn3 X IX) as ((B1 & _) & _). assert (IsX : In s X) by (apply B1, X2; auto). apply IXR in IsX. apply in_app_or in IsX.
        destruct IsX as [I|I]; [apply HN in I; auto|]. apply Ha' in I. tauto. }
    assert (La2 : (length aux' <= length R)%nat) by lia.
    pose proof (IHl aux' st3 NDa' Ia'' La2 Il' N2 HI3 HF3) as R2. unfold result in *.
    match goal with |- context [match ?r with Ok _ => _ | Err _ => _ end] => destruct r as [st4|]; auto end.
    destruct R2 as (HI4 & new4 & Ev4 & Fn4). split; auto. exists (new3 ++ new4). rewrite Ev4, Ev3, app_assoc. split; auto. apply Forall_app. split; auto.
    eapply Forall_impl; [|exact Fn3]. intros X ((B1 & B2 & x & Ix & Nx) & B3 & B4 & B5). split; [|split; auto; split; auto].
    - split; [intros y Iy; apply B1, X2; auto|]. split.
      + intros y Iy. apply B2 in Iy. apply in_app_or in Iy. apply in_or_app. destruct Iy as [Iy|Iy]; [apply X2 in Iy; destruct Iy as [->|]; auto|]. auto.
      + exists s. split; [apply B1, X2; auto|]. apply HN; auto.
    - unfold deep in *. lia.
  Qed.

  (** * fit *)
  Lemma inv_new : Inv (BS [dummy_entry c] [] 0 0 0 0 (TP_of df tcol tval) (FP_of df tcol tval) None []).
  Proof.
    split; [left; reflexivity|]. split; [reflexivity|]. split; [reflexivity|]. split; [constructor|]. split; [intros e [<-|[]]; auto|]. intros p k [].
  Qed.
  Definition fit_result (r : res state) : Prop :=
    match r with
    | Ok st' => Inv st' /\ Forall (fun X => candidate df tcol X /\ incl X L /\ deep 0 X) (visited st') /\
        (exists e0 k, bs_k st' = e0 :: k /\ bs_selected st' = if value_eq c (e_quality e0) (bc_dummy c) then length k else S (length k)) /\
        (bc_write c = true -> bs_file st' = Some (bsd_lines c tcol tval st'))
    | Err e => raises e
    end.
  Lemma all_str : all_nominal df = true.
  Proof.
    unfold all_nominal. apply forallb_forall. intros [a col] I. apply forallb_forall. intros v Iv. destruct Hcat as (_ & _ & H). apply (H a col); auto.
  Qed.
  Lemma pop : population df mask = (TP_of df tcol tval, FP_of df tcol tval).
  Proof. apply population_spec; auto. Qed.
  Lemma node_start : node [] L.
  Proof.
    split; [constructor|]. split; [intros x []|]. split; [apply (L_nodup df tcol tval Hcat Hcol mask Hmask)|]. split; [intros x; auto|]. intros s _ [].
  Qed.
  Lemma fit_spec : fit_result (bsd_fit c (bsd_new c) df tcol tval).
  Proof.
    unfold bsd_fit. rewrite all_str. cbn [negb]. rewrite Hmask. cbn [bind]. rewrite pop. unfold bsd_new at 1 2 3 4 5 6 7 8. cbn [bs_k bs_irrelevants bs_visited bs_selected bs_unselected bs_pruned bs_file bs_log].
    rewrite (count_pos df tcol tval Hcat Hcol mask Hmask), (count_neg df tcol tval Hcat Hcol mask Hmask). rewrite <- !(bits_nil df).
    change (bsd_frequent df mask tcol (bc_min_support c)) with L. change (pattern_init []) with (@nil selector).
    set (st0 := BS [dummy_entry c] [] 0 0 0 0 (TP_of df tcol tval) (FP_of df tcol tval) None []).
    assert (Hf : fresh st0 [] L) by (intros X []).
    pose proof (search_spec (S (length L)) [] L 0 st0 (Nat.lt_succ_diag_r _) node_start eq_refl inv_new Hf) as RS. unfold result in RS.
    destruct (bsd_search c dpos dneg (S (length L)) [] L (bits P []) (bits N []) 0 st0) as [st1|]; cbn [bind]; [|exact RS].
    destruct RS as (HI & new & Ev & Fn). cbn in Ev. destruct (kgood_first _ (proj1 HI)) as (e0 & k & Ek). rewrite Ek. cbn [first_entry bind].
    assert (FV : Forall (fun X => candidate df tcol X /\ incl X L /\ deep 0 X) (visited st1)).
    { change (visited st1 = new) in Ev. rewrite Ev. eapply Forall_impl; [|exact Fn]. intros X (_ & H). exact H. }
    unfold fit_result. destruct (bc_write c).
    - split; [apply (inv_same st1); auto|]. split; [exact FV|]. split; [exists e0, k; split; auto; cbn [bs_selected length]; destruct (value_eq _ _ _); lia|]. cbn [bs_file]. reflexivity.
    - split; [apply (inv_same st1); auto|]. split; [exact FV|]. split; [exists e0, k; split; auto; cbn [bs_selected length]; destruct (value_eq _ _ _); lia|]. discriminate.
  Qed.
End Search.
