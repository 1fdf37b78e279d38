(** Theorems C43, C44, C59: IDSD. *)
From Verif Require Import SDMapProofs OrderFacts Properties_SDMap Properties_Core IDSDSpec IDSDTop IDSDProofs IDSDFit.
From Coq Require Import QArith Lia Permutation.
Open Scope string_scope.
Open Scope list_scope.
Open Scope nat_scope.

(** * C43: the list of the best subgroups *)
(** [x] is at least as good as [y]: a greater rank, or the same rank and an odds ratio that is not smaller. *)
Definition at_least (x y : ientry) : Prop :=
  ie_rank y < ie_rank x \/ (ie_rank x = ie_rank y /\ xle (cr_or (ie_cred y)) (cr_or (ie_cred x)) = true).
(** Patterns that are redundant: one of them contains the other. *)
Definition nested (X Y : list selector) : Prop := incl X Y \/ incl Y X.

Lemma ge_spec : forall x y, real_or x -> real_or y -> (entry_ge x y <-> at_least x y).
Proof.
  intros x y Hx Hy. unfold entry_ge, at_least. rewrite key_nlt. unfold ie_key. cbn [fst snd]. unfold real_or in *.
  split; (intros [H|[H1 H2]]; [left; auto|right; split; auto]); [apply xlt_nan in H2; auto|apply xlt_nan; auto].
Qed.
Lemma update_perm : forall c top e, exists rest, Permutation (e :: top) (top_k_update c top e ++ rest).
Proof.
  intros c top e. rewrite update_eq. destruct (fullworse c top e); [exists [e]; apply Permutation_cons_append|].
  assert (P : Permutation top (kept_of c top e ++ filter (replaces c e) top)).
  { unfold kept_of. clear. induction top as [|x l IH]; [constructor|]. cbn [filter]. destruct (replaces c e x); cbn [negb app]; [apply Permutation_cons_app; auto|constructor; auto]. }
  destruct (_ || _).
  - assert (Q : Permutation (e :: top) (placed c top e ++ filter (replaces c e) top)).
    { eapply perm_trans; [apply perm_skip; exact P|]. change (e :: kept_of c top e ++ filter (replaces c e) top) with ((e :: kept_of c top e) ++ filter (replaces c e) top). apply Permutation_app_tail.
      eapply perm_trans; [apply Permutation_cons_append|]. apply sort_by_perm. }
    destruct (ic_num c <? length (placed c top e)) eqn:L; [|eauto]. apply Nat.ltb_lt in L.
    assert (NE : placed c top e <> []) by (intros E; rewrite E in L; cbn in L; lia). destruct (exists_last NE) as (l & x & E). rewrite E in *. rewrite removelast_last. exists (x :: filter (replaces c e) top).
    eapply perm_trans; [exact Q|]. rewrite <- app_assoc. reflexivity.
  - exists (e :: filter (replaces c e) top). apply Permutation_cons_app. exact P.
Qed.
Lemma updates_perm : forall c es top, exists rest, Permutation (top ++ es) (fold_left (top_k_update c) es top ++ rest).
Proof.
  intros c es. induction es as [|e es IH]; intros top; cbn [fold_left]; [exists []; reflexivity|]. destruct (update_perm c top e) as (r1 & P1). destruct (IH (top_k_update c top e)) as (r2 & P2).
  exists (r2 ++ r1). eapply perm_trans; [apply Permutation_sym, Permutation_middle|]. change (e :: top ++ es) with ((e :: top) ++ es). eapply perm_trans; [apply Permutation_app_tail; exact P1|].
  rewrite app_assoc. eapply perm_trans; [|apply Permutation_app_tail; exact P2]. rewrite <- !app_assoc. apply Permutation_app_head, Permutation_app_comm.
Qed.
Lemma filter_perm_length : forall {A} (f : A -> bool) l l', Permutation l l' -> length (filter f l) = length (filter f l').
Proof. intros A f l l' P. induction P; cbn; auto; try (destruct (f x); cbn; auto); try (destruct (f y); cbn; auto). congruence. Qed.
Lemma filter_all_length : forall {A} (f : A -> bool) l, (forall x, In x l -> f x = true) -> filter f l = l.
Proof. intros A f l. induction l as [|x l IH]; intros H; cbn; [reflexivity|]. rewrite (H x) by (left; auto). f_equal. apply IH. intros; apply H; right; auto. Qed.

(** Offering the entries [es] one after the other to an empty list: at most [num_subgroups] entries remain, *)
Theorem C43_size : forall c es, 1 <= ic_num c -> Forall real_or es -> length (fold_left (top_k_update c) es []) <= ic_num c.
Proof. intros c es N F. apply (offers_spec c es []); auto. split; [cbn; lia|]. split; constructor. Qed.
(** in descending order of rank and odds ratio, *)
Theorem C43_sorted : forall c es, 1 <= ic_num c -> Forall real_or es -> StronglySorted at_least (fold_left (top_k_update c) es []).
Proof.
  intros c es N F. destruct (offers_spec c es [] N) as ((_ & S0 & R) & _); auto; [split; [cbn; lia|]; split; constructor|].
  induction S0 as [|x l Sl IH Fx]; constructor; inversion R; subst; auto. rewrite Forall_forall in *. intros y Hy. apply ge_spec; auto.
Qed.
(** all of them were offered (and each one once), *)
Theorem C43_members : forall c es, exists rest, Permutation es (fold_left (top_k_update c) es [] ++ rest).
Proof. intros c es. apply (updates_perm c es []). Qed.
(** for each offer the list has an entry that is at least as good, *)
Theorem C43_best : forall c es e, 1 <= ic_num c -> Forall real_or es -> In e es -> exists y, In y (fold_left (top_k_update c) es []) /\ at_least y e.
Proof.
  intros c es e N F H. destruct (offers_spec c es [] N) as ((_ & _ & R) & _ & D & _); auto; [split; [cbn; lia|]; split; constructor|].
  destruct (D e (or_intror H)) as (y & Hy & G). exists y. split; auto. rewrite Forall_forall in *. apply ge_spec; auto.
Qed.
(** and an offer stays when all the offers that are redundant with it are worse and there are not more than [num_subgroups] offers at
    least as good (itself among them). *)
Lemma kept_offer : forall c e x top, 1 <= ic_num c -> top_ok c top -> real_or x -> real_or e -> e = x \/ In e top ->
  (forall y, In y (x :: top) -> redundant (ic_hash c) (ie_pattern y) (ie_pattern e) = true -> y = e \/ key_lt (ie_key y) (ie_key e) = true) ->
  length (filter (fun y => negb (key_lt (ie_key y) (ie_key e))) (x :: top)) <= ic_num c -> In e (top_k_update c top x).
Proof.
  intros c e x top N T Fx Re Hx Hred Cnt. assert (T0 := T). destruct T as (Lt & St & Ft). rewrite Forall_forall in Ft. rewrite update_eq. destruct (fullworse c top x) eqn:W.
  - destruct Hx as [->|Hx]; auto. exfalso. unfold fullworse in W. destruct (rev top) as [|last k] eqn:R; [discriminate|]. apply andb_true_iff in W. destruct W as [W1 W2]. apply Nat.eqb_eq in W1. apply rev_last in R.
    assert (A : forall y, In y (x :: top) -> negb (key_lt (ie_key y) (ie_key x)) = true).
    { assert (Il : In last top) by (subst top; apply in_or_app; right; left; auto).
      intros y Hy. apply negb_true_iff. destruct Hy as [<-|Hy]; [apply key_irrefl|]. change (entry_ge y x). apply (entry_ge_trans y last x); auto; [|apply key_asym; auto].
      rewrite R in St, Hy. apply in_app_or in Hy. destruct Hy as [Hy|[<-|[]]]; [apply (SS_last _ _ _ St); auto|apply entry_ge_refl]. }
    rewrite filter_all_length in Cnt by exact A. cbn [length] in Cnt. lia.
  - assert (K : In e top -> In e (kept_of c top x)).
    { intros H. apply filter_In. split; auto. apply negb_true_iff. destruct (replaces c x e) eqn:E; auto. exfalso. apply andb_true_iff in E. destruct E as [E1 E2].
      destruct (Hred x) as [->|H2]; [left; auto|unfold redundant in *; rewrite orb_comm; auto|rewrite key_irrefl in E2; discriminate|rewrite (key_asym _ _ H2) in E2; discriminate]. }
    destruct (existsb (replaces c x) top || negb (existsb (resists c x) top)) eqn:B.
    + assert (Ip : In e (placed c top x)) by (unfold placed; apply sort_by_in, in_or_app; destruct Hx as [->|Hx]; [right; left; auto|left; auto]).
      destruct (ic_num c <? length (placed c top x)) eqn:L; auto. apply Nat.ltb_lt in L.
      assert (NE : placed c top x <> []) by (intros E; rewrite E in L; cbn in L; lia). destruct (exists_last NE) as (l & z & E).
      assert (Fk : forall y, In y (kept_of c top x ++ [x]) -> real_or y). { intros y Hy. apply in_app_or in Hy. destruct Hy as [Hy|[<-|[]]]; auto. apply filter_In in Hy. apply Ft; tauto. }
      assert (Sp : StronglySorted entry_ge (placed c top x)).
      { apply (sort_sorted_on real_or (fun x y => key_lt (ie_key y) (ie_key x))). - intros a b H. apply key_asym; auto. - intros a b d Pa Pb Pd H1 H2. apply (entry_ge_trans a b d); auto. - apply Forall_forall; auto. }
      assert (Cp : length (filter (fun y => negb (key_lt (ie_key y) (ie_key e))) (placed c top x)) <= ic_num c).
      { eapply Nat.le_trans; [|exact Cnt]. unfold placed. rewrite <- (filter_perm_length _ _ _ (sort_by_perm _ (kept_of c top x ++ [x]))), (filter_perm_length _ _ _ (Permutation_app_comm (kept_of c top x) [x])). cbn [app filter].
        assert (M : length (filter (fun y => negb (key_lt (ie_key y) (ie_key e))) (kept_of c top x)) <= length (filter (fun y => negb (key_lt (ie_key y) (ie_key e))) top)).
        { unfold kept_of. clear. induction top as [|a t IH]; cbn; auto. destruct (replaces c x a); cbn [negb]; [destruct (negb _); cbn; lia|cbn; destruct (negb _); cbn; lia]. }
        destruct (negb (key_lt (ie_key x) (ie_key e))); cbn [length]; lia. }
      rewrite E in *. rewrite removelast_last. apply in_app_or in Ip. destruct Ip as [Ip|[->|[]]]; auto. exfalso.
      rewrite filter_all_length in Cp; [lia|]. intros y Hy. apply negb_true_iff. apply in_app_or in Hy. destruct Hy as [Hy|[<-|[]]]; [apply (SS_last _ _ _ Sp); auto|apply key_irrefl].
    + apply orb_false_iff in B. destruct B as [B1 B2]. destruct Hx as [->|Hx]; auto. apply negb_false_iff in B2. apply existsb_exists in B2. destruct B2 as (y & Hy & E). apply andb_true_iff in E. destruct E as [E1 E2]. apply negb_true_iff in E2.
      destruct (Hred y (or_intror Hy) E1) as [->|H2]; [auto|rewrite H2 in E2; discriminate].
Qed.
Lemma keeps : forall c e es top, 1 <= ic_num c -> top_ok c top -> Forall real_or es -> real_or e ->
  In e top \/ In e es -> (forall x, In x (top ++ es) -> redundant (ic_hash c) (ie_pattern x) (ie_pattern e) = true -> x = e \/ key_lt (ie_key x) (ie_key e) = true) ->
  length (filter (fun x => negb (key_lt (ie_key x) (ie_key e))) (top ++ es)) <= ic_num c -> In e (fold_left (top_k_update c) es top).
Proof.
  intros c e es. induction es as [|x es IH]; intros top N T F Re Hin Hred Hcnt; cbn [fold_left]; [destruct Hin as [H|[]]; auto|].
  inversion F as [|? ? Fx Fes]; subst. destruct (update_spec c top x N T Fx) as (T' & B & _ & _). destruct (update_perm c top x) as (rest & P).
  apply IH; auto.
  - destruct Hin as [Hin|[Hin|Hin]]; [left|left|right; auto].
    all: assert (Hx : e = x \/ In e top) by (subst; auto); clear Hin.
    all: assert (Cnt : length (filter (fun y => negb (key_lt (ie_key y) (ie_key e))) (x :: top)) <= ic_num c)
      by (eapply Nat.le_trans; [|exact Hcnt]; rewrite (filter_perm_length _ _ _ (Permutation_sym (Permutation_middle top es x))), app_comm_cons, filter_app, app_length; lia).
    all: apply (kept_offer c e x top N T Fx Re Hx); auto; intros y Hy; apply Hred; apply in_or_app; destruct Hy as [<-|Hy]; [right; left; auto|left; auto].
  - intros y Hy. apply Hred. apply in_app_or in Hy. apply in_or_app. destruct Hy as [Hy|Hy]; [destruct (B y Hy) as [<-|H]; [right; left; auto|left; auto]|right; right; auto].
  - eapply Nat.le_trans; [|exact Hcnt]. rewrite (filter_perm_length _ _ _ (Permutation_sym (Permutation_middle top es x))), app_comm_cons, (filter_perm_length _ ((x :: top) ++ es) _ (Permutation_app_tail es P)), !filter_app, !app_length. lia.
Qed.
Theorem C43_keeps : forall c es e, 1 <= ic_num c -> Forall real_or es -> In e es ->
  (forall x, In x es -> redundant (ic_hash c) (ie_pattern x) (ie_pattern e) = true -> x = e \/ ~ at_least x e) ->
  (forall l rest, Permutation es (l ++ rest) -> (forall x, In x l -> at_least x e) -> length l <= ic_num c) ->
  In e (fold_left (top_k_update c) es []).
Proof.
  intros c es e N F H Hr Hc. rewrite Forall_forall in F. apply keeps; auto.
  - split; [cbn; lia|]. split; constructor.
  - apply Forall_forall; auto.
  - cbn [app]. intros x Hx R. destruct (Hr x Hx R) as [->|A]; auto. right. destruct (key_lt (ie_key x) (ie_key e)) eqn:E; auto. exfalso. apply A, ge_spec; auto.
  - cbn [app]. apply (Hc _ (filter (fun x => key_lt (ie_key x) (ie_key e)) es)).
    + clear. induction es as [|x l IH]; [constructor|]. cbn [filter]. destruct (key_lt _ _); cbn [negb app]; [apply Permutation_cons_app; auto|constructor; auto].
    + intros x Hx. apply filter_In in Hx. destruct Hx as [Hx K]. apply negb_true_iff in K. apply ge_spec; auto.
Qed.

(** * C44: the patterns that are evaluated *)
(** The patterns that the search must evaluate on the dataset [D] (after the reduction of the categories). *)
Definition is_candidate (c : idsd_config) (D : dataframe) (tcol : string) (X : list selector) : Prop :=
  description D tcol X /\ 1 <= coverage D X /\ length X <= max_size c D.
Lemma candidate_in : forall c D tcol X, categorical D -> (In X (candidates c D tcol) <-> is_candidate c D tcol X).
Proof.
  intros c D tcol X HC. pose proof (sels_nominal D tcol "" HC) as SN. pose proof (sels_nodup D tcol "" HC) as SD. unfold candidates. rewrite in_flat_map. split.
  - intros (k & Hk & H). apply in_seq in Hk. apply filter_In in H. destruct H as [H Hc]. apply in_map_iff in H. destruct H as (Z & <- & HZ). destruct (combos_sub _ _ _ HZ) as (I & L & ND). specialize (ND SD).
    assert (FZ : Forall nominal Z) by (apply Forall_forall; intros s Hs; rewrite Forall_forall in SN; auto). destruct (pattern_nominal Z ND FZ) as [P S0].
    split; [|split; [apply Nat.leb_le; auto|rewrite <- (Permutation_length P), L; lia]]. split; [|split; auto].
    + intros E. rewrite E in P. apply Permutation_sym, Permutation_nil in P. subst Z. cbn in L. lia.
    + intros s Hs. apply (Permutation_in s (Permutation_sym P)), I in Hs. rewrite Forall_forall in SN. destruct (SN s Hs) as [N1 N2]. split; auto. split; auto.
      apply (sels_in D tcol "" HC) in Hs. destruct Hs as (a & col & x & Hc1 & Hx & ->). cbn [s_attr]. apply cols_in in Hc1. destruct Hc1 as [Hin Hne]. split; auto. exists col. apply col_get_in; auto. apply HC.
  - intros (Ds & Cv & L). assert (I := description_sels D tcol "" HC X Ds Cv). destruct Ds as (NE & S0 & Hs).
    assert (FX : Forall nominal X) by (apply Forall_forall; intros s Is; destruct (Hs s Is) as (A & B & _); split; auto).
    assert (NX : NoDup X) by (apply sorted_nodup_nominal; auto).
    set (Z := filter (fun x => if in_dec selector_eq_dec x X then true else false) (idsd_selectors D tcol)).
    assert (MZ : forall s, In s Z <-> In s X). { intros s. unfold Z. rewrite filter_In. destruct (in_dec selector_eq_dec s X) as [i|i]; split; [auto|auto|intros [_ Hf]; discriminate|contradiction]. }
    assert (NZ : NoDup Z) by (apply NoDup_filter; auto). assert (FZ : Forall nominal Z) by (apply Forall_forall; intros s Is; apply MZ in Is; rewrite Forall_forall in FX; auto).
    assert (PZ : Permutation Z X) by (apply NoDup_Permutation; auto). destruct (pattern_nominal Z NZ FZ) as [P S1].
    assert (E : pattern_init Z = X).
    { apply sorted_unique; auto. - apply Forall_forall. intros s Is. apply (Permutation_in s (Permutation_sym P)) in Is. rewrite Forall_forall in FZ. auto.
      - intros s. rewrite <- MZ. split; [apply (Permutation_in s (Permutation_sym P))|apply (Permutation_in s P)]. }
    exists (length X). split; [apply in_seq; split; [destruct X; [congruence|cbn; lia]|lia]|]. apply filter_In. split; [|apply Nat.leb_le; auto]. rewrite <- E at 1. apply in_map. rewrite <- (Permutation_length PZ). apply combos_filter.
Qed.
Lemma nodup_flat_map : forall {A B} (f : A -> list B) l, NoDup l -> (forall a, In a l -> NoDup (f a)) -> (forall a b x, In a l -> In b l -> In x (f a) -> In x (f b) -> a = b) -> NoDup (flat_map f l).
Proof.
  intros A B f l ND H1 H2. induction ND as [|a l Na ND IH]; cbn [flat_map]; [constructor|].
  assert (G : forall u v : list B, NoDup u -> NoDup v -> (forall z, In z u -> In z v -> False) -> NoDup (u ++ v)).
  { clear. intros u v Nu Nv Dj. induction Nu as [|x l Nx N IHn]; cbn [app]; auto. constructor; [intros I; apply in_app_or in I; destruct I as [I|I]; auto; apply (Dj x); auto; left; auto|apply IHn; intros z Hz; apply Dj; right; auto]. }
  apply G; [apply H1; left; auto|apply IH; [intros; apply H1; right; auto|intros b d x Hb Hd; apply H2; right; auto]|].
  intros z Hz I. apply in_flat_map in I. destruct I as (b & Hb & Ib). assert (a = b) by (apply (H2 a b z); auto; [left; auto|right; auto]). subst. contradiction.
Qed.
Lemma candidates_nodup : forall c D tcol, categorical D -> NoDup (candidates c D tcol).
Proof.
  intros c D tcol HC. pose proof (sels_nominal D tcol "" HC) as SN. pose proof (sels_nodup D tcol "" HC) as SD.
  assert (K : forall k Z, In Z (combinations k (idsd_selectors D tcol)) -> Permutation Z (pattern_init Z) /\ length (pattern_init Z) = k).
  { intros k Z HZ. destruct (combos_sub _ _ _ HZ) as (I & L & ND). specialize (ND SD). assert (FZ : Forall nominal Z) by (apply Forall_forall; intros s Hs; rewrite Forall_forall in SN; auto).
    destruct (pattern_nominal Z ND FZ) as [P _]. split; auto. rewrite <- (Permutation_length P). auto. }
  apply nodup_flat_map; [apply seq_NoDup| |].
  - intros k _. apply NoDup_filter. assert (NC := combos_nodup k _ SD). assert (J : forall Z W, In Z (combinations k (idsd_selectors D tcol)) -> In W (combinations k (idsd_selectors D tcol)) -> pattern_init Z = pattern_init W -> Z = W).
    { intros Z W HZ HW E. destruct (K _ _ HZ) as [PZ _]. destruct (K _ _ HW) as [PW _]. rewrite (combos_is_filter _ _ _ SD HZ), (combos_is_filter _ _ _ SD HW). apply filter_ext_in. intros s _.
      assert (M : In s Z <-> In s W). { split; intros I; [apply (Permutation_in s (Permutation_sym PW)); rewrite <- E; apply (Permutation_in s PZ); auto|apply (Permutation_in s (Permutation_sym PZ)); rewrite E; apply (Permutation_in s PW); auto]. }
      destruct (in_dec selector_eq_dec s Z), (in_dec selector_eq_dec s W); tauto. }
    revert NC J. generalize (combinations k (idsd_selectors D tcol)) as l. clear. intros l ND J. induction ND as [|z l Nz ND IH]; cbn [map]; constructor; [|apply IH; intros; apply J; auto; right; auto].
    intros H. apply in_map_iff in H. destruct H as (w & E & Hw). assert (w = z) by (apply J; auto; [right; auto|left; auto]). subst. contradiction.
  - intros a b X _ _ Ha Hb. apply filter_In in Ha, Hb. destruct Ha as [Ha _], Hb as [Hb _]. apply in_map_iff in Ha, Hb. destruct Ha as (Z & <- & HZ), Hb as (W & E & HW).
    destruct (K _ _ HZ) as [_ L1]. destruct (K _ _ HW) as [_ L2]. congruence.
Qed.

(** The conditions of a successful fit: nominal dataset, target value in the target column, num_subgroups >= 1, and an object that is
    new or whose first stored selector belongs to the dataset or has as many rows (see C44_refit_refuted for other objects). *)
Definition idsd_input (c : idsd_config) (st : istate) (df : dataframe) (tcol tval : string) : Prop :=
  categorical df /\ (exists cells, col_get (df_cols df) tcol = Some cells /\ In (VStr tval) cells) /\ 1 <= ic_num c /\
  index_ok (is_app st) (idsd_selectors (reduce_categories (ic_cats c) df tcol) tcol) (df_n df).
Lemma entry_functional : forall c D tcol tval X e e', entry_of c D tcol tval X e -> entry_of c D tcol tval X e' -> e = e'.
Proof.
  intros c D tcol tval X [p k [a b d f g]] [p' k' [a' b' d' f' g']] (o & r & E1 & E2 & E3 & E4 & E5 & E6 & E7 & E8) (o' & r' & F1 & F2 & F3 & F4 & F5 & F6 & F7 & F8). cbn [ie_pattern ie_rank ie_cred cr_cov cr_or cr_p cr_abs cr_ratio] in *.
  rewrite E1 in F1. injection F1 as <-. rewrite E2 in F2. injection F2 as <-. assert (k = k').
  { destruct E4 as (A1 & A2 & A3), F4 as (B1 & B2 & B3). set (l := criteria c D tcol tval X o r) in *.
    assert (G : forall i j, i < j -> j <= length l -> firstn j l = repeat true j -> nth i l true = false -> False).
    { intros i j Hij Hj Hf Hn. assert (Q : nth i (firstn j l) true = nth i l true). { clear - Hij. clearbody l. revert i l Hij. induction j as [|j IH]; intros i l H; [lia|]. destruct l as [|y l]; [destruct i; reflexivity|]. destruct i; [reflexivity|]. cbn. apply IH. lia. }
      rewrite Hf, nth_repeat in Q. congruence. }
    destruct (Nat.lt_trichotomy k k') as [H|[H|H]]; auto; exfalso; [apply (G k k'); auto; apply A3; lia|apply (G k' k); auto; apply B3; lia]. }
  subst k' p p' a a' b b' d d'. rewrite <- F8 in E8. injection E8 as -> ->. reflexivity.
Qed.
Lemma exact_candidates : forall c st df tcol tval, idsd_input c st df tcol tval ->
  let D := reduce_categories (ic_cats c) df tcol in
  exists st' es, idsd_fit c st df tcol tval = Ok st' /\ Forall2 (entry_of c D tcol tval) (candidates c D tcol) es /\ Forall real_or es /\ is_top st' = fold_left (top_k_update c) es [].
Proof.
  intros c st df tcol tval (HC & (cells & Hcol & Hval) & HN & HI) D. assert (CD : categorical D) by (apply reduce_categorical; auto).
  destruct (fit_exact c df tcol tval HC cells Hcol Hval HN st HI) as (st' & E & T & _ & _). fold D in T.
  assert (FE : forall X, In X (candidates c D tcol) -> entry_of c D tcol tval X (entry_fun c D (fit_env c df tcol tval st) X) /\ real_or (entry_fun c D (fit_env c df tcol tval st) X)).
  { intros X HX. apply candidate_in in HX; auto. destruct HX as (Ds & Cv & _). assert (I := description_sels D tcol "" CD X Ds Cv).
    destruct (fun_entry c D tcol tval (fit_env c df tcol tval st)) with (X := X) as (_ & A & B & _); auto.
    - exact (rows_pos c df tcol tval HC cells Hcol Hval HN).
    - intros s Hs. apply (appearance_sel D tcol "" CD); auto.
    - intros N. apply (appearance_index D tcol CD); auto. unfold D. rewrite reduce_n. auto. }
  exists st', (map (entry_fun c D (fit_env c df tcol tval st)) (candidates c D tcol)). split; auto. split; [|split; auto].
  - revert FE. generalize (candidates c D tcol) as l. intros l FE. induction l as [|X l IH]; cbn [map]; constructor; [apply FE; left; auto|apply IH; intros; apply FE; right; auto].
  - apply Forall_forall. intros e He. apply in_map_iff in He. destruct He as (X & <- & HX). apply FE; auto.
Qed.
(** A fit evaluates every pattern over the non-target columns with some row and at most max_complexity selectors exactly once, by
    increasing size, each one with the measures of its rows, and offers them in that order to the list of the best subgroups. *)
Theorem C44_exact : forall c st df tcol tval, idsd_input c st df tcol tval ->
  let D := reduce_categories (ic_cats c) df tcol in
  exists st' ps es, idsd_fit c st df tcol tval = Ok st' /\
    NoDup ps /\ (forall X, In X ps <-> is_candidate c D tcol X) /\ StronglySorted (fun X Y : list selector => length X <= length Y) ps /\
    Forall2 (entry_of c D tcol tval) ps es /\ Forall real_or es /\ is_top st' = fold_left (top_k_update c) es [].
Proof.
  intros c st df tcol tval HI D. destruct (exact_candidates c st df tcol tval HI) as (st' & es & E & F & R & T). fold D in F. assert (CD : categorical D) by (apply reduce_categorical, HI).
  exists st', (candidates c D tcol), es. split; auto. split; [apply candidates_nodup; auto|]. split; [intros; apply candidate_in; auto|]. split; [|split; auto].
  assert (LE : forall k X, In X (filter (fun X => 1 <=? coverage D X) (map pattern_init (combinations k (idsd_selectors D tcol)))) -> length X = k).
    { intros k X H. apply filter_In in H. destruct H as [H _]. apply in_map_iff in H. destruct H as (Z & <- & HZ). destruct (combos_sub _ _ _ HZ) as (I & L & ND). specialize (ND (sels_nodup D tcol "" CD)).
      pose proof (sels_nominal D tcol "" CD) as SN. assert (FZ : Forall nominal Z) by (apply Forall_forall; intros s Hs; rewrite Forall_forall in SN; auto). destruct (pattern_nominal Z ND FZ) as [P _]. rewrite <- (Permutation_length P); auto. }
    unfold candidates. generalize (max_size c D) as m. generalize 1 at 2 as a. intros a m. revert a. induction m as [|m IH]; intros a; cbn [seq flat_map]; [constructor|].
    assert (G : forall (u v : list (list selector)), StronglySorted (fun X Y : list selector => length X <= length Y) v -> (forall x, In x u -> length x = a) -> (forall x, In x v -> a <= length x) -> StronglySorted (fun X Y : list selector => length X <= length Y) (u ++ v)).
    { clear. intros u v Sv Hu Hv. induction u as [|x u IHu]; cbn [app]; auto. constructor; [apply IHu; intros; apply Hu; right; auto|]. apply Forall_forall. intros y Hy. rewrite (Hu x) by (left; auto). apply in_app_or in Hy. destruct Hy as [Hy|Hy]; [rewrite (Hu y) by (right; auto); lia|auto]. }
    apply G; [apply IH|intros x Hx; apply LE in Hx; auto|]. intros x Hx. apply in_flat_map in Hx. destruct Hx as (k & Hk & H). apply in_seq in Hk. apply LE in H. lia.
Qed.
(** The subgroups of the final list have pairwise different descriptions. *)
Lemma forall2_patterns : forall c D tcol tval ps es, Forall2 (entry_of c D tcol tval) ps es -> map ie_pattern es = ps.
Proof. intros c D tcol tval ps es F. induction F as [|X e ps es H F IH]; cbn [map]; [reflexivity|]. f_equal; auto. destruct H as (o & r & _ & _ & H & _). auto. Qed.
Lemma forall2_in : forall {A B} (R : A -> B -> Prop) l m, Forall2 R l m -> (forall y, In y m -> exists x, In x l /\ R x y) /\ (forall x, In x l -> exists y, In y m /\ R x y).
Proof.
  intros A B R l m F. induction F as [|x y l m H F [IH1 IH2]]; [split; intros z []|]. split.
  - intros z [<-|Hz]; [exists x; split; auto; left; auto|destruct (IH1 z Hz) as (w & Hw & K); exists w; split; auto; right; auto].
  - intros z [<-|Hz]; [exists y; split; auto; left; auto|destruct (IH2 z Hz) as (w & Hw & K); exists w; split; auto; right; auto].
Qed.
Theorem C44_distinct : forall c st df tcol tval st', idsd_input c st df tcol tval -> idsd_fit c st df tcol tval = Ok st' ->
  NoDup (map ie_pattern (is_top st')).
Proof.
  intros c st df tcol tval st' H E. destruct (C44_exact c st df tcol tval H) as (st1 & ps & es & E1 & ND & _ & _ & F & _ & T). rewrite E in E1. injection E1 as <-. rewrite T.
  destruct (C43_members c es) as (rest & P). apply forall2_patterns in F. rewrite <- F in ND. apply (Permutation_NoDup (Permutation_map ie_pattern P)) in ND. rewrite map_app in ND.
  clear - ND. revert ND. generalize (map ie_pattern (fold_left (top_k_update c) es [])) (map ie_pattern rest). intros u v ND. induction u as [|x u IH]; constructor; inversion ND; subst; auto. intros I. apply H1. apply in_or_app; auto.
Qed.
(** After a fit: at most num_subgroups entries, in descending order; each one is a candidate with the measures of its rows; and every
    candidate has an entry at least as good in the list (so the first entry is the best candidate). *)
Theorem C43_fit : forall c st df tcol tval st', idsd_input c st df tcol tval -> idsd_fit c st df tcol tval = Ok st' ->
  let D := reduce_categories (ic_cats c) df tcol in
  length (is_top st') <= ic_num c /\ StronglySorted at_least (is_top st') /\
  (forall e, In e (is_top st') -> is_candidate c D tcol (ie_pattern e) /\ entry_of c D tcol tval (ie_pattern e) e) /\
  (forall X e, is_candidate c D tcol X -> entry_of c D tcol tval X e -> exists y, In y (is_top st') /\ at_least y e).
Proof.
  intros c st df tcol tval st' H E D. destruct (C44_exact c st df tcol tval H) as (st1 & ps & es & E1 & ND & M & _ & F & R & T). rewrite E in E1. injection E1 as <-. fold D in M, F. assert (HN : 1 <= ic_num c) by apply H. rewrite T.
  split; [apply C43_size; auto|]. split; [apply C43_sorted; auto|]. destruct (forall2_in _ _ _ F) as [F1 F2]. split.
  - intros e He. destruct (C43_members c es) as (rest & P). assert (I : In e es) by (apply (Permutation_in e (Permutation_sym P)), in_or_app; auto). destruct (F1 e I) as (X & HX & K).
    assert (EX : ie_pattern e = X) by (destruct K as (o & r & _ & _ & K & _); auto). rewrite EX. split; auto. apply M; auto.
  - intros X e HX K. apply M in HX. destruct (F2 X HX) as (e' & He & K'). rewrite (entry_functional _ _ _ _ _ _ _ K K'). apply C43_best; auto.
Qed.
Lemma typed_nominal : forall l, Forall nominal l -> typed_alike l.
Proof.
  intros l N. rewrite Forall_forall in N. split.
  - intros s Is. destruct (N s Is) as [_ X]. destruct (s_val s); try discriminate. exact I.
  - intros s t Is It _. destruct (N s Is) as [_ X]. destruct (N t It) as [_ Y]. destruct (s_val s); try discriminate. destruct (s_val t); try discriminate. exact I.
Qed.
Lemma redundant_nested : forall h p q, Forall nominal p -> Forall nominal q -> sorted_strictly p -> sorted_strictly q -> (redundant h p q = true <-> nested p q).
Proof.
  intros h p q Np Nq Sp Sq. unfold redundant, nested. rewrite orb_true_iff.
  rewrite !C12_refinement_is_inclusion_typed; auto using nominal_homogeneous; try (apply typed_nominal, Forall_app; auto). tauto.
Qed.
(** One offer.  An entry that is nested with the offer and strictly worse leaves the list (unless the list is full of entries better than the
    offer); *)
Definition written (e : ientry) : Prop := Forall nominal (ie_pattern e) /\ sorted_strictly (ie_pattern e).
Definition full_of_better (c : idsd_config) (top : list ientry) (e : ientry) : Prop :=
  length top = ic_num c /\ exists l y, top = l ++ [y] /\ ~ at_least e y.
Lemma fullworse_spec : forall c top e, Forall real_or top -> real_or e -> (fullworse c top e = true <-> full_of_better c top e).
Proof.
  intros c top e F R. unfold fullworse, full_of_better. destruct (rev top) as [|y k] eqn:E.
  - split; [discriminate|]. intros (_ & l & y & -> & _). rewrite rev_app_distr in E. discriminate.
  - apply rev_last in E. assert (Ry : real_or y) by (rewrite Forall_forall in F; apply F; rewrite E; apply in_or_app; right; left; auto). rewrite andb_true_iff, Nat.eqb_eq. split.
    + intros [L K]. split; auto. exists (rev k), y. split; auto. intros G. apply ge_spec in G; auto. unfold entry_ge in G. congruence.
    + intros (L & l & z & E2 & G). split; auto. rewrite E in E2. apply app_inj_tail in E2. destruct E2 as [_ ->]. destruct (key_lt (ie_key e) (ie_key z)) eqn:K; auto. exfalso. apply G, ge_spec; auto.
Qed.
Theorem C43_evicts : forall c top e s, Forall real_or top -> real_or e -> Forall written top -> written e ->
  ~ full_of_better c top e -> In s top -> nested (ie_pattern s) (ie_pattern e) -> ~ at_least s e -> ~ In s (top_k_update c top e).
Proof.
  intros c top e s F R Wt (Ne & Se) NF Hs N NA H. assert (Fs := F). rewrite Forall_forall in Fs. assert (Ws := Wt). rewrite Forall_forall in Ws. destruct (Ws s Hs) as [Ns Ss].
  assert (K : key_lt (ie_key s) (ie_key e) = true) by (destruct (key_lt (ie_key s) (ie_key e)) eqn:K; auto; exfalso; apply NA, ge_spec; auto).
  assert (Rp : replaces c e s = true) by (unfold replaces; rewrite K, andb_true_r; apply redundant_nested; auto).
  assert (NW : fullworse c top e = false) by (apply not_true_iff_false; rewrite (fullworse_spec c top e F R); auto).
  assert (NK : ~ In s (kept_of c top e)) by (intros I; apply filter_In in I; destruct I as [_ I]; rewrite Rp in I; discriminate).
  assert (NP : ~ In s (placed c top e)).
  { intros I. apply sort_by_in, in_app_or in I. destruct I as [I|[<-|[]]]; auto. rewrite key_irrefl in K. discriminate. }
  rewrite update_eq, NW in H. destruct (_ || _); [|auto]. destruct (_ <? _); [apply removelast_incl in H|]; auto.
Qed.
(** an offer that is nested with an entry at least as good, and with no entry strictly worse, does not change the list; *)
Theorem C43_rejects : forall c top e s, Forall real_or top -> real_or e -> Forall written top -> written e ->
  In s top -> nested (ie_pattern s) (ie_pattern e) -> (forall x, In x top -> nested (ie_pattern x) (ie_pattern e) -> at_least x e) -> top_k_update c top e = top.
Proof.
  intros c top e s F R Wt (Ne & Se) Hs N NA. rewrite Forall_forall in F, Wt. assert (G : forall x, In x top -> replaces c e x = false).
  { intros x Hx. apply not_true_iff_false. unfold replaces. rewrite andb_true_iff. intros [A B]. destruct (Wt x Hx) as [Nx Sx]. apply redundant_nested in A; auto. apply NA in A; auto. apply ge_spec in A; auto. unfold entry_ge in A. congruence. }
  assert (K : kept_of c top e = top) by (apply filter_all_length; intros x Hx; rewrite G; auto).
  assert (E1 : existsb (replaces c e) top = false) by (apply not_true_iff_false; intros E; apply existsb_exists in E; destruct E as (x & Hx & E); rewrite G in E; auto; discriminate).
  assert (E2 : existsb (resists c e) top = true).
  { apply existsb_exists. exists s. split; auto. unfold resists. destruct (Wt s Hs) as [Ns Ss]. rewrite (proj2 (redundant_nested (ic_hash c) _ _ Ns Ne Ss Se) N). apply NA in N; auto. apply ge_spec in N; auto. unfold entry_ge in N. rewrite N. reflexivity. }
  rewrite update_eq, E1, E2, K. destruct (fullworse c top e); reflexivity.
Qed.
(** an offer that is nested with no entry enters the list if it is not full. *)
Theorem C43_enters : forall c top e, Forall real_or top -> real_or e -> Forall written top -> written e ->
  (forall x, In x top -> ~ nested (ie_pattern x) (ie_pattern e)) -> length top < ic_num c -> Permutation (top_k_update c top e) (e :: top).
Proof.
  intros c top e F R Wt (Ne & Se) NN L. rewrite Forall_forall in Wt. assert (G : forall x, In x top -> redundant (ic_hash c) (ie_pattern x) (ie_pattern e) = false).
  { intros x Hx. apply not_true_iff_false. intros A. destruct (Wt x Hx) as [Nx Sx]. apply redundant_nested in A; auto. apply (NN x Hx A). }
  assert (K : kept_of c top e = top) by (apply filter_all_length; intros x Hx; unfold replaces; rewrite G; auto).
  assert (E2 : existsb (resists c e) top = false) by (apply not_true_iff_false; intros E; apply existsb_exists in E; destruct E as (x & Hx & E); unfold resists in E; rewrite G in E; auto; discriminate).
  assert (NW : fullworse c top e = false). { apply not_true_iff_false. rewrite (fullworse_spec c top e F R). intros [Q _]. lia. }
  assert (P : Permutation (placed c top e) (e :: top)). { unfold placed. rewrite K. eapply Permutation_trans; [apply Permutation_sym, sort_by_perm|]. apply Permutation_sym, Permutation_cons_append. }
  rewrite update_eq, NW, E2, orb_true_r. assert (Lp := Permutation_length P). cbn [length] in Lp. assert (B : (ic_num c <? length (placed c top e)) = false) by (apply Nat.ltb_ge; lia). rewrite B. exact P.
Qed.
Lemma candidate_nominal : forall c D tcol X, is_candidate c D tcol X -> Forall nominal X /\ sorted_strictly X.
Proof. intros c D tcol X ((_ & S0 & H) & _). split; auto. apply Forall_forall. intros s Hs. destruct (H s Hs) as (A & B & _). split; auto. Qed.
(** A candidate is reported if every candidate nested with it is strictly worse and there are not more than num_subgroups candidates
    (itself included) at least as good. *)
Theorem C43_reported : forall c st df tcol tval st' X e, idsd_input c st df tcol tval -> idsd_fit c st df tcol tval = Ok st' ->
  let D := reduce_categories (ic_cats c) df tcol in
  is_candidate c D tcol X -> entry_of c D tcol tval X e ->
  (forall Y e', is_candidate c D tcol Y -> Y <> X -> nested X Y -> entry_of c D tcol tval Y e' -> ~ at_least e' e) ->
  (forall l, NoDup l -> (forall Y, In Y l -> is_candidate c D tcol Y /\ exists e', entry_of c D tcol tval Y e' /\ at_least e' e) -> length l <= ic_num c) ->
  In e (is_top st').
Proof.
  intros c st df tcol tval st' X e H E D HX He Hn Hc. destruct (C44_exact c st df tcol tval H) as (st1 & ps & es & E1 & ND & M & _ & F & R & T). rewrite E in E1. injection E1 as <-. fold D in M, F. assert (HN : 1 <= ic_num c) by apply H. rewrite T.
  destruct (forall2_in _ _ _ F) as [F1 F2]. assert (I : In e es). { destruct (F2 X) as (e' & I & K); [apply M; auto|]. rewrite (entry_functional _ _ _ _ _ _ _ He K). auto. }
  assert (PX : ie_pattern e = X) by (destruct He as (o & r & _ & _ & K & _); auto).
  apply C43_keeps; auto.
  - intros x Hx Rx. destruct (F1 x Hx) as (Y & HY & K). apply M in HY. assert (PY : ie_pattern x = Y) by (destruct K as (o & r & _ & _ & K & _); auto). rewrite PX, PY in Rx.
    destruct (list_eq_dec selector_eq_dec Y X) as [->|NE]; [left; apply (entry_functional _ _ _ _ _ _ _ K He)|right]. apply (Hn Y x); auto.
    destruct (candidate_nominal _ _ _ _ HX). destruct (candidate_nominal _ _ _ _ HY). apply redundant_nested in Rx; auto. destruct Rx; [right|left]; auto.
  - intros l rest P A. rewrite <- (map_length ie_pattern l). apply Hc.
    + rewrite <- (forall2_patterns _ _ _ _ _ _ F) in ND. apply (Permutation_NoDup (Permutation_map ie_pattern P)) in ND. rewrite map_app in ND.
      clear - ND. revert ND. generalize (map ie_pattern l) (map ie_pattern rest). intros u v ND. induction u as [|x u IH]; constructor; inversion ND; subst; auto. intros I. apply H1. apply in_or_app; auto.
    + intros Y HY. apply in_map_iff in HY. destruct HY as (x & <- & Hx). assert (Ix : In x es) by (apply (Permutation_in x (Permutation_sym P)), in_or_app; auto). destruct (F1 x Ix) as (Z & HZ & K).
      assert (PZ : ie_pattern x = Z) by (destruct K as (o & r & _ & _ & K & _); auto). rewrite PZ. split; [apply M; auto|]. exists x. auto.
Qed.
(** Candidates never use an attribute twice. *)
Theorem C44_attributes : forall c D tcol X, categorical D -> is_candidate c D tcol X -> NoDup (map s_attr X).
Proof.
  intros c D tcol X HC H. destruct (candidate_nominal _ _ _ _ H) as [N S0]. apply (distinct_attributes D HC); auto; [apply sorted_nodup_nominal; auto|apply H].
Qed.
(** The counters of a fit: visited - selected does not decrease (so unselected_subgroups is not negative on a new object), and visited
    grows at most by the number of combinations of at most max_complexity selectors. *)
Theorem C44_counters : forall c st df tcol tval st', idsd_input c st df tcol tval -> idsd_fit c st df tcol tval = Ok st' ->
  let D := reduce_categories (ic_cats c) df tcol in
  idsd_selected st' = Z.of_nat (length (is_top st')) /\ (is_visited st <= idsd_unselected st')%Z /\
  (idsd_selected st' + idsd_unselected st' <= is_visited st + Z.of_nat (length (flat_map (fun k => combinations k (idsd_selectors D tcol)) (seq 1 (max_size c D)))))%Z.
Proof.
  intros c st df tcol tval st' (HC & (cells & Hcol & Hval) & HN & HI) E D. destruct (fit_exact c df tcol tval HC cells Hcol Hval HN st HI) as (st1 & E1 & _ & _ & A & B). rewrite E in E1. injection E1 as <-.
  unfold idsd_selected, idsd_unselected, D. split; [reflexivity|]. split; lia.
Qed.
(** Fitting an object again on datasets with the same number of rows gives the list that a new object gives. *)
Theorem C44_refit : forall c st df1 tcol1 tval1 st1 df2 tcol2 tval2 st2 st2', idsd_input c idsd_new df2 tcol2 tval2 ->
  idsd_input c st df1 tcol1 tval1 -> idsd_fit c st df1 tcol1 tval1 = Ok st1 -> is_app st = [] \/ first_index (is_app st) = df_n df1 -> df_n df1 = df_n df2 ->
  idsd_fit c st1 df2 tcol2 tval2 = Ok st2 -> idsd_fit c idsd_new df2 tcol2 tval2 = Ok st2' -> is_top st2 = is_top st2'.
Proof.
  intros c st df1 tcol1 tval1 st1 df2 tcol2 tval2 st2 st2' H2 (HC & (cells & Hcol & Hval) & HN & HI) E1 Hst En E2 E2'. set (D1 := reduce_categories (ic_cats c) df1 tcol1) in *.
  destruct (fit_exact c df1 tcol1 tval1 HC cells Hcol Hval HN st HI) as (st1' & E1' & _ & A & _). rewrite E1 in E1'. injection E1' as <-. fold D1 in A.
  assert (IX : idsd_input c st1 df2 tcol2 tval2).
  { destruct H2 as (A1 & A2 & A3 & _). split; auto. split; auto. split; auto. rewrite A. assert (CD : categorical D1) by (apply reduce_categorical; auto).
    assert (G : idsd_appearances D1 tcol1 (is_app st) = [] \/ first_index (idsd_appearances D1 tcol1 (is_app st)) = df_n df2).
    { destruct (idsd_selectors D1 tcol1) as [|s l] eqn:ES.
      - rewrite appearances_set_all. assert (K := masks_keys D1 tcol1). rewrite ES in K. destruct (selector_masks (other_columns D1 tcol1)); [|discriminate]. cbn [set_all fold_left]. destruct Hst as [->| ->]; auto.
      - right. rewrite <- En. rewrite <- (reduce_n (ic_cats c) df1 tcol1). apply appearance_index; auto; [|fold D1; rewrite ES; discriminate]. rewrite reduce_n. fold D1. rewrite ES. exact HI. }
    unfold index_ok. destruct (idsd_appearances D1 tcol1 (is_app st)) as [|[k a] d]; auto. destruct G as [G|G]; [discriminate|]. left. exact G. }
  destruct (exact_candidates _ _ _ _ _ IX) as (x & es & Ex & F1 & _ & T1). destruct (exact_candidates _ _ _ _ _ H2) as (y & es' & Ey & F2 & _ & T2).
  rewrite E2 in Ex. injection Ex as <-. rewrite E2' in Ey. injection Ey as <-. rewrite T1, T2. f_equal. clear - F1 F2. revert es' F2. induction F1 as [|X e l es H F IH]; intros es' F2; inversion F2 as [|? e' ? es2 H' F']; subst; auto.
  f_equal; auto. apply (entry_functional _ _ _ _ _ _ _ H H').
Qed.

(** The errors: the types of the columns are checked first, then the target. *)
Theorem C44_errors : forall c st df tcol tval,
  (all_nominal df = false -> idsd_fit c st df tcol tval = Err DatasetAttributeTypeError) /\
  (all_nominal df = true -> (forall cells, col_get (df_cols df) tcol = Some cells -> existsb (fun x => py_eq x (VStr tval)) cells = false) ->
   idsd_fit c st df tcol tval = Err ValueError).
Proof.
  intros c st df tcol tval. unfold idsd_fit. split; [intros ->; reflexivity|]. intros -> H. cbn [negb]. destruct (col_get (df_cols df) tcol) as [cells|]; [rewrite (H cells eq_refl)|]; reflexivity.
Qed.
(** pruned_subgroups stays as it was when max_complexity is -1. *)
Lemma visit_pruned : forall c v k p app st r, ic_max c = (-1)%Z -> visit_node c v k p app st = Ok r -> is_pruned (fst r) = is_pruned st.
Proof.
  intros c v k p app st r M E. unfold visit_node in E. destruct (coverage_value _ _) as [cov|]; [|discriminate]. cbn [bind] in E. rewrite M in E.
  replace (Z.of_nat k =? -1)%Z with false in E by (symmetry; apply Z.eqb_neq; lia).
  destruct (Qeq_bool cov 0); [injection E as <-; reflexivity|]. match type of E with (if ?b then _ else _) = _ => destruct b end; [injection E as <-; reflexivity|].
  destruct (length p =? k); [|injection E as <-; reflexivity]. destruct (idsd_entry c v p app); [|discriminate]. injection E as <-. reflexivity.
Qed.
Lemma children_pruned : forall c v k sels p app st st', ic_max c = (-1)%Z -> grow_children c v k sels p app st = Ok st' -> is_pruned st' = is_pruned st.
Proof.
  intros c v k sels. induction sels as [|s sels IH]; intros p app st st' M E; cbn [grow_children] in E; [injection E as <-; reflexivity|].
  destruct (appearance (en_app v) s) as [a|]; [|discriminate]. cbn [bind] in E. destruct (visit_node _ _ _ _ _ _) as [r|] eqn:V; [|discriminate]. cbn [bind] in E. apply visit_pruned in V; auto.
  destruct (snd r); [destruct (grow_children c v k sels (add_selector (pattern_copy p) s) _ _) as [st1|] eqn:G; [|discriminate]; apply IH in G; auto|]; cbn [bind] in E; apply IH in E; auto; congruence.
Qed.
Theorem C44_pruned_uncounted : forall c st df tcol tval st', ic_max c = (-1)%Z -> idsd_fit c st df tcol tval = Ok st' -> is_pruned st' = is_pruned st.
Proof.
  intros c st df tcol tval st' M E. unfold idsd_fit in E. destruct (negb _); [discriminate|]. destruct (col_get _ _); [|discriminate]. destruct (negb _); [discriminate|]. destruct (target_mask _ _ _); [|discriminate]. cbn [bind] in E. cbv zeta in E.
  match type of E with fold_res ?f ?l ?s = _ => assert (G : forall ks s0, fold_res f ks s0 = Ok st' -> is_pruned st' = is_pruned s0) end.
  { induction ks as [|k ks IH]; intros s0 H; cbn [fold_res] in H; [injection H as <-; reflexivity|].
    match type of H with (do _ <- ?t; _) = _ => destruct t as [s1|] eqn:G1; [|discriminate] end. cbn [bind] in H. apply IH in H. rewrite H. unfold grow_tree in G1. destruct (visit_node _ _ _ _ _ _) as [r|] eqn:V; [|discriminate]. cbn [bind] in G1.
    apply visit_pruned in V; auto. destruct (snd r); [apply children_pruned in G1; auto; congruence|injection G1 as <-; auto]. }
  apply G in E. exact E.
Qed.

(** * Examples and refutations *)
(** Thresholds: coverage [cov], odds ratio 0, p-value 1/2, contributions 0 and 5; the p-value of all the patterns is [pv]. *)
Definition ex_config (num : nat) (cats : Z) (cov : Q) (pv : xnum) : idsd_config := IdsdConfig num cats (-1) cov 0 (1 # 2) 0 5 (fun _ _ _ _ => pv) (fun _ => 0%Z).
Definition ex_rows (l : list (string * string * string)) : dataframe :=
  DF (length l) [("a", map (fun r => VStr (fst (fst r))) l); ("b", map (fun r => VStr (snd (fst r))) l); ("class", map (fun r => VStr (snd r)) l)].
Definition ex_data : dataframe := ex_rows [("x", "u", "p"); ("x", "v", "p"); ("y", "u", "n"); ("y", "v", "n"); ("y", "u", "p")].
Lemma ex_rows_ok : forall l, categorical (ex_rows l).
Proof.
  intros l. split; [|split].
  - intros a c H. cbn in H. destruct H as [H|[H|[H|[]]]]; injection H as <- <-; cbn [df_n ex_rows]; rewrite map_length; reflexivity.
  - repeat constructor; cbn; intuition discriminate.
  - intros a c v H J. cbn in H. destruct H as [H|[H|[H|[]]]]; injection H as <- <-; apply in_map_iff in J; destruct J as (r & <- & _); reflexivity.
Qed.
Lemma ex_input : forall num cats cov pv, 1 <= num -> idsd_input (ex_config num cats cov pv) idsd_new ex_data "class" "p".
Proof. intros. split; [apply ex_rows_ok|]. split; [eexists; split; [reflexivity|left; reflexivity]|]. split; [exact H|exact I]. Qed.
Definition top_patterns (r : res istate) : list (list (string * value) * nat) :=
  match r with Ok st => map (fun e => (map (fun s => (s_attr s, s_val s)) (ie_pattern e), ie_rank e)) (is_top st) | Err _ => [] end.
Example C43_nonvacuous : idsd_input (ex_config 3 (-1) 0 (XFin 0)) idsd_new ex_data "class" "p" /\
  top_patterns (idsd_fit (ex_config 3 (-1) 0 (XFin 0)) idsd_new ex_data "class" "p") =
  [([("a", VStr "x")], 5); ([("a", VStr "x"); ("b", VStr "u")], 5); ([("a", VStr "x"); ("b", VStr "v")], 5)].
Proof. split; [apply ex_input; lia|vm_compute; reflexivity]. Qed.
(** The list can contain two subgroups one of which refines the other: here a = x with a = x, b = u and with a = x, b = v. *)
Theorem C43_no_redundancy_refuted : exists c df tcol tval st' e1 e2, idsd_input c idsd_new df tcol tval /\ idsd_fit c idsd_new df tcol tval = Ok st' /\
  In e1 (is_top st') /\ In e2 (is_top st') /\ ie_pattern e1 <> ie_pattern e2 /\ incl (ie_pattern e1) (ie_pattern e2) /\ at_least e1 e2.
Proof.
  exists (ex_config 3 (-1) 0 (XFin 0)), ex_data, "class", "p".
  destruct (idsd_fit (ex_config 3 (-1) 0 (XFin 0)) idsd_new ex_data "class" "p") as [st'|] eqn:E; [|vm_compute in E; discriminate]. vm_compute in E. injection E as <-.
  eexists. exists (IEntry [Sel "a" EQUAL (VStr "x")] 5 (Cred (XFin (2 # 5)) XPosInf (XFin 0) (XFin 1) (XFin 1))). eexists. split; [apply ex_input; lia|]. split; [reflexivity|].
  cbn [is_top]. split; [left; reflexivity|]. split; [right; left; reflexivity|]. split; [discriminate|]. split; [intros s [<-|[]]; left; reflexivity|]. right. split; reflexivity.
Qed.
(** An object fitted before on a dataset with other columns and fewer rows finds other subgroups than a new object: the index of the
    contributions is the one of the first selector ever stored. *)
Definition ex_small : dataframe := DF 1 [("z", [VStr "k"]); ("class", [VStr "p"])].
Theorem C44_refit_refuted : exists c df1 df2 tcol tval st1 st2 st2', idsd_fit c idsd_new df1 tcol tval = Ok st1 /\ idsd_fit c st1 df2 tcol tval = Ok st2 /\
  idsd_fit c idsd_new df2 tcol tval = Ok st2' /\ map ie_pattern (is_top st2) <> map ie_pattern (is_top st2').
Proof.
  exists (ex_config 3 (-1) 0 (XFin 0)), ex_small, ex_data, "class", "p".
  destruct (idsd_fit (ex_config 3 (-1) 0 (XFin 0)) idsd_new ex_small "class" "p") as [st1|] eqn:E; [|vm_compute in E; discriminate]. vm_compute in E. injection E as <-.
  eexists. eexists. eexists. split; [reflexivity|]. split; [vm_compute; reflexivity|]. split; [vm_compute; reflexivity|]. discriminate.
Qed.
(** The property non_unique_visited_subgroups cannot be read. *)
Theorem C44_non_unique_visited_refuted : forall st, idsd_non_unique_visited st = Err AttributeError.
Proof. reflexivity. Qed.
(** C43_reported applies: coverage threshold 2/5, so that the pairs with a = x are worse than a = x. *)
Definition ex_entry (l : list selector) (r : nat) : ientry := IEntry l r (Cred (XFin 1) (XFin 1) (XFin 0) (XFin 0) (XFin 0)).
Definition ex_ax := Sel "a" EQUAL (VStr "x").
Definition ex_bu := Sel "b" EQUAL (VStr "u").
Lemma ex_written : forall r, written (ex_entry [ex_ax] r) /\ written (ex_entry [ex_bu] r) /\ written (ex_entry [ex_ax; ex_bu] r).
Proof. intros r. repeat split; repeat constructor; try (intros a b K; cbn in K; destruct K; subst; reflexivity). Qed.
Example C43_offers_nonvacuous : forall pv, let c := ex_config 2 (-1) 0 pv in
  (~ full_of_better c [ex_entry [ex_ax] 1] (ex_entry [ex_ax; ex_bu] 2) /\ nested [ex_ax] [ex_ax; ex_bu] /\ ~ at_least (ex_entry [ex_ax] 1) (ex_entry [ex_ax; ex_bu] 2) /\
   top_k_update c [ex_entry [ex_ax] 1] (ex_entry [ex_ax; ex_bu] 2) = [ex_entry [ex_ax; ex_bu] 2]) /\
  (at_least (ex_entry [ex_ax] 2) (ex_entry [ex_ax; ex_bu] 2) /\ top_k_update c [ex_entry [ex_ax] 2] (ex_entry [ex_ax; ex_bu] 2) = [ex_entry [ex_ax] 2]) /\
  (~ nested [ex_ax] [ex_bu] /\ top_k_update c [ex_entry [ex_ax] 1] (ex_entry [ex_bu] 2) = [ex_entry [ex_bu] 2; ex_entry [ex_ax] 1]).
Proof.
  intros pv c. split; [split; [|split; [|split]]|split; [split|split]]; try reflexivity.
  - intros [L _]. discriminate.
  - left. intros s [<-|[]]. left. reflexivity.
  - intros [K|[K _]]; cbn in K; [lia|discriminate].
  - right. split; reflexivity.
  - intros [K|K]; [specialize (K ex_ax (or_introl eq_refl))|specialize (K ex_bu (or_introl eq_refl))]; destruct K as [K|[]]; discriminate.
Qed.
Example C43_reported_nonvacuous : exists st' e, idsd_fit (ex_config 8 (-1) (2 # 5) (XFin 0)) idsd_new ex_data "class" "p" = Ok st' /\
  entry_of (ex_config 8 (-1) (2 # 5) (XFin 0)) ex_data "class" "p" [Sel "a" EQUAL (VStr "x")] e /\ In e (is_top st').
Proof.
  assert (HI := ex_input 8 (-1) (2 # 5) (XFin 0) ltac:(lia)). set (c := ex_config 8 (-1) (2 # 5) (XFin 0)) in *.
  destruct (exact_candidates c idsd_new ex_data "class" "p" HI) as (st' & es & E & F & R & T). change (reduce_categories (ic_cats c) ex_data "class") with ex_data in F.
  set (X := [Sel "a" EQUAL (VStr "x")]). assert (IX : In X (candidates c ex_data "class")) by (vm_compute; tauto).
  destruct (forall2_in _ _ _ F) as [_ F2]. destruct (F2 X IX) as (e & He & K). exists st', e. split; auto. split; auto.
  apply (C43_reported c idsd_new ex_data "class" "p" st' X e HI E); [apply candidate_in; [apply ex_rows_ok|exact IX]|exact K| |].
  - intros Y e' HY NE N K' G. change (reduce_categories (ic_cats c) ex_data "class") with ex_data in K', HY. apply candidate_in in HY; [|apply ex_rows_ok].
    assert (RX : 1 <= ie_rank e). { destruct K as (o & r & _ & _ & _ & (_ & _ & K) & _). destruct (ie_rank e); [|lia]. cbn in K. specialize (K ltac:(lia)). discriminate. }
    assert (RY : ie_rank e' = 0).
    { assert (SY : Qle_bool (ic_cov c) (share ex_data Y) = false).
      { vm_compute in HY. repeat (destruct HY as [HY|HY]; [subst Y; first [congruence|reflexivity|exfalso; destruct N as [N|N]; [specialize (N _ (or_introl eq_refl)); destruct N as [N|[N|[]]]; discriminate|specialize (N _ (or_introl eq_refl)); destruct N as [N|[]]; discriminate]|idtac]|]); try (destruct HY).
        all: exfalso; destruct N as [N|N]; [specialize (N _ (or_introl eq_refl)); cbn in N; intuition discriminate|specialize (N _ (or_introl eq_refl)); cbn in N; intuition discriminate]. }
      destruct K' as (o & r & _ & _ & _ & (_ & K' & _) & _). destruct (ie_rank e'); auto. unfold criteria in K'. rewrite SY in K'. cbn in K'. discriminate. }
    destruct G as [G|[G _]]; lia.
  - intros l ND HL. assert (IL : incl l (candidates c ex_data "class")) by (intros Y HY; apply candidate_in; [apply ex_rows_ok|apply HL; auto]). apply (NoDup_incl_length ND) in IL. vm_compute in IL. exact IL.
Qed.
Print Assumptions C43_size.
Print Assumptions C43_sorted.
Print Assumptions C43_members.
Print Assumptions C43_best.
Print Assumptions C43_keeps.
Print Assumptions C43_evicts.
Print Assumptions C43_rejects.
Print Assumptions C43_enters.
Print Assumptions C43_fit.
Print Assumptions C43_reported.
Print Assumptions C43_no_redundancy_refuted.
Print Assumptions C44_exact.
Print Assumptions C44_distinct.
Print Assumptions C44_attributes.
Print Assumptions C44_counters.
Print Assumptions C44_refit.
Print Assumptions C44_errors.
Print Assumptions C44_pruned_uncounted.
Print Assumptions C44_refit_refuted.
Print Assumptions C44_non_unique_visited_refuted.
