(** Patterns over any set of selectors on which [<] is a strict total order (up to [==]), whatever the kinds of the values.
    The operations on patterns only compare selectors, so they commute with a renaming of the selectors by their ranks. *)
From Verif Require Import Base CoreModel CoreSpec CoreOrder CorePattern CoreFrame CoreExact OrderFacts.
From Coq Require Import Lia.
Open Scope list_scope.
Open Scope nat_scope.

(** [<] is a strict total order on [U], up to [==]. *)
Definition strict_total (U : list selector) : Prop := forall s t u, In s U -> In t U -> In u U ->
  (sel_lt s t = true \/ sel_eq s t = true \/ sel_lt t s = true) /\ (sel_lt s t = true -> sel_lt t u = true -> sel_lt s u = true).

Section Ranks.
  Variable U : list selector.
  Hypothesis HU : strict_total U.
  Definition lower (s : selector) : nat := length (filter (fun y => sel_lt y s) U).
  Definition code (s : selector) : selector := Sel "" EQUAL (VInt (Z.of_nat (lower s))).
  Lemma filter_sub : forall (f g : selector -> bool) l, (forall x, In x l -> f x = true -> g x = true) -> length (filter f l) <= length (filter g l).
  Proof. intros f g l H. induction l as [|x l IH]; cbn [filter]; [lia|]. assert (IH' := IH (fun y Hy => H y (or_intror Hy))). pose proof (H x (or_introl eq_refl)). destruct (f x), (g x); cbn [length]; try lia; discriminate (H0 eq_refl). Qed.
  Lemma filter_sub_lt : forall (f g : selector -> bool) l x, (forall x, In x l -> f x = true -> g x = true) -> In x l -> f x = false -> g x = true -> length (filter f l) < length (filter g l).
  Proof.
    intros f g l x H I Fx Gx. induction l as [|y l IH]; [destruct I|]. cbn [filter]. pose proof (filter_sub f g l (fun z Hz => H z (or_intror Hz))) as L. destruct I as [->|I].
    - rewrite Fx, Gx. cbn [length]. lia.
    - assert (IH' := IH (fun z Hz => H z (or_intror Hz)) I). pose proof (H y (or_introl eq_refl)). destruct (f y), (g y); cbn [length]; try lia; discriminate (H0 eq_refl).
  Qed.
  Lemma lt_irrefl s : sel_lt s s = false.
  Proof. destruct (sel_lt s s) eqn:E; auto. apply lt_not_eq in E. rewrite sel_eq_refl in E. discriminate. Qed.
  Lemma lower_lt : forall s t, In s U -> In t U -> sel_lt s t = true -> lower s < lower t.
  Proof.
    intros s t Hs Ht L. unfold lower. apply (filter_sub_lt _ _ U s); auto; [|apply lt_irrefl].
    intros x Hx E. exact (proj2 (HU x s t Hx Hs Ht) E L).
  Qed.
  Lemma lower_le : forall s t, In s U -> In t U -> sel_eq s t = true -> lower s <= lower t.
  Proof.
    intros s t Hs Ht E. unfold lower. apply filter_sub. intros x Hx L. destruct (HU x t s Hx Ht Hs) as [[A|[A|A]] _]; auto.
    - exfalso. apply lt_not_eq in L. rewrite sel_eq_sym in E. rewrite (sel_eq_trans x t s A E) in L. discriminate.
    - exfalso. pose proof (proj2 (HU t x s Ht Hx Hs) A L) as K. apply lt_not_eq in K. rewrite sel_eq_sym in E. congruence.
  Qed.
  Lemma code_lt : forall s t, In s U -> In t U -> sel_lt (code s) (code t) = sel_lt s t.
  Proof.
    intros s t Hs Ht. assert (E : sel_lt (code s) (code t) = (lower s <? lower t)).
    { unfold sel_lt, code. cbn [s_attr s_op s_val]. rewrite String.eqb_refl. cbn [negb]. unfold op_ne. rewrite Nat.eqb_refl. cbn [negb].
      cbn [py_eq py_lt num_of try_or_str]. change (p10 0) with 1%Z. rewrite !Z.mul_1_r.
      destruct (Nat.ltb_spec (lower s) (lower t)) as [L|L].
      - destruct (Z.eqb_spec (Z.of_nat (lower s)) (Z.of_nat (lower t))); [lia|]. cbn [negb]. apply Z.ltb_lt. lia.
      - destruct (Z.eqb_spec (Z.of_nat (lower s)) (Z.of_nat (lower t))); [reflexivity|]. cbn [negb]. apply Z.ltb_ge. lia. }
    rewrite E. destruct (HU s t s Hs Ht Hs) as [[A|[A|A]] _].
    - rewrite A. apply Nat.ltb_lt, lower_lt; auto.
    - destruct (sel_lt s t) eqn:L; [apply lt_not_eq in L; congruence|]. apply Nat.ltb_ge, lower_le; auto. rewrite sel_eq_sym. exact A.
    - rewrite (lt_asym _ _ A). apply Nat.ltb_ge. pose proof (lower_lt t s Ht Hs A). lia.
  Qed.
  Lemma code_eq : forall s t, In s U -> In t U -> sel_eq (code s) (code t) = sel_eq s t.
  Proof.
    intros s t Hs Ht. assert (E : sel_eq (code s) (code t) = (lower s =? lower t)).
    { unfold sel_eq, code. cbn [s_attr s_op s_val]. rewrite String.eqb_refl. unfold op_eq. rewrite Nat.eqb_refl. cbn [andb].
      cbn [py_eq num_of]. change (p10 0) with 1%Z. rewrite !Z.mul_1_r. destruct (Nat.eqb_spec (lower s) (lower t)) as [->|N]; [apply Z.eqb_refl|]. apply Z.eqb_neq. lia. }
    rewrite E. destruct (HU s t s Hs Ht Hs) as [[A|[A|A]] _].
    - rewrite (lt_not_eq _ _ A). apply Nat.eqb_neq. pose proof (lower_lt s t Hs Ht A). lia.
    - rewrite A. apply Nat.eqb_eq. assert (A' : sel_eq t s = true) by (rewrite sel_eq_sym; exact A). pose proof (lower_le s t Hs Ht A). pose proof (lower_le t s Ht Hs A'). lia.
    - rewrite sel_eq_sym, (lt_not_eq _ _ A). apply Nat.eqb_neq. pose proof (lower_lt t s Ht Hs A). lia.
  Qed.
  Lemma code_ne : forall s t, In s U -> In t U -> sel_ne (code s) (code t) = sel_ne s t.
  Proof. intros s t Hs Ht. rewrite !sel_ne_neg, code_eq; auto. Qed.
  Lemma codes_homogeneous : forall l, homogeneous (map code l).
  Proof. intros l s t Hs Ht _ _. apply in_map_iff in Hs, Ht. destruct Hs as (a & <- & _), Ht as (b & <- & _). reflexivity. Qed.

  (** The operations. *)
  Lemma insert_code : forall x l, In x U -> incl l U -> insert_by sel_lt (code x) (map code l) = map code (insert_by sel_lt x l).
  Proof.
    intros x l Hx. induction l as [|y l IH]; intros Hl; cbn [map insert_by]; [reflexivity|]. apply incl_cons_inv in Hl. destruct Hl as [Hy Hl].
    rewrite code_lt by auto. destruct (sel_lt y x); cbn [map]; [rewrite IH by auto|]; reflexivity.
  Qed.
  Lemma sort_incl : forall l, incl l U -> incl (sort_by sel_lt l) U.
  Proof. intros l H x Hx. apply H. apply (sort_by_in sel_lt l x). exact Hx. Qed.
  Lemma sort_code : forall l, incl l U -> sort_by sel_lt (map code l) = map code (sort_by sel_lt l).
  Proof.
    induction l as [|x l IH]; intros H; cbn [map sort_by]; [reflexivity|]. apply incl_cons_inv in H. destruct H as [Hx H].
    rewrite IH by auto. apply insert_code; auto. apply sort_incl; auto.
  Qed.
  Lemma dedup_code : forall l last, incl l U -> (forall x, last = Some x -> In x U) ->
    dedup_consecutive (option_map code last) (map code l) = map code (dedup_consecutive last l).
  Proof.
    induction l as [|e l IH]; intros last H HL; [reflexivity|]. apply incl_cons_inv in H. destruct H as [He H]. cbn [map dedup_consecutive].
    assert (E : match option_map code last with None => true | Some x => sel_ne x (code e) end = match last with None => true | Some x => sel_ne x e end).
    { destruct last as [x|]; cbn [option_map]; [apply code_ne; auto|reflexivity]. }
    rewrite E. destruct (match last with None => true | Some x => sel_ne x e end); cbn [map].
    - f_equal. apply (IH (Some e) H). intros x X. injection X as <-. exact He.
    - apply IH; auto.
  Qed.
  Lemma dedup_in : forall l last, incl (dedup_consecutive last l) l.
  Proof.
    induction l as [|e l IH]; intros last; [apply incl_refl|]. cbn [dedup_consecutive]. destruct (match last with None => true | Some x => sel_ne x e end).
    - apply incl_cons; [now left|]. eapply incl_tran; [apply IH|apply incl_tl, incl_refl].
    - eapply incl_tran; [apply IH|apply incl_tl, incl_refl].
  Qed.
  Lemma init_incl : forall l, incl l U -> incl (pattern_init l) U.
  Proof. intros l H. unfold pattern_init. eapply incl_tran; [apply dedup_in|apply sort_incl; auto]. Qed.
  Lemma init_code : forall l, incl l U -> pattern_init (map code l) = map code (pattern_init l).
  Proof. intros l H. unfold pattern_init. rewrite sort_code by auto. apply (dedup_code _ None); [apply sort_incl; auto|discriminate]. Qed.
  Lemma bisect_code : forall p s, incl p U -> In s U -> bisect_left sel_lt (map code p) (code s) = bisect_left sel_lt p s.
  Proof.
    intros p s Hp Hs. unfold bisect_left. rewrite map_length.
    assert (G : forall fuel lo hi, bisect_loop sel_lt (map code p) (code s) fuel lo hi = bisect_loop sel_lt p s fuel lo hi); [|apply G].
    induction fuel as [|fuel IH]; intros lo hi; cbn [bisect_loop]; [reflexivity|]. destruct (lo <? hi); [|reflexivity].
    cbv zeta. rewrite nth_error_map. destruct (nth_error p ((lo + hi) / 2)) as [y|] eqn:E; cbn [option_map]; [|reflexivity].
    rewrite code_lt; auto; [|apply Hp; eapply nth_error_In; exact E]. destruct (sel_lt y s); apply IH.
  Qed.
  Lemma add_code : forall p s, incl p U -> In s U -> add_selector (map code p) (code s) = map code (add_selector p s).
  Proof.
    intros p s Hp Hs. unfold add_selector. cbv zeta. rewrite bisect_code by auto. rewrite nth_error_map.
    destruct (nth_error p (bisect_left sel_lt p s)) as [x|] eqn:E; cbn [option_map]; [|rewrite map_app; reflexivity].
    rewrite code_ne; auto; [|apply Hp; eapply nth_error_In; exact E]. destruct (sel_ne x s); [|reflexivity].
    unfold list_insert. rewrite map_app, firstn_map, skipn_map. reflexivity.
  Qed.
  Lemma add_incl : forall p s, incl p U -> In s U -> incl (add_selector p s) U.
  Proof.
    intros p s Hp Hs. unfold add_selector. cbv zeta. destruct (nth_error p (bisect_left sel_lt p s)) as [x|]; [destruct (sel_ne x s); [|auto]|].
    - unfold list_insert. intros y Hy. apply in_app_iff in Hy. destruct Hy as [Hy|[<-|Hy]]; auto; apply Hp.
      + rewrite <- (firstn_skipn (bisect_left sel_lt p s) p). apply in_app_iff; auto.
      + rewrite <- (firstn_skipn (bisect_left sel_lt p s) p). apply in_app_iff; auto.
    - intros y Hy. apply in_app_iff in Hy. destruct Hy as [Hy|[<-|[]]]; auto.
  Qed.
  Lemma pop_code : forall i (p : list selector), list_pop i (map code p) = map code (list_pop i p).
  Proof. intros i p. unfold list_pop. rewrite map_app, firstn_map, skipn_map. reflexivity. Qed.
  Lemma pop_in : forall i (p : list selector), incl (list_pop i p) p.
  Proof.
    intros i p y Hy. unfold list_pop in Hy. apply in_app_iff in Hy. destruct Hy as [Hy|Hy].
    - rewrite <- (firstn_skipn i p). apply in_app_iff; auto.
    - rewrite <- (firstn_skipn (S i) p). apply in_app_iff; auto.
  Qed.
  Lemma remove_code : forall p s, incl p U -> In s U -> remove_selector (map code p) (code s) = map code (remove_selector p s).
  Proof.
    intros p s Hp Hs. unfold remove_selector. cbv zeta. rewrite bisect_code by auto. rewrite nth_error_map.
    destruct (nth_error p (bisect_left sel_lt p s)) as [x|] eqn:E; cbn [option_map]; [|reflexivity].
    rewrite code_eq; auto; [|apply Hp; eapply nth_error_In; exact E]. destruct (sel_eq x s); [|reflexivity]. apply pop_code.
  Qed.
  Lemma remove_incl : forall p s, incl p U -> incl (remove_selector p s) U.
  Proof.
    intros p s Hp. unfold remove_selector. cbv zeta. destruct (nth_error p (bisect_left sel_lt p s)) as [x|]; [|auto]. destruct (sel_eq x s); [|auto].
    eapply incl_tran; [apply pop_in|exact Hp].
  Qed.
  Lemma contains_code : forall p s, incl p U -> In s U -> pattern_contains (map code p) (code s) = pattern_contains p s.
  Proof.
    intros p s Hp Hs. unfold pattern_contains. destruct p as [|x p]; [reflexivity|]. change (map code (x :: p)) with (code x :: map code p) at 1. cbv iota.
    change (code x :: map code p) with (map code (x :: p)). rewrite bisect_code by auto. rewrite nth_error_map.
    destruct (nth_error (x :: p) (bisect_left sel_lt (x :: p) s)) as [y|] eqn:E; cbn [option_map]; [|reflexivity]. apply code_eq; auto. apply Hp. eapply nth_error_In; exact E.
  Qed.
  Lemma py_index_map : forall (p : list selector) i, py_index (map code p) i = py_index p i.
  Proof. intros p i. unfold py_index. rewrite map_length. reflexivity. Qed.
  Definition op_code (o : pattern_op) : pattern_op := match o with OpAdd s => OpAdd (code s) | OpRemove s => OpRemove (code s) | OpRemoveIndex i => OpRemoveIndex i end.
  Lemma step_code : forall p o, incl p U -> incl (op_selectors o) U -> pattern_step (map code p) (op_code o) = map code (pattern_step p o) /\ incl (pattern_step p o) U.
  Proof.
    intros p o Hp Ho. destruct o as [s|s|i]; cbn [pattern_step op_code op_selectors] in *.
    - assert (Hs : In s U) by (apply Ho; now left). split; [apply add_code|apply add_incl]; auto.
    - assert (Hs : In s U) by (apply Ho; now left). split; [apply remove_code|apply remove_incl]; auto.
    - unfold remove_by_index. rewrite py_index_map. destruct (py_index p i) as [k|]; [|auto]. split; [apply pop_code|]. eapply incl_tran; [apply pop_in|exact Hp].
  Qed.
  Lemma history_code : forall l0 ops, incl l0 U -> incl (flat_map op_selectors ops) U ->
    pattern_history (map code l0) (map op_code ops) = map code (pattern_history l0 ops) /\ incl (pattern_history l0 ops) U.
  Proof.
    intros l0 ops H0. unfold pattern_history. rewrite init_code by auto. pose proof (init_incl l0 H0) as HI. revert HI. generalize (pattern_init l0) as p.
    induction ops as [|o ops IH]; intros p Hp Ho; cbn [map fold_left]; [auto|]. cbn [flat_map] in Ho. apply incl_app_inv in Ho. destruct Ho as [H1 H2].
    destruct (step_code p o Hp H1) as [E I]. rewrite E. apply IH; auto.
  Qed.
  (** The same for sets. *)
  Lemma memberb_code : forall s l, In s U -> incl l U -> memberb (code s) (map code l) = memberb s l.
  Proof.
    intros s l Hs. unfold memberb. induction l as [|x l IH]; intros H; [reflexivity|]. apply incl_cons_inv in H. destruct H as [Hx H]. cbn [map existsb]. rewrite code_eq, IH by auto. reflexivity.
  Qed.
  Lemma filter_code : forall (f g : selector -> bool) l, (forall x, In x l -> f (code x) = g x) -> filter f (map code l) = map code (filter g l).
  Proof. intros f g l H. induction l as [|x l IH]; cbn [map filter]; [reflexivity|]. rewrite (H x (or_introl eq_refl)), IH by (intros y Hy; apply H; now right). destruct (g x); reflexivity. Qed.
  Lemma sset_code : forall l o, incl l U -> incl (op_selectors o) U -> set_step (map code l) (op_code o) = map code (set_step l o) /\ incl (set_step l o) U.
  Proof.
    intros l o Hl Ho. destruct o as [s|s|i]; cbn [set_step op_code op_selectors] in *.
    - assert (Hs : In s U) by (apply Ho; now left). unfold set_add. rewrite memberb_code by auto. destruct (memberb s l); split; auto. apply incl_cons; auto.
    - assert (Hs : In s U) by (apply Ho; now left). unfold set_remove. split; [apply filter_code; intros x Hx; rewrite code_eq; auto|]. intros x Hx. apply filter_In in Hx. apply Hl. tauto.
    - rewrite map_length. destruct (element_number (length l) i) as [k|]; [|auto]. unfold set_remove_kth. split; [|intros x Hx; apply filter_In in Hx; apply Hl; tauto].
      apply filter_code. intros x Hx. f_equal. f_equal. rewrite (filter_code _ (fun y => sel_lt y x)) by (intros y Hy; apply code_lt; auto). apply map_length.
  Qed.
  Lemma shistory_code : forall l0 ops, incl l0 U -> incl (flat_map op_selectors ops) U ->
    set_history (map code l0) (map op_code ops) = map code (set_history l0 ops) /\ incl (set_history l0 ops) U.
  Proof.
    intros l0 ops H0. unfold set_history.
    assert (A : forall acc, incl acc U -> fold_left set_add (map code l0) (map code acc) = map code (fold_left set_add l0 acc) /\ incl (fold_left set_add l0 acc) U).
    { clear ops. induction l0 as [|x l0 IH]; intros acc Ha; cbn [map fold_left]; [auto|]. apply incl_cons_inv in H0. destruct H0 as [Hx H0].
      destruct (sset_code acc (OpAdd x) Ha) as [E I]; [apply incl_cons; [auto|intros y []]|]. cbn [set_step op_code] in E, I. rewrite E. apply IH; auto. }
    destruct (A [] (fun x (Hx : In x []) => match Hx with end)) as [E I]. cbn [map] in E. rewrite E. clear E A. revert I. generalize (fold_left set_add l0 []) as p.
    induction ops as [|o ops IH]; intros p Hp Ho; cbn [map fold_left]; [auto|]. cbn [flat_map] in Ho. apply incl_app_inv in Ho. destruct Ho as [H1 H2].
    destruct (sset_code p o Hp H1) as [E I]. rewrite E. apply IH; auto.
  Qed.
  Lemma sorted_code : forall l, incl l U -> sorted_strictly (map code l) -> sorted_strictly l.
  Proof.
    induction l as [|x l IH]; intros H S; [constructor|]. apply incl_cons_inv in H. destruct H as [Hx H]. inversion S as [|? ? S1 S2]; subst. constructor; [apply IH; auto|].
    rewrite Forall_map in S2. rewrite Forall_forall in *. intros y Hy. rewrite <- code_lt; auto.
  Qed.
  Lemma member_code : forall s l, In s U -> incl l U -> (member (code s) (map code l) <-> member s l).
  Proof. intros s l Hs Hl. rewrite <- !memberb_spec, memberb_code by auto. tauto. Qed.
  Lemma ops_code : forall ops, flat_map op_selectors (map op_code ops) = map code (flat_map op_selectors ops).
  Proof. induction ops as [|o ops IH]; [reflexivity|]. cbn [map flat_map]. rewrite IH, map_app. destruct o; reflexivity. Qed.
  Lemma history_total : forall l0 ops, incl l0 U -> incl (flat_map op_selectors ops) U ->
    sorted_strictly (pattern_history l0 ops) /\
    pattern_len (pattern_history l0 ops) = length (set_history l0 ops) /\
    forall s, In s U -> (pattern_contains (pattern_history l0 ops) s = true <-> member s (set_history l0 ops)).
  Proof.
    intros l0 ops H0 H1. destruct (history_code l0 ops H0 H1) as [E I]. destruct (shistory_code l0 ops H0 H1) as [E' I'].
    destruct (pattern_history_correct (map code U) (map code l0) (map op_code ops) (codes_homogeneous U)) as (A & B & C).
    - apply incl_map, H0.
    - rewrite ops_code. apply incl_map, H1.
    - rewrite E in A, B, C. rewrite E' in B, C. split; [apply sorted_code; auto|]. split.
      + unfold pattern_len in *. rewrite !map_length in B. exact B.
      + intros s Hs. rewrite <- (contains_code _ s I Hs), <- (member_code s _ Hs I'). apply C. apply in_map. exact Hs.
  Qed.
  Lemma pattern_eq_code : forall p q, incl p U -> incl q U -> pattern_eq (map code p) (map code q) = pattern_eq p q.
  Proof.
    intros p q. unfold pattern_eq. rewrite !map_length. destruct (length p =? length q); cbn [negb]; [|reflexivity].
    revert q. induction p as [|x p IH]; intros [|y q] Hp Hq; cbn [map pattern_eq_loop]; try reflexivity. apply incl_cons_inv in Hp, Hq. destruct Hp as [Hx Hp], Hq as [Hy Hq].
    rewrite code_ne by auto. destruct (sel_ne x y); auto.
  Qed.
End Ranks.
Lemma same_members : forall l1 l2, (forall s, member s l1 <-> member s l2) <-> (forall s, In s l1 -> member s l2) /\ (forall s, In s l2 -> member s l1).
Proof.
  intros l1 l2. split.
  - intros H. split; intros s Hs; apply H, member_In, Hs.
  - intros [A B] s. split; intros (x & Hx & E); [apply (member_eq x s l2 E), A, Hx|apply (member_eq x s l1 E), B, Hx].
Qed.
Lemma eq_total : forall U l1 l2, strict_total U -> incl l1 U -> incl l2 U ->
  (pattern_eq (pattern_init l1) (pattern_init l2) = true <-> forall s, member s l1 <-> member s l2).
Proof.
  intros U l1 l2 HU H1 H2. rewrite <- (pattern_eq_code U HU) by (apply (init_incl U); auto). rewrite <- !(init_code U HU) by auto.
  rewrite pattern_eq_init by (rewrite <- map_app; apply codes_homogeneous). rewrite !same_members.
  assert (X : forall l l', incl l U -> incl l' U -> ((forall s, In s (map (code U) l) -> member s (map (code U) l')) <-> (forall s, In s l -> member s l'))).
  { intros l l' Hl Hl'. split.
    - intros H s Hs. apply (member_code U HU); auto. apply H, in_map, Hs.
    - intros H s Hs. apply in_map_iff in Hs. destruct Hs as (x & <- & Hx). apply (member_code U HU); auto. }
  rewrite !X by auto. tauto.
Qed.

Lemma add_remove_total : forall U l s, strict_total U -> incl l U -> In s U ->
  (member s l -> add_selector (pattern_init l) s = pattern_init l) /\ (~ member s l -> pattern_eq (remove_selector (add_selector (pattern_init l) s) s) (pattern_init l) = true).
Proof.
  intros U l s HU Hl Hs.
  destruct (history_total U HU l [] Hl) as (S0 & _ & M0); [intros x []|].
  unfold pattern_history in S0, M0. cbn [fold_left] in S0, M0.
  assert (Mem : pattern_contains (pattern_init l) s = true <-> member s l).
  { rewrite (M0 s Hs). unfold set_history. cbn [fold_left]. clear -l. assert (G : forall l acc, member s (fold_left set_add l acc) <-> member s acc \/ member s l).
    { clear. induction l as [|x l IH]; intros acc; cbn [fold_left]; [split; [auto|]; intros [H|(y & [] & _)]; auto|]. rewrite IH. unfold set_add. destruct (memberb x acc) eqn:E.
      - apply memberb_spec in E. split; intros [H|H]; auto.
        + right. destruct H as (y & Hy & Ey). exists y. split; [now right|exact Ey].
        + destruct H as (y & [<-|Hy] & Ey); [left; apply (member_eq x s acc Ey E)|right; exists y; auto].
      - split.
        + intros [(y & [<-|Hy] & Ey)|(y & Hy & Ey)]; [right; exists x; split; [now left|exact Ey]|left; exists y; auto|right; exists y; split; [now right|exact Ey]].
        + intros [(y & Hy & Ey)|(y & [<-|Hy] & Ey)]; [left; exists y; split; [now right|exact Ey]|left; exists x; split; [now left|exact Ey]|right; exists y; auto]. }
    rewrite G. split; [intros [(y & [] & _)|H]; exact H|auto]. }
  assert (Mem0 : member s (pattern_init l) -> member s l).
  { intros (y & Hy & Ey). exists y. split; [|exact Ey]. unfold pattern_init in Hy. apply dedup_in in Hy. apply (sort_by_in sel_lt l y). exact Hy. }
  unfold pattern_contains in Mem. split; intros HM.
  - unfold add_selector. cbv zeta. destruct (pattern_init l) as [|x0 p0] eqn:P; [apply Mem in HM; discriminate|]. apply Mem in HM.
    destruct (nth_error (x0 :: p0) (bisect_left sel_lt (x0 :: p0) s)) as [x|]; [|discriminate]. rewrite sel_ne_neg, HM. reflexivity.
  - assert (HP : incl (pattern_init l) U) by (apply init_incl; auto).
    assert (I1 : incl (add_selector (pattern_init l) s) U) by (apply add_incl; auto).
    rewrite <- (pattern_eq_code U HU) by (auto; apply remove_incl; auto). rewrite <- (remove_code U HU) by auto. rewrite <- (add_code U HU) by auto.
    rewrite add_remove_absent; [apply pattern_eq_same| | |].
    + apply sorted_strictly_slt; [apply codes_homogeneous|]. clear -HU HP S0. induction S0 as [|x p S0 IH F]; cbn [map]; [constructor|]. apply incl_cons_inv in HP. destruct HP as [Hx HP]. constructor; [apply IH; auto|].
      rewrite Forall_map. rewrite Forall_forall in *. intros y Hy. rewrite (code_lt U HU); auto.
    + intros x Hx _ _. apply in_map_iff in Hx. destruct Hx as (y & <- & _). reflexivity.
    + rewrite (member_code U HU) by auto. intros K. apply HM, Mem0. exact K.
Qed.

(** * The converse *)
Lemma history_needs_total : forall U,
  (forall l0 ops, incl l0 U -> incl (flat_map op_selectors ops) U ->
    sorted_strictly (pattern_history l0 ops) /\ pattern_len (pattern_history l0 ops) = length (set_history l0 ops)) -> strict_total U.
Proof.
  intros U H.
  assert (T : forall s t, In s U -> In t U -> sel_lt s t = true \/ sel_eq s t = true \/ sel_lt t s = true).
  { intros s t Hs Ht. destruct (sel_lt s t) eqn:L1; auto. destruct (sel_eq s t) eqn:E; auto. right. right.
    destruct (H [s] [OpAdd t]) as [A _]; [intros x [<-|[]]; auto|intros x [<-|[]]; auto|].
    unfold pattern_history, pattern_init in A. cbn [sort_by insert_by dedup_consecutive fold_left pattern_step] in A.
    unfold add_selector, bisect_left in A. cbn [length] in A. cbn [bisect_loop] in A. cbn in A. rewrite L1 in A. cbn in A. rewrite sel_ne_neg, E in A. cbn in A.
    inversion A as [|? ? _ F]; subst. inversion F; subst; auto. }
  intros s t u Hs Ht Hu. split; [auto|]. intros L1 L2. destruct (T s u Hs Hu) as [A|[A|A]]; auto; exfalso.
  - (* s == u *)
    destruct (H [] [OpAdd s; OpAdd t; OpAdd u]) as [_ B]; [intros x []|intros x [<-|[<-|[<-|[]]]]; auto|].
    unfold pattern_history, pattern_init in B. cbn [sort_by insert_by dedup_consecutive fold_left pattern_step] in B.
    assert (P1 : add_selector [] s = [s]) by reflexivity. rewrite P1 in B.
    assert (P2 : add_selector [s] t = [s; t]) by (unfold add_selector, bisect_left; cbn; rewrite L1; reflexivity). rewrite P2 in B.
    assert (P3 : add_selector [s; t] u = [s; t; u]) by (unfold add_selector, bisect_left; cbn; rewrite L2; cbn; reflexivity). rewrite P3 in B.
    unfold set_history in B. cbn [fold_left set_step] in B. unfold set_add in B. cbn [memberb existsb] in B. rewrite (lt_not_eq _ _ L1) in B. cbn [orb] in B. cbn [memberb existsb] in B.
    rewrite A in B. rewrite Bool.orb_true_r in B. discriminate B.
  - (* a cycle *)
    assert (N1 := lt_not_eq _ _ L1). assert (N2 := lt_not_eq _ _ L2). assert (N3 := lt_not_eq _ _ A).
    destruct (H [] [OpAdd s; OpAdd t; OpAdd u]) as [B _]; [intros x []|intros x [<-|[<-|[<-|[]]]]; auto|].
    unfold pattern_history, pattern_init in B. cbn [sort_by insert_by dedup_consecutive fold_left pattern_step] in B.
    assert (P1 : add_selector [] s = [s]) by reflexivity. rewrite P1 in B.
    assert (P2 : add_selector [s] t = [s; t]) by (unfold add_selector, bisect_left; cbn; rewrite L1; reflexivity). rewrite P2 in B.
    assert (P3 : add_selector [s; t] u = [s; t; u]) by (unfold add_selector, bisect_left; cbn; rewrite L2; cbn; reflexivity). rewrite P3 in B.
    inversion B as [|? ? _ F]; subst. inversion F as [|? ? _ F2]; subst. inversion F2 as [|? ? F3 _]; subst. rewrite (lt_asym _ _ A) in F3. discriminate F3.
Qed.
Lemma eq_needs_total : forall U,
  (forall l1 l2, incl l1 U -> incl l2 U -> (pattern_eq (pattern_init l1) (pattern_init l2) = true <-> forall s, member s l1 <-> member s l2)) -> strict_total U.
Proof.
  intros U H.
  assert (T : forall s t, In s U -> In t U -> sel_lt s t = true \/ sel_eq s t = true \/ sel_lt t s = true).
  { intros s t Hs Ht. destruct (sel_lt s t) eqn:L1; auto. destruct (sel_eq s t) eqn:E; auto. right. right. destruct (sel_lt t s) eqn:L2; auto. exfalso.
    assert (N : sel_ne s t = true) by (rewrite sel_ne_neg, E; reflexivity). assert (N' : sel_ne t s = true) by (rewrite sel_ne_neg, sel_eq_sym, E; reflexivity).
    pose proof (proj2 (H [s; t] [t; s] ltac:(intros x [<-|[<-|[]]]; auto) ltac:(intros x [<-|[<-|[]]]; auto))) as K.
    unfold pattern_init in K. cbn [sort_by insert_by] in K. rewrite L1, L2 in K. cbn [dedup_consecutive] in K. rewrite N, N' in K.
    unfold pattern_eq in K. cbn [length Nat.eqb negb pattern_eq_loop] in K. rewrite N in K. discriminate K.
    apply same_members. split; intros x [<-|[<-|[]]]; apply member_In; cbn; auto. }
  intros s t u Hs Ht Hu. split; [auto|]. intros L1 L2. destruct (T s u Hs Hu) as [A|[A|A]]; auto; exfalso.
  - assert (N1 : sel_ne s t = true) by (rewrite sel_ne_neg, (lt_not_eq _ _ L1); reflexivity). assert (N2 : sel_ne t u = true) by (rewrite sel_ne_neg, (lt_not_eq _ _ L2); reflexivity).
    pose proof (proj2 (H [s; t; u] [s; t] ltac:(intros x [<-|[<-|[<-|[]]]]; auto) ltac:(intros x [<-|[<-|[]]]; auto))) as K.
    unfold pattern_init in K. cbn [sort_by insert_by] in K. rewrite (lt_asym _ _ L2) in K. cbn [insert_by] in K. rewrite (lt_asym _ _ L1) in K. cbn [dedup_consecutive] in K. rewrite N1, N2 in K.
    discriminate K. apply same_members. split.
    + intros x [<-|[<-|[<-|[]]]]; [apply member_In; cbn; auto|apply member_In; cbn; auto|exists s; cbn; auto].
    + intros x [<-|[<-|[]]]; apply member_In; cbn; auto.
  - assert (N1 : sel_ne s t = true) by (rewrite sel_ne_neg, (lt_not_eq _ _ L1); reflexivity). assert (N2 : sel_ne t u = true) by (rewrite sel_ne_neg, (lt_not_eq _ _ L2); reflexivity).
    assert (N3 : sel_ne u s = true) by (rewrite sel_ne_neg, (lt_not_eq _ _ A); reflexivity).
    pose proof (proj2 (H [s; t; u] [t; u; s] ltac:(intros x [<-|[<-|[<-|[]]]]; auto) ltac:(intros x [<-|[<-|[<-|[]]]]; auto))) as K.
    unfold pattern_init in K. cbn [sort_by insert_by] in K. rewrite (lt_asym _ _ L2), (lt_asym _ _ A) in K. cbn [insert_by] in K. rewrite (lt_asym _ _ L1), (lt_asym _ _ L2) in K. cbn [dedup_consecutive] in K. rewrite N1, N2, N3 in K.
    unfold pattern_eq in K. cbn [length Nat.eqb negb pattern_eq_loop] in K. rewrite N1 in K. discriminate K.
    apply same_members. split; intros x [<-|[<-|[<-|[]]]]; apply member_In; cbn; auto.
Qed.
Lemma homogeneous_total : forall U, homogeneous U -> strict_total U.
Proof.
  intros U H s t u Hs Ht Hu. split.
  - destruct (sel_trichotomy s t (H s t Hs Ht)) as [(A & _)|[(_ & A & _)|(_ & _ & A)]]; auto. right. right. rewrite <- sel_gt_lt. exact A.
  - apply sel_lt_trans; auto.
Qed.
(** Which pairs are not ordered. *)
Lemma unordered_pair : forall s t, sel_lt s t = false /\ sel_eq s t = false /\ sel_lt t s = false <->
  s_attr s = s_attr t /\ s_op s = s_op t /\ is_str (s_val s) <> is_str (s_val t) /\ py_str (s_val s) = py_str (s_val t).
Proof.
  intros s t. split.
  - intros (A & B & C). assert (K : ~ same_kind s t).
    { intros K. destruct (sel_trichotomy s t K) as [(X & _)|[(_ & X & _)|(_ & _ & X)]]; try congruence. rewrite sel_gt_lt in X. congruence. }
    assert (D : s_attr s = s_attr t /\ s_op s = s_op t /\ is_str (s_val s) <> is_str (s_val t)).
    { unfold same_kind in K. destruct (String.eqb_spec (s_attr s) (s_attr t)) as [E|E]; [|exfalso; apply K; intros X; congruence].
      assert (Eo : s_op s = s_op t) by (destruct (s_op s), (s_op t); auto; exfalso; apply K; intros _ X; discriminate X).
      split; [auto|]. split; [auto|]. intros X. apply K. auto. }
    destruct D as (D1 & D2 & D3). repeat (split; [assumption|]). unfold sel_lt in A, C. rewrite D1, D2, String.eqb_refl in A, C. unfold op_ne in A, C. rewrite Nat.eqb_refl in A, C. cbn [negb] in A, C.
    assert (Q : py_eq (s_val s) (s_val t) = false /\ py_eq (s_val t) (s_val s) = false) by (destruct (s_val s), (s_val t); cbn in D3; try congruence; split; reflexivity).
    rewrite (proj1 Q) in A. rewrite (proj2 Q) in C. cbn [negb] in A, C.
    assert (Q2 : py_lt (s_val s) (s_val t) = Err TypeError /\ py_lt (s_val t) (s_val s) = Err TypeError) by (destruct (s_val s), (s_val t); cbn in D3; try congruence; split; reflexivity).
    rewrite (proj1 Q2) in A. rewrite (proj2 Q2) in C. cbn [try_or_str] in A, C. rewrite string_ltb_compare in A, C. rewrite (String.compare_antisym) in C.
    destruct (String.compare (py_str (s_val s)) (py_str (s_val t))) eqn:E; cbn in A, C; try discriminate. apply String.compare_eq_iff. exact E.
  - intros (D1 & D2 & D3 & D4). unfold sel_lt, sel_eq. rewrite D1, D2, D4, String.eqb_refl. unfold op_ne, op_eq. rewrite Nat.eqb_refl. cbn [negb andb].
    assert (Q : py_eq (s_val s) (s_val t) = false /\ py_eq (s_val t) (s_val s) = false) by (destruct (s_val s), (s_val t); cbn in D3; try congruence; split; reflexivity).
    rewrite (proj1 Q), (proj2 Q). cbn [negb].
    assert (Q2 : py_lt (s_val s) (s_val t) = Err TypeError /\ py_lt (s_val t) (s_val s) = Err TypeError) by (destruct (s_val s), (s_val t); cbn in D3; try congruence; split; reflexivity).
    rewrite (proj1 Q2), (proj2 Q2). cbn [try_or_str]. rewrite string_ltb_compare.
    assert (X : String.compare (py_str (s_val t)) (py_str (s_val t)) = Eq) by (generalize (py_str (s_val t)); induction s0 as [|c s0 IH]; [reflexivity|]; cbn [String.compare]; unfold Ascii.compare; rewrite N.compare_refl; exact IH). rewrite X. auto.
Qed.

(** * is_refinement *)
Lemma sorted_nodup_eq : forall l, sorted_strictly l -> nodup_eq l.
Proof.
  intros l S. induction S as [|x l S IH F]; cbn [nodup_eq]; [exact I|]. split; [|exact IH]. apply memberb_false. intros (y & Hy & E).
  rewrite Forall_forall in F. specialize (F y Hy). apply lt_not_eq in F. rewrite sel_eq_sym in E. congruence.
Qed.
Lemma pyset_distinct : forall h l acc, nodup_eq l -> (forall x, In x l -> ~ member x acc) -> pyset_of h l acc = acc ++ l.
Proof.
  intros h. induction l as [|x l IH]; intros acc N D; cbn [pyset_of]; [now rewrite app_nil_r|]. destruct N as [N1 N2].
  assert (E : in_pyset h x acc = false).
  { destruct (in_pyset h x acc) eqn:E; auto. exfalso. unfold in_pyset in E. apply existsb_exists in E. destruct E as (y & Hy & E). apply Bool.andb_true_iff in E.
    apply (D x (or_introl eq_refl)). exists y. tauto. }
  rewrite E, IH; auto; [now rewrite <- app_assoc|]. intros y Hy (z & Hz & Ez). apply in_app_iff in Hz. destruct Hz as [Hz|[<-|[]]].
  - apply (D y (or_intror Hy)). exists z. auto.
  - apply memberb_false in N1. apply N1. exists y. split; [exact Hy|]. rewrite sel_eq_sym. exact Ez.
Qed.
Lemma refinement_exact : forall h p q flag, sorted_strictly p -> sorted_strictly q ->
  (pattern_is_refinement h p q flag = true <->
   (forall s, In s p -> exists t, In t q /\ sel_eq t s = true /\ sel_hash h t = sel_hash h s) /\ (length p = length q -> flag = true)).
Proof.
  intros h p q flag Hp Hq. apply sorted_nodup_eq in Hp, Hq. unfold pattern_is_refinement. cbv zeta.
  rewrite !pyset_distinct by (auto || (intros x _ (y & [] & _))). cbn [List.app].
  assert (Sub : pyset_subset h p q = true <-> forall s, In s p -> exists t, In t q /\ sel_eq t s = true /\ sel_hash h t = sel_hash h s).
  { unfold pyset_subset. rewrite forallb_forall. split; intros H s Hs; specialize (H s Hs).
    - unfold in_pyset in H. apply existsb_exists in H. destruct H as (t & Ht & E). apply Bool.andb_true_iff in E. destruct E as [E1 E2]. apply Z.eqb_eq in E1. exists t. auto.
    - destruct H as (t & Ht & E1 & E2). unfold in_pyset. apply existsb_exists. exists t. rewrite E1, E2, Z.eqb_refl. auto. }
  assert (Len : (forall s, In s p -> exists t, In t q /\ sel_eq t s = true /\ sel_hash h t = sel_hash h s) -> length p <= length q).
  { intros H. apply nodup_len; auto. intros x Hx. destruct (H x Hx) as (t & Ht & E & _). exists t. auto. }
  destruct (Nat.ltb_spec (length q) (length p)) as [L|L].
  - split; [discriminate|]. intros [H _]. specialize (Len H). lia.
  - destruct (Nat.eqb_spec (length p) (length q)) as [El|Nl]; cbn [andb].
    + destruct (pyset_subset h p q) eqn:Es.
      * split; [intros ->; split; [apply Sub; reflexivity|auto]|]. intros [_ H]. auto.
      * split; [discriminate|]. intros [H _]. apply Sub in H. discriminate.
    + rewrite Sub. split; [intros H; split; [exact H|intros; contradiction]|tauto].
Qed.
Lemma subset_length : forall p q, nodup_eq p -> nodup_eq q -> (forall s, In s p -> member s q) -> (length p = length q <-> forall t, In t q -> member t p).
Proof.
  intros p q Np Nq H. split.
  - intros L t Ht. apply memberb_spec. destruct (memberb t p) eqn:E; auto. exfalso. apply memberb_false in E.
    assert (K : length (t :: p) <= length q).
    { apply nodup_len; [split; [now apply memberb_false|exact Np]|]. intros x [<-|Hx]; [apply member_In, Ht|auto]. }
    cbn [length] in K. lia.
  - intros H'. apply Nat.le_antisymm; apply nodup_len; auto.
Qed.
(** Read up to [==] and whatever the hash of texts: exactly when inclusion never relates values of different types only. *)
Lemma refinement_eq_exact : forall p q, sorted_strictly p -> sorted_strictly q -> (forall s, In s (p ++ q) -> wf_value (s_val s)) ->
  ((forall h flag, pattern_is_refinement h p q flag = true <-> (forall s, In s p -> member s q) /\ ((forall t, In t q -> member t p) -> flag = true)) <->
   ((forall s, In s p -> member s q) -> forall s, In s p -> exists t, In t q /\ sel_eq t s = true /\ same_type (s_val t) (s_val s))).
Proof.
  intros p q Hp Hq W. pose proof (sorted_nodup_eq p Hp) as Np. pose proof (sorted_nodup_eq q Hq) as Nq. split.
  - intros H HM s Hs. set (h := fun x => if String.eqb x (sel_str s) then 0%Z else 1%Z).
    destruct (proj1 (refinement_exact h p q true Hp Hq) (proj2 (H h true) (conj HM (fun _ => eq_refl)))) as [R _].
    destruct (R s Hs) as (t & Ht & E & Eh). exists t. split; [exact Ht|]. split; [exact E|].
    apply (proj1 (hash_exact t s (W t ltac:(apply in_app_iff; auto)) (W s ltac:(apply in_app_iff; auto)) E)).
    unfold sel_hash, h in Eh. rewrite String.eqb_refl in Eh. destruct (String.eqb_spec (sel_str t) (sel_str s)) as [K|K]; [|discriminate].
    intros h'. unfold sel_hash. congruence.
  - intros H h flag. rewrite (refinement_exact h p q flag Hp Hq). split.
    + intros [A B]. assert (HM : forall s, In s p -> member s q) by (intros s Hs; destruct (A s Hs) as (t & Ht & E & _); exists t; auto).
      split; [exact HM|]. intros K. apply B. apply (subset_length p q Np Nq HM). exact K.
    + intros [HM B]. split.
      * intros s Hs. destruct (H HM s Hs) as (t & Ht & E & T). exists t. split; [exact Ht|]. split; [exact E|].
        exact (proj2 (hash_exact t s (W t ltac:(apply in_app_iff; auto)) (W s ltac:(apply in_app_iff; auto)) E) T h).
      * intros K. apply B. apply (subset_length p q Np Nq HM). exact K.
Qed.
