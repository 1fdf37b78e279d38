(** Pattern histories (C06) and pattern equality (C07). *)
From Verif Require Import Base OrderFacts CoreModel CoreSpec CoreOrder.
Open Scope list_scope.
Open Scope nat_scope.

Fixpoint nodup_eq (l : list selector) : Prop :=
  match l with [] => True | x :: l' => memberb x l' = false /\ nodup_eq l' end.

(** Python's list indices. *)
Lemma index_spec : forall {A} (l : list A) i, py_index l i = element_number (length l) i.
Proof.
  intros A l i. unfold py_index, element_number. destruct (Z.leb_spec 0 i) as [H|H]; cbn [andb].
  - destruct (Z.ltb_spec i (Z.of_nat (length l))); [reflexivity|]. destruct (Z.ltb_spec i 0); [lia|]. rewrite andb_false_r. reflexivity.
  - destruct (Z.ltb_spec i 0); [|lia]. rewrite andb_true_r. destruct (Z.leb_spec 0 (i + Z.of_nat (length l))); destruct (Z.leb_spec (- Z.of_nat (length l)) i); try lia; [f_equal; lia|reflexivity].
Qed.
Lemma memberb_spec s l : memberb s l = true <-> member s l.
Proof. unfold memberb, member. rewrite existsb_exists. reflexivity. Qed.
Lemma memberb_false s l : memberb s l = false <-> ~ member s l.
Proof. rewrite <- memberb_spec. destruct (memberb s l); split; congruence. Qed.
Lemma member_eq s t l : sel_eq s t = true -> member s l -> member t l.
Proof. intros E (x & Hx & Ex). exists x. split; [assumption|now apply sel_eq_trans with s]. Qed.
Lemma member_In s l : In s l -> member s l.
Proof. intro H. exists s. split; [assumption|apply sel_eq_refl]. Qed.

Lemma nodup_len a : forall b, nodup_eq a -> (forall x, In x a -> member x b) -> length a <= length b.
Proof.
  induction a as [|x a IH]; intros b Hn Hm; simpl; [lia|].
  destruct Hn as [Hx Hn].
  destruct (Hm x (or_introl eq_refl)) as (y & Hy & Eyx).
  apply in_split in Hy. destruct Hy as (b1 & b2 & ->).
  rewrite app_length. simpl.
  assert (length a <= length (b1 ++ b2)).
  { apply IH; [assumption|]. intros z Hz. destruct (Hm z (or_intror Hz)) as (w & Hw & Ewz).
    apply in_app_iff in Hw. destruct Hw as [Hw|[<-|Hw]].
    - exists w. split; [apply in_app_iff; now left|assumption].
    - exfalso. apply memberb_false in Hx. apply Hx. exists z. split; [assumption|].
      apply sel_eq_trans with y; [rewrite sel_eq_sym; assumption|assumption].
    - exists w. split; [apply in_app_iff; now right|assumption]. }
  rewrite app_length in H. lia.
Qed.
Lemma nodup_len_eq a b : nodup_eq a -> nodup_eq b -> (forall x, member x a <-> member x b) -> length a = length b.
Proof.
  intros Ha Hb H. apply Nat.le_antisymm; apply nodup_len; try assumption; intros x Hx; apply H; now apply member_In.
Qed.
Lemma sorted_nodup l : StronglySorted slt l -> nodup_eq l.
Proof.
  induction 1 as [|x l Hs IH Hf]; simpl; [exact I|]. split; [|assumption].
  apply memberb_false. intros (y & Hy & E). apply sel_eq_scmp in E.
  rewrite Forall_forall in Hf. apply Hf in Hy. unfold lt_ in Hy.
  apply (cmp_eq_sym _ scmp scmp_sym) in E. congruence.
Qed.
Lemma nodup_filter f l : nodup_eq l -> nodup_eq (filter f l).
Proof.
  induction l as [|x l IH]; simpl; [trivial|]. intros [Hx Hn].
  destruct (f x); [|now apply IH]. simpl. split; [|now apply IH].
  apply memberb_false. apply memberb_false in Hx. intros (y & Hy & E). apply filter_In in Hy.
  apply Hx. exists y. tauto.
Qed.
Lemma member_filter f l s : (forall a b, sel_eq a b = true -> f a = f b) ->
  (member s (filter f l) <-> member s l /\ f s = true).
Proof.
  intro Hf. split.
  - intros (x & Hx & E). apply filter_In in Hx. destruct Hx as [Hx Hfx]. split; [now exists x|].
    rewrite <- (Hf x s E). assumption.
  - intros [(x & Hx & E) Hfs]. exists x. split; [|assumption]. apply filter_In. split; [assumption|].
    rewrite (Hf x s E). assumption.
Qed.

(** * index-based removal *)
Definition rank (l : list selector) (x : selector) : nat := length (filter (fun y => sltb y x) l).

Lemma sltb_eq_l a b c : sel_eq a b = true -> sltb a c = sltb b c.
Proof. intro E. apply sel_eq_scmp in E. unfold sltb, cltb. now rewrite (cmp_eq_l _ scmp scmp_sym scmp_trans a b c E). Qed.
Lemma sltb_eq_r a b c : sel_eq a b = true -> sltb c a = sltb c b.
Proof. intro E. apply sel_eq_scmp in E. unfold sltb, cltb. now rewrite (cmp_eq_r _ scmp scmp_sym scmp_trans a b c E). Qed.

Lemma rank_same p S x : nodup_eq p -> nodup_eq S -> (forall t, member t p <-> member t S) -> rank p x = rank S x.
Proof.
  intros Hp HS H. unfold rank. apply nodup_len_eq; try (now apply nodup_filter).
  intro t. rewrite !member_filter by (intros a b E; now apply sltb_eq_l). rewrite H. tauto.
Qed.
Lemma filter_none {A} (f : A -> bool) l : (forall x, In x l -> f x = false) -> filter f l = [].
Proof.
  induction l as [|x l IH]; simpl; intro H; [reflexivity|].
  rewrite (H x) by (now left). apply IH. intros y Hy. apply H. now right.
Qed.
Lemma rank_sorted l1 x l2 : StronglySorted slt (l1 ++ x :: l2) -> rank (l1 ++ x :: l2) x = length l1.
Proof.
  intro Hs. apply SS_app in Hs. destruct Hs as (_ & H2 & H12). unfold rank. rewrite filter_app.
  rewrite (filter_all _ l1).
  - rewrite (filter_none _ (x :: l2)); [now rewrite app_nil_r|].
    inversion H2 as [|? ? Hs Hf]; subst. rewrite Forall_forall in Hf.
    intros y Hy. apply (cltb_false _ scmp scmp_sym). destruct Hy as [<-|Hy].
    + rewrite (cmp_refl _ scmp scmp_sym). congruence.
    + rewrite (Hf y Hy). congruence.
  - intros y Hy. apply cltb_lt. apply H12; [assumption|now left].
Qed.
Lemma list_pop_sorted p k : StronglySorted slt p ->
  list_pop k p = filter (fun x => negb (rank p x =? k)) p.
Proof.
  intro Hs. unfold list_pop.
  assert (Hrank : forall i x, nth_error p i = Some x -> rank p x = i).
  { intros i x Hi. apply nth_error_split in Hi. destruct Hi as (l1 & l2 & Hp & Hl).
    rewrite Hp in *. rewrite <- Hl. now apply rank_sorted. }
  transitivity (filter (fun x => negb (rank p x =? k)) (firstn (S k) p ++ skipn (S k) p));
    [|now rewrite firstn_skipn].
  rewrite filter_app.
  rewrite (filter_all _ (skipn (S k) p)).
  - f_equal. destruct (Nat.lt_ge_cases k (length p)) as [Hlt|Hge].
    + destruct (nth_error p k) as [x|] eqn:E; [|apply nth_error_None in E; lia].
      assert (Hk : firstn (S k) p = firstn k p ++ [x]).
      { clear Hs Hrank. revert p E Hlt. induction k as [|k IH]; intros [|y p] E Hlt; simpl in *; try discriminate; try lia.
        - congruence.
        - f_equal. apply IH; [assumption|lia]. }
      rewrite Hk, filter_app. simpl. rewrite (Hrank k x E), Nat.eqb_refl. simpl. rewrite app_nil_r.
      symmetry. apply filter_all. intros y Hy. apply In_nth_error in Hy. destruct Hy as [j Hj].
      assert (Hjk : j < length (firstn k p)) by (apply nth_error_Some; congruence).
      rewrite firstn_length in Hjk.
      rewrite (Hrank j y).
      * apply negb_true_iff, Nat.eqb_neq. lia.
      * rewrite <- (firstn_skipn k p), nth_error_app1; [assumption|rewrite firstn_length; lia].
    + rewrite !firstn_all2 by lia. symmetry. apply filter_all.
      intros y Hy. apply In_nth_error in Hy. destruct Hy as [j Hj]. rewrite (Hrank j y Hj).
      assert (j < length p) by (apply nth_error_Some; congruence).
      apply negb_true_iff, Nat.eqb_neq. lia.
  - intros y Hy. apply In_nth_error in Hy. destruct Hy as [j Hj].
    assert (Hj' : nth_error p (S k + j) = Some y).
    { rewrite <- (firstn_skipn (S k) p). 
      destruct (Nat.lt_ge_cases (S k) (length p)) as [Hlt|Hge].
      - rewrite nth_error_app2; rewrite firstn_length, Nat.min_l by lia; [|lia].
        rewrite <- Hj. f_equal. lia.
      - rewrite skipn_all2 in Hj by lia. destruct j; discriminate. }
    rewrite (Hrank _ y Hj'). apply negb_true_iff, Nat.eqb_neq. lia.
Qed.

(** * Histories *)
Definition Rel (U : list selector) (p S : list selector) : Prop :=
  StronglySorted slt p /\ nodup_eq S /\ incl p U /\ incl S U /\ (forall t, member t p <-> member t S).

Lemma Rel_length U p S : Rel U p S -> length p = length S.
Proof. intros (H1 & H2 & _ & _ & H5). apply nodup_len_eq; try assumption. now apply sorted_nodup. Qed.

Lemma set_add_spec S s : nodup_eq S ->
  nodup_eq (set_add S s) /\ incl (set_add S s) (s :: S) /\ (forall t, member t (set_add S s) <-> member t (s :: S)).
Proof.
  intro H. unfold set_add. destruct (memberb s S) eqn:E.
  - repeat split; [assumption|apply incl_tl, incl_refl| |].
    + intros (x & Hx & Ex). exists x. split; [now right|assumption].
    + intros (x & [<-|Hx] & Ex); [|now exists x]. apply memberb_spec in E. now apply member_eq with s.
  - repeat split; try assumption; try apply incl_refl; auto.
Qed.

Lemma Rel_init U l : homogeneous U -> incl l U -> Rel U (pattern_init l) (fold_left set_add l []).
Proof.
  intros HU Hl.
  assert (Hh : homogeneous l) by (intros a b Ha Hb; apply HU; now apply Hl).
  destruct (pattern_init_spec l Hh) as (H1 & H2 & H3).
  assert (Hfold : forall l acc, nodup_eq acc ->
     nodup_eq (fold_left set_add l acc) /\ incl (fold_left set_add l acc) (acc ++ l) /\
     (forall t, member t (fold_left set_add l acc) <-> member t (acc ++ l))).
  { clear. induction l as [|x l IH]; intros acc Hacc; simpl.
    - rewrite app_nil_r. repeat split; auto. apply incl_refl.
    - destruct (set_add_spec acc x Hacc) as (Ha & Hb & Hc).
      destruct (IH _ Ha) as (H1 & H2 & H3). split; [assumption|]. split.
      + intros y Hy. apply H2 in Hy. apply in_app_iff in Hy. destruct Hy as [Hy|Hy].
        * apply Hb in Hy. destruct Hy as [<-|Hy]; apply in_app_iff; [right; now left|now left].
        * apply in_app_iff. right. now right.
      + intro t. rewrite H3. split; intros (y & Hy & E); apply in_app_iff in Hy.
        * destruct Hy as [Hy|Hy]; [|exists y; split; [apply in_app_iff; right; now right|assumption]].
          assert (Hm : member t (set_add acc x)) by (now exists y). apply Hc in Hm.
          destruct Hm as (z & [<-|Hz] & Ez); [exists x|exists z]; (split; [|assumption]); apply in_app_iff; [right; now left|now left].
        * assert (Hm : member t (x :: acc) \/ In y l).
          { destruct Hy as [Hy|[<-|Hy]]; [left; exists y; split; [now right|assumption]|left; exists x; split; [now left|assumption]|now right]. }
          destruct Hm as [Hm|Hm].
          -- apply Hc in Hm. destruct Hm as (z & Hz & Ez). exists z. split; [apply in_app_iff; now left|assumption].
          -- exists y. split; [apply in_app_iff; now right|assumption]. }
  destruct (Hfold l [] I) as (F1 & F2 & F3). simpl in *.
  repeat split; try assumption.
  - intros x Hx. apply Hl. now apply H2.
  - intros x Hx. apply Hl. now apply F2.
  - intro H. apply F3. now apply H3.
  - intro H. apply H3. now apply F3.
Qed.

Lemma SS_filter {A} (R : A -> A -> Prop) f l : StronglySorted R l -> StronglySorted R (filter f l).
Proof.
  induction 1 as [|x l Hs IH Hf]; simpl; [constructor|]. destruct (f x); [|assumption].
  constructor; [assumption|]. rewrite Forall_forall in *. intros y Hy. apply filter_In in Hy. apply Hf. tauto.
Qed.

Lemma Rel_step U p S o : homogeneous U -> Rel U p S -> incl (op_selectors o) U ->
  Rel U (pattern_step p o) (set_step S o).
Proof.
  intros HU HR Ho. pose proof (Rel_length _ _ _ HR) as Hlen. destruct HR as (H1 & H2 & H3 & H4 & H5).
  destruct o as [s|s|i]; simpl in *.
  - assert (Hc : compat p s) by (intros x Hx; apply HU; [now apply H3|apply Ho; now left]).
    destruct (add_selector_spec p s H1 Hc) as (A1 & A2 & A3 & _).
    destruct (set_add_spec S s H2) as (B1 & B2 & B3).
    assert (Hs : In s U) by (apply Ho; now left).
    repeat split; try assumption.
    + intros x Hx. apply A2 in Hx. destruct Hx as [<-|Hx]; [assumption|now apply H3].
    + intros x Hx. apply B2 in Hx. destruct Hx as [<-|Hx]; [assumption|now apply H4].
    + intro Hm. apply B3. apply A3 in Hm. destruct Hm as (x & [<-|Hx] & Ex).
      * exists s. split; [now left|assumption].
      * assert (Hm : member t S) by (apply H5; now exists x). destruct Hm as (y & Hy & Ey). exists y. split; [now right|assumption].
    + intro Hm. apply A3. apply B3 in Hm. destruct Hm as (x & [<-|Hx] & Ex).
      * exists s. split; [now left|assumption].
      * assert (Hm : member t p) by (apply H5; now exists x). destruct Hm as (y & Hy & Ey). exists y. split; [now right|assumption].
  - assert (Hc : compat p s) by (intros x Hx; apply HU; [now apply H3|apply Ho; now left]).
    rewrite (remove_selector_spec p s H1 Hc). unfold set_remove.
    assert (Hf : forall a b, sel_eq a b = true -> negb (sel_eq a s) = negb (sel_eq b s)).
    { intros a b E. f_equal. rewrite !sel_eq_cmp. apply sel_eq_scmp in E.
      now rewrite (cmp_eq_l _ scmp scmp_sym scmp_trans a b s E). }
    repeat split.
    + now apply SS_filter.
    + now apply nodup_filter.
    + intros x Hx. apply filter_In in Hx. apply H3. tauto.
    + intros x Hx. apply filter_In in Hx. apply H4. tauto.
    + rewrite !member_filter by assumption. rewrite H5. tauto.
    + rewrite !member_filter by assumption. rewrite H5. tauto.
  - unfold remove_by_index.
    assert (Hpi : py_index p i = element_number (length S) i) by (rewrite index_spec; now rewrite Hlen).
    rewrite Hpi. destruct (element_number (length S) i) as [k|]; [|repeat split; try assumption; apply H5].
    rewrite list_pop_sorted by assumption.
    assert (HSk : set_remove_kth S k = filter (fun x => negb (rank p x =? k)) S).
    { unfold set_remove_kth. apply filter_ext_in. intros x Hx. do 2 f_equal.
      rewrite (rank_same p S x (sorted_nodup _ H1) H2 H5). unfold rank. f_equal. apply filter_ext_in.
      intros y Hy. apply sel_lt_cmp. apply HU; now apply H4. }
    rewrite HSk.
    assert (Hf : forall a b, sel_eq a b = true -> negb (rank p a =? k) = negb (rank p b =? k)).
    { intros a b E. do 2 f_equal. unfold rank. f_equal. apply filter_ext. intro y. now apply sltb_eq_r. }
    repeat split.
    + now apply SS_filter.
    + now apply nodup_filter.
    + intros x Hx. apply filter_In in Hx. apply H3. tauto.
    + intros x Hx. apply filter_In in Hx. apply H4. tauto.
    + rewrite !member_filter by assumption. rewrite H5. tauto.
    + rewrite !member_filter by assumption. rewrite H5. tauto.
Qed.

Lemma Rel_history U l0 ops : homogeneous U -> incl l0 U -> incl (flat_map op_selectors ops) U ->
  Rel U (pattern_history l0 ops) (set_history l0 ops).
Proof.
  intros HU Hl Hops. unfold pattern_history, set_history.
  pose proof (Rel_init U l0 HU Hl) as HR.
  revert HR Hops. generalize (pattern_init l0) as p, (fold_left set_add l0 []) as S.
  induction ops as [|o ops IH]; intros p S HR Hops; simpl; [assumption|].
  apply IH.
  - apply Rel_step; [assumption|assumption|]. intros x Hx. apply Hops. simpl. apply in_app_iff. now left.
  - intros x Hx. apply Hops. simpl. apply in_app_iff. now right.
Qed.

Lemma pattern_history_correct U l0 ops :
  homogeneous U -> incl l0 U -> incl (flat_map op_selectors ops) U ->
  sorted_strictly (pattern_history l0 ops) /\
  pattern_len (pattern_history l0 ops) = length (set_history l0 ops) /\
  forall s, In s U -> (pattern_contains (pattern_history l0 ops) s = true <-> member s (set_history l0 ops)).
Proof.
  intros HU Hl Hops. pose proof (Rel_history U l0 ops HU Hl Hops) as HR.
  pose proof (Rel_length _ _ _ HR) as Hlen. destruct HR as (H1 & H2 & H3 & H4 & H5).
  split; [apply sorted_strictly_slt; [intros a b Ha Hb; apply HU; now apply H3|assumption]|].
  split; [exact Hlen|].
  intros s Hs. rewrite pattern_contains_spec; [apply H5|assumption|].
  intros x Hx. apply HU; [now apply H3|assumption].
Qed.

(** * Equality (C07) *)
Lemma pattern_ne_eq p q : pattern_ne p q = negb (pattern_eq p q).
Proof.
  unfold pattern_ne, pattern_eq. destruct (length p =? length q); simpl; [|reflexivity].
  revert q. induction p as [|x p IH]; intros [|y q]; simpl; try reflexivity.
  destruct (sel_ne x y); [reflexivity|apply IH].
Qed.
Lemma Forall2_len {A B} (R : A -> B -> Prop) l l' : Forall2 R l l' -> length l = length l'.
Proof. induction 1; simpl; congruence. Qed.
Lemma pattern_eq_Forall2 p q : pattern_eq p q = true <-> Forall2 (fun x y => sel_eq x y = true) p q.
Proof.
  unfold pattern_eq. split.
  - destruct (Nat.eqb_spec (length p) (length q)) as [E|]; simpl; [|discriminate].
    revert q E. induction p as [|x p IH]; intros [|y q] E; simpl in *; try discriminate; [constructor|].
    rewrite sel_ne_neg. destruct (sel_eq x y) eqn:Exy; simpl; [|discriminate].
    intro H. constructor; [assumption|]. apply IH; [lia|assumption].
  - intro H. rewrite (Forall2_len _ _ _ H), Nat.eqb_refl. simpl.
    induction H as [|x y p q E H IH]; simpl; [reflexivity|]. now rewrite sel_ne_neg, E.
Qed.
Lemma sorted_same_members p : forall q,
  StronglySorted slt p -> StronglySorted slt q -> (forall s, member s p <-> member s q) ->
  Forall2 (fun x y => sel_eq x y = true) p q.
Proof.
  induction p as [|x p IH]; intros [|y q] Hp Hq Hm.
  - constructor.
  - exfalso. destruct (proj2 (Hm y) (member_In y (y :: q) (or_introl eq_refl))) as (z & [] & _).
  - exfalso. destruct (proj1 (Hm x) (member_In x (x :: p) (or_introl eq_refl))) as (z & [] & _).
  - inversion Hp as [|? ? Hp1 Hp2]; inversion Hq as [|? ? Hq1 Hq2]; subst. rewrite Forall_forall in Hp2, Hq2.
    assert (E : scmp x y = Eq).
    { destruct (proj1 (Hm x) (member_In x (x :: p) (or_introl eq_refl))) as (z & Hz & Ez).
      destruct (proj2 (Hm y) (member_In y (y :: q) (or_introl eq_refl))) as (w & Hw & Ew).
      apply sel_eq_scmp in Ez, Ew.
      destruct Hz as [<-|Hz]; [now apply (cmp_eq_sym _ scmp scmp_sym)|].
      destruct Hw as [<-|Hw]; [assumption|].
      apply Hq2 in Hz. apply Hp2 in Hw. unfold lt_ in *.
      rewrite (cmp_eq_r _ scmp scmp_sym scmp_trans z x y Ez) in Hz.
      rewrite (cmp_eq_r _ scmp scmp_sym scmp_trans w y x Ew) in Hw.
      apply (cmp_lt_gt _ scmp scmp_sym) in Hw. congruence. }
    constructor; [now apply sel_eq_scmp|].
    apply IH; try assumption. intro s. split; intros (z & Hz & Ez).
    + destruct (proj1 (Hm s)) as (w & [<-|Hw] & Ew).
      * exists z. split; [now right|assumption].
      * exfalso. apply Hp2 in Hz. apply sel_eq_scmp in Ez, Ew. unfold lt_ in Hz.
        rewrite (cmp_eq_r _ scmp scmp_sym scmp_trans z s x Ez) in Hz.
        rewrite (cmp_eq_l _ scmp scmp_sym scmp_trans x y s E) in Hz. congruence.
      * now exists w.
    + destruct (proj2 (Hm s)) as (w & [<-|Hw] & Ew).
      * exists z. split; [now right|assumption].
      * exfalso. apply Hq2 in Hz. apply sel_eq_scmp in Ez, Ew. unfold lt_ in Hz.
        rewrite (cmp_eq_r _ scmp scmp_sym scmp_trans z s y Ez) in Hz.
        rewrite <- (cmp_eq_l _ scmp scmp_sym scmp_trans x y s E) in Hz. congruence.
      * now exists w.
Qed.
Lemma pattern_eq_sorted p q : StronglySorted slt p -> StronglySorted slt q ->
  (pattern_eq p q = true <-> forall s, member s p <-> member s q).
Proof.
  intros Hp Hq. rewrite pattern_eq_Forall2. split.
  - intros H s. split; intros (z & Hz & Ez).
    + revert z Hz Ez. induction H as [|x y p q E H IH]; intros z Hz Ez; [destruct Hz|].
      inversion Hp; inversion Hq; subst.
      destruct Hz as [<-|Hz].
      * exists y. split; [now left|]. rewrite sel_eq_sym. apply sel_eq_trans with x; [now rewrite sel_eq_sym|assumption].
      * destruct (IH ltac:(assumption) ltac:(assumption) z Hz Ez) as (w & Hw & Ew). exists w. split; [now right|assumption].
    + revert z Hz Ez. induction H as [|x y p q E H IH]; intros z Hz Ez; [destruct Hz|].
      inversion Hp; inversion Hq; subst.
      destruct Hz as [<-|Hz].
      * exists x. split; [now left|]. now apply sel_eq_trans with y.
      * destruct (IH ltac:(assumption) ltac:(assumption) z Hz Ez) as (w & Hw & Ew). exists w. split; [now right|assumption].
  - now apply sorted_same_members.
Qed.
Lemma pattern_eq_init l1 l2 : homogeneous (l1 ++ l2) ->
  (pattern_eq (pattern_init l1) (pattern_init l2) = true <-> forall s, member s l1 <-> member s l2).
Proof.
  intro H.
  assert (H1 : homogeneous l1) by (intros a b Ha Hb; apply H; apply in_app_iff; now left).
  assert (H2 : homogeneous l2) by (intros a b Ha Hb; apply H; apply in_app_iff; now right).
  destruct (pattern_init_spec l1 H1) as (A1 & A2 & A3). destruct (pattern_init_spec l2 H2) as (B1 & B2 & B3).
  rewrite pattern_eq_sorted by assumption. split; intros Hm s; specialize (Hm s); rewrite A3, B3 in *; exact Hm.
Qed.
Lemma add_present p s : StronglySorted slt p -> compat p s -> member s p -> add_selector p s = p.
Proof.
  intros Hs Hc Hm. unfold add_selector.
  destruct (bisect_split p s Hs Hc) as (Hi & Hl & Hr). set (i := bisect_left sel_lt p s) in *.
  pose proof (proj2 (pattern_contains_spec p s Hs Hc) Hm) as Hct. unfold pattern_contains in Hct.
  destruct p as [|x0 p']; [discriminate|]. fold i in Hct.
  destruct (nth_error (x0 :: p') i) as [x|]; [|discriminate]. now rewrite sel_ne_neg, Hct.
Qed.
Lemma add_remove_absent p s : StronglySorted slt p -> compat p s -> ~ member s p ->
  remove_selector (add_selector p s) s = p.
Proof.
  intros Hs Hc Hm. destruct (add_selector_spec p s Hs Hc) as (A1 & A2 & A3 & A4).
  rewrite remove_selector_spec; [|assumption|].
  - unfold set_remove.
    assert (Hp : filter (fun x => negb (sel_eq x s)) p = p).
    { apply filter_all. intros y Hy. apply negb_true_iff. apply not_true_is_false. intro E. apply Hm. now exists y. }
    assert (Hss : sel_eq s s = true) by apply sel_eq_refl.
    unfold add_selector. destruct (nth_error p (bisect_left sel_lt p s)) as [x|] eqn:E.
    + rewrite sel_ne_neg. destruct (sel_eq x s) eqn:Exs; simpl; [exact Hp|].
      unfold list_insert. rewrite filter_app. simpl. rewrite Hss. simpl.
      rewrite <- filter_app, firstn_skipn. exact Hp.
    + rewrite filter_app. simpl. rewrite Hss. simpl. now rewrite app_nil_r.
  - intros x Hx. apply A2 in Hx. destruct Hx as [<-|Hx]; [intros _ _; reflexivity|now apply Hc].
Qed.
