(** Facts about stable sorting, bisection and total preorders. *)
From Verif Require Import Base.
Open Scope list_scope.
Open Scope nat_scope.

Lemma insert_by_perm {A} (ltb : A -> A -> bool) x l : Permutation (x :: l) (insert_by ltb x l).
Proof.
  induction l as [|y ys IH]; simpl; [reflexivity|].
  destruct (ltb y x); [|reflexivity].
  rewrite perm_swap. now constructor.
Qed.
Lemma sort_by_perm {A} (ltb : A -> A -> bool) l : Permutation l (sort_by ltb l).
Proof.
  induction l as [|x xs IH]; simpl; [reflexivity|].
  rewrite IH at 1. apply insert_by_perm.
Qed.
Lemma sort_by_in {A} (ltb : A -> A -> bool) l x : In x (sort_by ltb l) <-> In x l.
Proof.
  split; intro H; [eapply Permutation_in; [symmetry; apply sort_by_perm|exact H]
                  |eapply Permutation_in; [apply sort_by_perm|exact H]].
Qed.
Lemma sort_by_length {A} (ltb : A -> A -> bool) l : length (sort_by ltb l) = length l.
Proof. symmetry. apply Permutation_length, sort_by_perm. Qed.

Lemma insert_by_ext {A} (f g : A -> A -> bool) x l :
  (forall y, In y l -> f y x = g y x) -> insert_by f x l = insert_by g x l.
Proof.
  induction l as [|y ys IH]; simpl; intro H; [reflexivity|].
  rewrite (H y) by auto. destruct (g y x); [|reflexivity].
  f_equal. apply IH. auto.
Qed.
Lemma sort_by_ext {A} (f g : A -> A -> bool) l :
  (forall x y, In x l -> In y l -> f x y = g x y) -> sort_by f l = sort_by g l.
Proof.
  induction l as [|x xs IH]; simpl; intro H; [reflexivity|].
  rewrite IH by (intros a b Ha Hb; apply H; now right).
  apply insert_by_ext. intros y Hy. apply (proj1 (sort_by_in g _ _)) in Hy. apply H; [now right|now left].
Qed.

Section Preorder.
  Variable A : Type.
  Variable cmp : A -> A -> comparison.
  Hypothesis cmp_sym : forall a b, cmp b a = CompOpp (cmp a b).
  Hypothesis cmp_trans : forall a b c, cmp a b <> Gt -> cmp b c <> Gt -> cmp a c <> Gt.

  Definition cltb a b := match cmp a b with Lt => true | _ => false end.

  Lemma cmp_refl a : cmp a a = Eq.
  Proof. pose proof (cmp_sym a a) as H. destruct (cmp a a); simpl in H; congruence. Qed.
  Lemma cltb_lt a b : cltb a b = true <-> cmp a b = Lt.
  Proof. unfold cltb. destruct (cmp a b); split; congruence. Qed.
  Lemma cltb_false a b : cltb a b = false <-> cmp b a <> Gt.
  Proof. unfold cltb. rewrite (cmp_sym a b). destruct (cmp a b); simpl; split; congruence. Qed.
  Lemma cmp_lt_gt a b : cmp a b = Lt <-> cmp b a = Gt.
  Proof. rewrite (cmp_sym a b). destruct (cmp a b); simpl; split; congruence. Qed.
  Lemma cmp_eq_sym a b : cmp a b = Eq <-> cmp b a = Eq.
  Proof. rewrite (cmp_sym a b). destruct (cmp a b); simpl; split; congruence. Qed.
  Lemma clt_le_trans a b c : cmp a b = Lt -> cmp b c <> Gt -> cmp a c = Lt.
  Proof.
    intros H1 H2. destruct (cmp a c) eqn:E; [|reflexivity|].
    - exfalso. assert (Hba : cmp b a <> Gt).
      { apply (cmp_trans b c a); [exact H2|]. rewrite (proj1 (cmp_eq_sym a c) E). congruence. }
      apply Hba. now apply cmp_lt_gt.
    - exfalso. apply (cmp_trans a b c) in H2; [|congruence]. contradiction.
  Qed.
  Lemma cle_lt_trans a b c : cmp a b <> Gt -> cmp b c = Lt -> cmp a c = Lt.
  Proof.
    intros H1 H2. destruct (cmp a c) eqn:E; [|reflexivity|].
    - exfalso. assert (Hcb : cmp c b <> Gt).
      { apply (cmp_trans c a b); [|exact H1]. rewrite (proj1 (cmp_eq_sym a c) E). congruence. }
      apply Hcb. now apply cmp_lt_gt.
    - exfalso. assert (H3 : cmp b c <> Gt) by congruence.
      apply (cmp_trans a b c H1) in H3. contradiction.
  Qed.
  Lemma clt_trans a b c : cmp a b = Lt -> cmp b c = Lt -> cmp a c = Lt.
  Proof. intros H1 H2. apply (clt_le_trans a b c H1). congruence. Qed.
  Lemma eq_trans_cmp a b c : cmp a b = Eq -> cmp b c = Eq -> cmp a c = Eq.
  Proof.
    intros H1 H2.
    assert (H3 : cmp a c <> Gt) by (apply (cmp_trans a b c); congruence).
    assert (H4 : cmp c a <> Gt).
    { apply (cmp_trans c b a); [rewrite (proj1 (cmp_eq_sym b c) H2)|rewrite (proj1 (cmp_eq_sym a b) H1)]; congruence. }
    destruct (cmp a c) eqn:E; [reflexivity| |contradiction].
    apply cmp_lt_gt in E. congruence.
  Qed.
  Lemma cmp_eq_l a b c : cmp a b = Eq -> cmp a c = cmp b c.
  Proof.
    intro H. destruct (cmp b c) eqn:E.
    - now apply (eq_trans_cmp a b c).
    - apply (cle_lt_trans a b c); congruence.
    - apply cmp_lt_gt. apply cmp_lt_gt in E. apply (clt_le_trans c b a E).
      rewrite (proj1 (cmp_eq_sym a b) H). congruence.
  Qed.
  Lemma cmp_eq_r a b c : cmp a b = Eq -> cmp c a = cmp c b.
  Proof.
    intro H. rewrite (cmp_sym a c), (cmp_sym b c). f_equal. now apply cmp_eq_l.
  Qed.

  Definition le_ a b := cmp a b <> Gt.
  Definition lt_ a b := cmp a b = Lt.

  Lemma insert_sorted x l : StronglySorted le_ l -> StronglySorted le_ (insert_by cltb x l).
  Proof.
    induction l as [|y ys IH]; simpl; intro H.
    - repeat constructor.
    - inversion H as [|? ? Hs Hf]; subst.
      destruct (cltb y x) eqn:E.
      + constructor; [now apply IH|].
        apply Forall_forall. intros z Hz.
        apply (Permutation_in z (Permutation_sym (insert_by_perm cltb x ys))) in Hz.
        destruct Hz as [<-|Hz].
        * apply cltb_lt in E. unfold le_. congruence.
        * now apply (proj1 (Forall_forall _ _) Hf).
      + apply cltb_false in E. constructor; [assumption|].
        constructor; [assumption|].
        eapply Forall_impl; [|exact Hf]. intros z Hz. now apply (cmp_trans x y z).
  Qed.
  Lemma sort_sorted l : StronglySorted le_ (sort_by cltb l).
  Proof. induction l as [|x xs IH]; simpl; [constructor|now apply insert_sorted]. Qed.

  (** Two sorted permutations without equivalent distinct elements coincide. *)
  Lemma sorted_perm_unique l1 l2 :
    StronglySorted lt_ l1 -> StronglySorted lt_ l2 -> Permutation l1 l2 -> l1 = l2.
  Proof.
    revert l2. induction l1 as [|x xs IH]; intros l2 H1 H2 HP.
    - now apply Permutation_nil in HP.
    - destruct l2 as [|y ys]; [symmetry in HP; now apply Permutation_nil in HP|].
      inversion H1 as [|? ? Hs1 Hf1]; inversion H2 as [|? ? Hs2 Hf2]; subst.
      rewrite Forall_forall in Hf1, Hf2.
      assert (x = y).
      { destruct (Permutation_in x HP (or_introl eq_refl)) as [E|Hin]; [now symmetry|].
        destruct (Permutation_in y (Permutation_sym HP) (or_introl eq_refl)) as [E|Hin']; [assumption|].
        specialize (Hf1 y Hin'). specialize (Hf2 x Hin). unfold lt_ in *.
        apply cmp_lt_gt in Hf2. congruence. }
      subst y. f_equal. apply IH; try assumption.
      now apply Permutation_cons_inv in HP.
  Qed.

  (** * bisect_left *)
  Lemma bisect_loop_spec a x fuel lo hi :
    lo <= hi -> hi <= length a -> hi - lo < fuel ->
    (forall i j y z, i <= j -> nth_error a i = Some y -> nth_error a j = Some z -> cmp y z <> Gt) ->
    (forall i y, i < lo -> nth_error a i = Some y -> cltb y x = true) ->
    (forall i y, hi <= i -> nth_error a i = Some y -> cltb y x = false) ->
    let r := bisect_loop cltb a x fuel lo hi in
    r <= length a /\
    (forall i y, i < r -> nth_error a i = Some y -> cltb y x = true) /\
    (forall i y, r <= i -> nth_error a i = Some y -> cltb y x = false).
  Proof.
    revert lo hi. induction fuel as [|fuel IH]; intros lo hi Hle Hhi Hf Hmono Hlo Hhi2; [lia|].
    cbn [bisect_loop]. destruct (Nat.ltb_spec lo hi) as [Hlt|Hge].
    - assert (Hmid : lo <= (lo + hi) / 2 < hi).
      { split; [apply Nat.div_le_lower_bound; lia|apply Nat.div_lt_upper_bound; lia]. }
      destruct (nth_error a ((lo + hi) / 2)) as [y|] eqn:E.
      + destruct (cltb y x) eqn:El.
        * apply IH; try assumption; try lia.
          intros i z Hi Hz. apply cltb_lt. apply cltb_lt in El.
          apply (cle_lt_trans z y x); [|assumption].
          apply (Hmono i ((lo + hi) / 2)); try assumption; lia.
        * apply IH; try assumption; try lia.
          intros i z Hi Hz. apply cltb_false. apply cltb_false in El.
          apply (cmp_trans x y z); [assumption|].
          apply (Hmono ((lo + hi) / 2) i); try assumption; lia.
      + exfalso. apply nth_error_None in E. lia.
    - assert (lo = hi) by lia. subst hi. split; [lia|]. split; assumption.
  Qed.

  Lemma StronglySorted_nth (R : A -> A -> Prop) l :
    StronglySorted R l ->
    forall i j y z, i < j -> nth_error l i = Some y -> nth_error l j = Some z -> R y z.
  Proof.
    induction 1 as [|x l Hs IH Hf]; intros i j y z Hij Hy Hz.
    - destruct i; discriminate.
    - destruct j as [|j]; [lia|]. simpl in Hz.
      destruct i as [|i]; simpl in Hy.
      + inversion Hy; subst. apply (proj1 (Forall_forall _ _) Hf). now apply nth_error_In in Hz.
      + eapply IH; [|exact Hy|exact Hz]. lia.
  Qed.

  Lemma bisect_left_spec a x :
    StronglySorted le_ a ->
    let r := bisect_left cltb a x in
    r <= length a /\
    (forall y, In y (firstn r a) -> cmp y x = Lt) /\
    (forall y, In y (skipn r a) -> cmp x y <> Gt).
  Proof.
    intro Hs. unfold bisect_left.
    destruct (bisect_loop_spec a x (S (length a)) 0 (length a)) as (H1 & H2 & H3); try lia.
    - intros i j y z Hij Hy Hz. destruct (Nat.eq_dec i j) as [->|Hne].
      + rewrite Hy in Hz. inversion Hz. subst. rewrite cmp_refl. congruence.
      + apply (StronglySorted_nth le_ a Hs i j); try assumption. lia.
    - intros i y Hi Hy. assert (Hn : nth_error a i <> None) by congruence. apply nth_error_Some in Hn. lia.
    - cbv zeta. split; [exact H1|]. split; intros y Hy.
      + apply In_nth_error in Hy. destruct Hy as [i Hi].
        assert (Hlt : i < length (firstn (bisect_loop cltb a x (S (length a)) 0 (length a)) a)).
        { apply nth_error_Some. congruence. }
        rewrite firstn_length in Hlt.
        apply cltb_lt. apply (H2 i); [lia|].
        rewrite <- (firstn_skipn (bisect_loop cltb a x (S (length a)) 0 (length a)) a).
        rewrite nth_error_app1; [exact Hi|]. rewrite firstn_length. lia.
      + apply In_nth_error in Hy. destruct Hy as [i Hi].
        apply cltb_false. apply (H3 (bisect_loop cltb a x (S (length a)) 0 (length a) + i)); [lia|].
        rewrite <- (firstn_skipn (bisect_loop cltb a x (S (length a)) 0 (length a)) a) at 1.
        rewrite nth_error_app2; rewrite firstn_length; [|lia].
        rewrite Nat.min_l by lia. rewrite <- Hi. f_equal. lia.
  Qed.

  Lemma SS_app l1 l2 (R : A -> A -> Prop) :
    StronglySorted R (l1 ++ l2) <->
    StronglySorted R l1 /\ StronglySorted R l2 /\ (forall x y, In x l1 -> In y l2 -> R x y).
  Proof.
    induction l1 as [|a l1 IH]; simpl.
    - split; [intro H; repeat split; try assumption; [constructor|contradiction]|intros (_ & H & _); exact H].
    - split.
      + intro H. inversion H as [|? ? Hs Hf]; subst. apply IH in Hs. destruct Hs as (Ha & Hb & Hc).
        rewrite Forall_app in Hf. destruct Hf as [Hf1 Hf2].
        repeat split; [constructor; assumption|assumption|].
        intros x y [<-|Hx] Hy; [now apply (proj1 (Forall_forall _ _) Hf2)|now apply Hc].
      + intros (Ha & Hb & Hc). inversion Ha as [|? ? Hs Hf]; subst. constructor.
        * apply IH. repeat split; try assumption. intros x y Hx Hy. apply Hc; auto.
        * apply Forall_app. split; [assumption|]. apply Forall_forall. intros y Hy. apply Hc; auto.
  Qed.
  Lemma SS_lt_le l : StronglySorted lt_ l -> StronglySorted le_ l.
  Proof.
    induction 1 as [|x l Hs IH Hf]; constructor; [assumption|].
    eapply Forall_impl; [|exact Hf]. unfold lt_, le_. intros. congruence.
  Qed.
End Preorder.

Lemma bisect_loop_ext {A} (f g : A -> A -> bool) a x fuel lo hi :
  (forall y, In y a -> f y x = g y x) ->
  bisect_loop f a x fuel lo hi = bisect_loop g a x fuel lo hi.
Proof.
  intro H. revert lo hi. induction fuel as [|fuel IH]; intros lo hi; cbn [bisect_loop]; [reflexivity|].
  destruct (lo <? hi); [|reflexivity].
  destruct (nth_error a ((lo + hi) / 2)) as [y|] eqn:E; [|reflexivity].
  rewrite (H y) by (now apply nth_error_In in E). destruct (g y x); apply IH.
Qed.
Lemma bisect_left_ext {A} (f g : A -> A -> bool) a x :
  (forall y, In y a -> f y x = g y x) -> bisect_left f a x = bisect_left g a x.
Proof. apply bisect_loop_ext. Qed.
