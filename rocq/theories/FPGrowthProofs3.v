(** FP-growth visits each frequent set of selectors exactly once, with its counts. *)
From Verif Require Export FPGrowthProofs2.
From Verif Require Import OrderFacts.
Open Scope list_scope.
Open Scope nat_scope.

(** * All the combinations *)
Lemma combos_hd : forall A (l : list A), exists r, generate_all_combinations l = [] :: r.
Proof. induction l as [|x l [r IH]]; cbn [generate_all_combinations]; [exists []; auto|]. rewrite IH. cbn [app]. eauto. Qed.
Lemma combos_in : forall A (l Y : list A), In Y (generate_all_combinations l) -> incl Y l /\ (NoDup l -> NoDup Y).
Proof.
  induction l as [|x l IH]; intros Y I; cbn [generate_all_combinations] in I.
  - destruct I as [<-|[]]. split; [intros y []|constructor].
  - apply in_app_or in I. destruct I as [I|I].
    + destruct (IH Y I) as [H1 H2]. split; [intros y Iy; right; auto|]. intros ND; inversion ND; auto.
    + apply in_map_iff in I. destruct I as (Z & <- & I). destruct (IH Z I) as [H1 H2]. split.
      * intros y [->|Iy]; [left; auto|right; auto].
      * intros ND; inversion ND; subst. constructor; auto.
Qed.
Lemma combos_complete : forall (l Y : list selector), NoDup l -> NoDup Y -> incl Y l ->
  exists Z, In Z (generate_all_combinations l) /\ Permutation Y Z.
Proof.
  intros l Y NDl NDY I. exists (filter (fun x => inb x Y) l). split.
  - clear. induction l as [|x l IH]; cbn [filter generate_all_combinations]; [left; auto|].
    apply in_or_app. destruct (inb x Y); [right; apply in_map; auto|left; auto].
  - apply NoDup_Permutation; auto; [apply NoDup_filter; auto|]. intros x. rewrite filter_In, inb_true. intuition.
Qed.
Definition diff (Y Z : list selector) : Prop := ~ Permutation Y Z.
Lemma FOP_app : forall A (R : A -> A -> Prop) l1 l2, ForallOrdPairs R l1 -> ForallOrdPairs R l2 ->
  (forall x y, In x l1 -> In y l2 -> R x y) -> ForallOrdPairs R (l1 ++ l2).
Proof.
  intros A R l1 l2 H1 H2 H. induction H1 as [|x l1 F H1 IH]; cbn [app]; auto. constructor.
  - apply Forall_app. split; auto. apply Forall_forall. intros y Iy. apply H; auto. left; auto.
  - apply IH. intros; apply H; auto; right; auto.
Qed.
Lemma FOP_map : forall A B (f : A -> B) (R : A -> A -> Prop) (Q : B -> B -> Prop) l, (forall x y, R x y -> Q (f x) (f y)) ->
  ForallOrdPairs R l -> ForallOrdPairs Q (map f l).
Proof.
  intros A B f R Q l H F. induction F as [|x l F0 F IH]; cbn [map]; constructor; auto.
  apply Forall_map. eapply Forall_impl; [|exact F0]. auto.
Qed.
Lemma combos_diff : forall l : list selector, NoDup l -> ForallOrdPairs diff (generate_all_combinations l).
Proof.
  induction l as [|x l IH]; intros ND; cbn [generate_all_combinations]; [constructor; constructor|].
  inversion ND; subst. apply FOP_app; auto.
  - apply (FOP_map _ _ (cons x) diff); auto. intros Y Z D P. apply D. apply Permutation_cons_inv in P; auto.
  - intros Y Z IY IZ P. apply in_map_iff in IZ. destruct IZ as (W & <- & _). apply combos_in in IY. destruct IY as [IY _].
    assert (In x Y) by (apply (Permutation_in x (Permutation_sym P)); left; auto). auto.
Qed.

Lemma bool_iff : forall a b : bool, (a = true <-> b = true) -> a = b.
Proof. intros [] [] H; auto; destruct H as [H1 H2]; [symmetry|]; auto. Qed.

Section Growth.
  Variable U : selector -> Prop.
  Hypothesis U_nominal : forall s, U s -> nominal s.
  Hypothesis U_key : forall s t, U s -> U t -> skey s = skey t -> s = t.
  Variable ok : Z -> Z -> bool.
  Hypothesis ok_mono : forall a b a' b', (a <= a' -> b <= b' -> ok a b = true -> ok a' b' = true)%Z.
  Notation good := (good U ok).
  Notation itemset := (itemset ok).

  (** * Single paths *)
  Lemma childs_in : forall ps k p s c, In (s, c) (childs_from k ps p) <-> exists i q, c = k + i /\ nth_error ps i = Some q /\ removelast q = p /\ lastsel q = s.
  Proof.
    induction ps as [|q ps IH]; intros k p s c; cbn [childs_from].
    - split; [intros []|]. intros (i & q & _ & H & _). destruct i; discriminate.
    - assert (G : In (s, c) (childs_from (S k) ps p) <-> exists i r, c = k + S i /\ nth_error ps i = Some r /\ removelast r = p /\ lastsel r = s).
      { rewrite IH. split; intros (i & r & E & H); exists i, r; split; auto; lia. }
      destruct (path_eq_dec (removelast q) p) as [E|E]; cbn [In].
      + rewrite G. split.
        * intros [H|(i & r & H)]; [injection H as <- <-; exists 0, q; repeat split; auto; lia|exists (S i), r; auto].
        * intros ([|i] & r & -> & H1 & H2 & H3); cbn in H1; [injection H1 as ->; left; f_equal; auto; lia|right; exists i, r; auto].
      + rewrite G. split.
        * intros (i & r & H); exists (S i), r; auto.
        * intros ([|i] & r & -> & H1 & H2 & H3); cbn in H1; [injection H1 as ->; contradiction|exists i, r; auto].
  Qed.
  Lemma prefix_next : forall (p q : path), prefix p q -> q <> p -> exists s, prefix (p ++ [s]) q.
  Proof.
    intros p q [r ->] N. destruct r as [|s r]; [rewrite app_nil_r in N; contradiction|]. exists s, r. rewrite <- app_assoc. auto.
  Qed.
  Lemma prefix_closed : forall ps p q, valid ps -> prefix p q -> p <> [] -> In q ps -> In p ps.
  Proof.
    intros ps p q (ND & NE & PC & F) [r ->] Np. revert r. induction r as [|s r IH] using rev_ind; [rewrite app_nil_r; auto|].
    rewrite app_assoc. intros I. apply PC in I. destruct I as [I|I]; auto. destruct p; [contradiction|discriminate].
  Qed.
  Lemma single_path_spec : forall t A, represents t A -> forall fuel p c,
    (p = [] \/ In p (paths A)) -> pid (paths A) p = Some c -> fuel + length p = S (length A) ->
    (forall q, In q (paths A) -> prefix q p \/ prefix p q) ->
    exists b, single_path_loop fuel (t_nodes t) c = Ok b /\
      (b = true -> exists ch, forall q, In q (paths A) -> prefix q ch).
  Proof.
    intros t A R. pose proof R as (V & L & _). pose proof V as (ND & NE & PC & F).
    induction fuel as [|f IH]; intros p c Ip E Hf H.
    - exfalso. pose proof (paths_length (paths A) p V Ip). unfold paths in H0. rewrite map_length in H0. lia.
    - cbn [single_path_loop]. destruct (node_at t A p c R Ip E) as (n & Hn & Hc & _). rewrite Hn, Hc.
      destruct (childs_from 1 (paths A) p) as [|[s c'] [|x l]] eqn:Ech.
      + exists true. split; auto. intros _. exists p. intros q Iq. destruct (H q Iq) as [|P]; auto.
        destruct (path_eq_dec q p) as [->|N]; [exists []; rewrite app_nil_r; auto|].
        destruct (prefix_next p q P N) as [s Ps].
        assert (I : In (p ++ [s]) (paths A)) by (apply (prefix_closed _ _ q V); auto; destruct p; discriminate).
        destruct (In_nth_error _ _ I) as [i Hi].
        assert (In (s, 1 + i) (childs_from 1 (paths A) p)).
        { apply childs_in. exists i, (p ++ [s]). rewrite removelast_last, lastsel_app. auto. }
        rewrite Ech in H0. destruct H0.
      + assert (I : In (s, c') (childs_from 1 (paths A) p)) by (rewrite Ech; left; auto).
        apply childs_in in I. destruct I as (i & q0 & -> & Hi & Eq & Es).
        assert (N0 : q0 <> []). { intros ->. apply NE. apply nth_error_In in Hi. auto. }
        assert (q0 = p ++ [s]) by (rewrite (path_split q0 N0); congruence). subst q0.
        apply (IH (p ++ [s]) (1 + i)).
        * right. apply nth_error_In in Hi; auto.
        * apply pid_node; auto.
        * rewrite app_length; cbn; lia.
        * intros q Iq. destruct (H q Iq) as [[r Hr]|P]; [left; exists (r ++ [s]); rewrite Hr, <- app_assoc; auto|].
          destruct (path_eq_dec q p) as [->|N]; [left; exists [s]; auto|]. destruct (prefix_next p q P N) as [s' Ps].
          assert (I : In (p ++ [s']) (paths A)) by (apply (prefix_closed _ _ q V); auto; destruct p; discriminate).
          destruct (In_nth_error _ _ I) as [j Hj].
          assert (J : In (s', 1 + j) (childs_from 1 (paths A) p)).
          { apply childs_in. exists j, (p ++ [s']). rewrite removelast_last, lastsel_app. auto. }
          rewrite Ech in J. destruct J as [J|[]]. injection J as -> _. right; auto.
      + exists false. split; auto. discriminate.
  Qed.
  Lemma single_path : forall t D, represents t (build D) -> exists b, there_is_a_single_path t = Ok b /\
    (b = true -> exists ch, forall e, In e D -> prefix (fst e) ch).
  Proof.
    intros t D R. unfold there_is_a_single_path.
    destruct (single_path_spec t (build D) R (length (t_nodes t)) [] 0) as (b & E & H); auto.
    - destruct R as (_ & L & _). cbn [length]. lia.
    - intros q _. right. exists q; auto.
    - exists b. split; auto. intros Hb. destruct (H Hb) as [ch Hch]. exists ch. intros [p w] Ie.
      destruct p as [|x p']; [exists ch; auto|]. apply Hch, paths_build. cbn [fst]. split; [discriminate|].
      exists (x :: p', w). split; auto. exists []; rewrite app_nil_r; auto.
  Qed.
  (** The deepest element of a set on the chain. *)
  Lemma deepest : forall ch Y, Y <> [] -> incl Y ch -> NoDup ch -> exists y, In y Y /\ forall t, prefix t ch -> (subb Y t = true <-> In y t).
  Proof.
    induction ch as [|x ch IH] using rev_ind; intros Y NY I ND.
    - exfalso. destruct Y as [|y Y]; [contradiction|]. apply (I y); left; auto.
    - destruct (in_dec selector_eq_dec x Y) as [Ix|Nx].
      + exists x. split; auto. intros t [r Hr]. rewrite subb_true. split; [auto|]. intros It.
        assert (r = []).
        { destruct r as [|z r]; auto. exfalso. destruct (exists_last (l := z :: r)) as (r' & z' & Er); [discriminate|].
          rewrite Er, app_assoc in Hr. apply app_inj_tail in Hr. destruct Hr as [Hr _].
          apply NoDup_remove_2 in ND. rewrite app_nil_r in ND. apply ND. rewrite Hr. apply in_or_app; auto. }
        subst r. rewrite app_nil_r in Hr. subst t. auto.
      + assert (I' : incl Y ch).
        { intros y Iy. specialize (I y Iy). apply in_app_or in I. destruct I as [|[<-|[]]]; auto. contradiction. }
        assert (ND' : NoDup ch) by (apply NoDup_remove_1 in ND; rewrite app_nil_r in ND; auto).
        destruct (IH Y NY I' ND') as (y & Iy & Hy). exists y. split; auto. intros t [r Hr].
        destruct (list_eq_dec selector_eq_dec t (ch ++ [x])) as [->|Nt].
        * rewrite subb_true. split; [auto|]. intros _. intros z Iz. apply in_or_app; auto.
        * apply Hy. destruct (exists_last (l := r)) as (r' & z' & Er); [intros ->; rewrite app_nil_r in Hr; congruence|].
          rewrite Er, app_assoc in Hr. apply app_inj_tail in Hr. exists r'. tauto.
  Qed.

  (** * FP-growth with any visitor *)
  Section Visit.
    Context {St : Type}.
    Variable visit : St -> pattern * (Z * Z) -> res St.
    Variable hdr : fptree -> list selector.
    Variables mtp mfp mn : option Z.
    Hypothesis Hok : thresholds mtp mfp mn = Ok ok.
    Hypothesis hdr_perm : forall t lt D, good lt D -> tree_for t D -> Permutation (hdr t) (keys (paths (build D))).

    Fixpoint fpg (fuel : nat) (t : fptree) (alpha : list selector) (st : St) {struct fuel} : res St :=
      match fuel with
      | O => Err OutOfFuel
      | S f =>
          do single <- there_is_a_single_path t;
          if single then
            do combos <- remove_empty (generate_all_combinations (t_sorted t));
            fold_res (single_path_visit visit t alpha) combos st
          else
            fold_res (fun st ai =>
              match sel_assoc ai (t_header t) with
              | None => Err KeyError
              | Some e =>
                  do st <- visit st (pattern_init (ai :: alpha), (he_tp e, he_fp e));
                  do ct <- generate_conditional_fp_tree t (ai :: alpha) mtp mfp mn;
                  if is_empty ct then Ok st else fpg f ct (ai :: alpha) st
              end) (hdr t) st
      end.

    Definition call (alpha : list selector) (st : St) (v : list selector * (Z * Z)) : res St :=
      visit st (pattern_init (fst v ++ alpha), snd v).
    (** [V] enumerates the frequent sets of [D] with their counts, each once. *)
    Definition enumerates (D : db) (V : list (list selector * (Z * Z))) : Prop :=
      (forall v, In v V -> itemset D (fst v) /\ snd v = (cnt true D (fst v), cnt false D (fst v))) /\
      (forall Y, itemset D Y -> exists v, In v V /\ Permutation Y (fst v)) /\
      ForallOrdPairs (fun v w => diff (fst v) (fst w)) V.

    Lemma occurs : forall lt D Y, good lt D -> (0 < cn D Y)%Z -> exists e, In e D /\ incl Y (fst e).
    Proof.
      intros lt D Y G P. unfold cn, cnt in P. apply cnt_pos in P; [|apply G]. destruct P as (e & Ie & H). exists e. rewrite subb_true in H. auto.
    Qed.
    Lemma sorted_perm : forall t D, tree_for t D -> Permutation (keys (paths (build D))) (t_sorted t).
    Proof. intros t D [_ ->]. apply sort_by_perm. Qed.
    Lemma singleton_itemset : forall lt D s, good lt D -> In s (keys (paths (build D))) -> itemset D [s].
    Proof.
      intros lt D s G Is. apply keys_build in Is. destruct Is as (e & Ie & Is). destruct G as (_ & _ & W & _ & O).
      split; [discriminate|]. split; [constructor; [intros []|constructor]|]. split.
      - unfold cn, cnt. apply cnt_pos; auto. exists e. split; auto. apply subb_true. intros x [<-|[]]; auto.
      - apply (O e); auto.
    Qed.
    Lemma itemset_keys : forall lt D Y, good lt D -> itemset D Y -> incl Y (keys (paths (build D))).
    Proof.
      intros lt D Y G (_ & _ & P & _). destruct (occurs lt D Y G P) as (e & Ie & I). intros y Iy. apply keys_build. exists e; auto.
    Qed.
    Lemma sort_by_sorted_n : forall (f : selector -> Z) l, StronglySorted (fun x y => (f x <= f y)%Z) (sort_by (fun x y => (f x <? f y)%Z) l).
    Proof.
      induction l as [|x l IH]; cbn [sort_by]; [constructor|]. revert IH. generalize (sort_by (fun x y => (f x <? f y)%Z) l). intros m S.
      induction S as [|y m S IHm F]; cbn [insert_by]; [repeat constructor|]. destruct (f y <? f x)%Z eqn:E.
      - apply Z.ltb_lt in E. constructor; auto. apply Forall_forall. intros z Iz.
        apply (Permutation_in z (Permutation_sym (insert_by_perm _ x m))) in Iz. destruct Iz as [<-|Iz]; [lia|]. rewrite Forall_forall in F; auto.
      - apply Z.ltb_ge in E. constructor; [constructor; auto|]. constructor; auto. rewrite Forall_forall in *. intros z Iz. specialize (F z Iz). lia.
    Qed.
    Lemma most_unfrequent_spec : forall (f : selector -> Z) l beta, Forall nominal l -> Forall nominal beta ->
      StronglySorted (fun x y => (f x <= f y)%Z) l -> beta <> [] -> incl beta l ->
      exists s, most_unfrequent l beta = Ok s /\ In s beta /\ forall b, In b beta -> (f s <= f b)%Z.
    Proof.
      intros f l beta Nl Nb S NE I.
      assert (G : forall b, In b beta -> In b l) by auto. clear I.
      induction S as [|x l S IH F]; cbn [most_unfrequent].
      - exfalso. destruct beta as [|b beta]; [contradiction|]. destruct (G b); left; auto.
      - inversion Nl; subst. destruct (existsb (fun b => sel_eq b x) beta) eqn:E.
        + apply existsb_exists in E. destruct E as (b & Ib & Eb). rewrite Forall_forall in Nb. apply sel_eq_nominal in Eb; auto. subst b.
          exists x. split; auto. split; auto. intros b Hb. destruct (G b Hb) as [->|I]; [lia|]. rewrite Forall_forall in F; auto.
        + apply IH; auto. intros b Ib. destruct (G b Ib) as [->|]; auto. exfalso.
          rewrite <- not_true_iff_false in E. apply E. apply existsb_exists. exists b. split; auto. rewrite Forall_forall in Nb. apply sel_eq_nominal; auto.
    Qed.

    Lemma is_empty_spec : forall t D, represents t (build D) -> (is_empty t = true <-> keys (paths (build D)) = []).
    Proof.
      intros t D R. unfold is_empty, number_of_children. pose proof R as (V & L & (r & Hr & Hc) & _). rewrite Hr, Hc.
      rewrite Nat.eqb_eq. split.
      - intros H. destruct (keys (paths (build D))) as [|s ks] eqn:E; auto. exfalso.
        assert (I : In s (keys (paths (build D)))) by (rewrite E; left; auto).
        apply keys_build in I. destruct I as (e & Ie & Is). destruct (fst e) as [|x p] eqn:Ee; [destruct Is|].
        assert (Ix : In [x] (paths (build D))). { apply paths_build. split; [discriminate|]. exists e. split; auto. exists p. rewrite Ee. auto. }
        destruct (In_nth_error _ _ Ix) as [i Hi].
        assert (In (x, 1 + i) (childs_from 1 (paths (build D)) [])).
        { apply childs_in. exists i, [x]. auto. }
        destruct (childs_from 1 (paths (build D)) []); [destruct H0|discriminate].
      - intros H. destruct (childs_from 1 (paths (build D)) []) as [|[s c] l] eqn:E; auto. exfalso.
        assert (I : In (s, c) (childs_from 1 (paths (build D)) [])) by (rewrite E; left; auto).
        apply childs_in in I. destruct I as (i & q & _ & Hi & _ & Es).
        assert (In s (keys (paths (build D)))). { apply keys_in, in_map_iff. exists q. split; auto. apply nth_error_In in Hi; auto. }
        rewrite H in H0. destruct H0.
    Qed.

    (** Cutting before the maximum *)
    Lemma before_sub : forall lt s Y t, order lt -> StronglySorted lt t -> In s t -> (forall y, In y Y -> lt y s) -> incl Y t -> incl Y (before s t).
    Proof.
      intros lt s Y t [Irr Tra] S Is HY I y Iy. specialize (I y Iy). specialize (HY y Iy).
      induction S as [|x t S IH F]; [destruct I|]. cbn [before]. destruct (selector_eq_dec x s) as [->|N].
      - destruct I as [->|I]; [elim (Irr y); auto|]. rewrite Forall_forall in F. elim (Irr s). apply (Tra s y s); auto.
      - destruct I as [->|I]; [left; auto|]. right. apply IH; auto. destruct Is as [|]; [congruence|auto].
    Qed.
    Lemma before_incl : forall s t, incl (before s t) t.
    Proof.
      intros s. induction t as [|x t IH]; cbn [before]; [intros y []|]. destruct (selector_eq_dec x s); [intros y []|].
      intros y [->|I]; [left; auto|right; auto].
    Qed.
    Lemma before_lt : forall lt s t y, StronglySorted lt t -> In s t -> In y (before s t) -> lt y s.
    Proof.
      intros lt s t y S. induction S as [|x t S IH F]; intros Is I; [destruct I|]. cbn [before] in I.
      destruct (selector_eq_dec x s) as [->|N]; [destruct I|]. destruct Is as [|Is]; [congruence|].
      destruct I as [->|I]; [rewrite Forall_forall in F; auto|auto].
    Qed.
    Lemma cpr_max : forall lt D s Y k, good lt D -> (forall y, In y Y -> lt y s) -> cpr k D s Y = cnt k D (Y ++ [s]).
    Proof.
      intros lt D s Y k G HY. unfold cpr, cnt. apply asum_ext. intros e Ie. destruct G as (O & _ & _ & S & _).
      assert (Q : subb (Y ++ [s]) (fst e) = true <-> inb s (fst e) && subb Y (before s (fst e)) = true).
      { rewrite andb_true_iff, !subb_true, inb_true. split.
        - intros I. assert (Is : In s (fst e)) by (apply I, in_or_app; right; left; auto). split; auto.
          apply (before_sub lt); auto. intros y Iy; apply I, in_or_app; auto.
        - intros [Is I] y Iy. apply in_app_or in Iy. destruct Iy as [Iy|[<-|[]]]; auto. apply (before_incl s); auto. }
      apply bool_iff. symmetry. exact Q.
    Qed.
    Lemma cpr_lt : forall lt D s Y, good lt D -> (0 < cpr true D s Y + cpr false D s Y)%Z -> forall y, In y Y -> lt y s.
    Proof.
      intros lt D s Y G P y Iy. unfold cpr in P. apply cnt_pos in P; [|apply G]. destruct P as (e & Ie & H).
      rewrite andb_true_iff, inb_true, subb_true in H. destruct H as [Is I]. apply (before_lt lt s (fst e)); auto. apply G; auto.
    Qed.
    Lemma max_of : forall lt D Y, good lt D -> itemset D Y -> exists s Z, Permutation Y (Z ++ [s]) /\ In s (keys (paths (build D))) /\
      forall y, In y Z -> lt y s.
    Proof.
      intros lt D Y G H. pose proof H as (NY & ND & P & _). destruct (occurs lt D Y G P) as (e & Ie & I).
      pose proof (itemset_keys lt D Y G H) as IK.
      pose proof G as (_ & _ & _ & S & _). specialize (S e Ie).
      assert (Pm : Permutation Y (filter (fun x => inb x Y) (fst e))).
      { apply NoDup_Permutation; auto; [apply NoDup_filter, (good_nodup U ok lt D); auto|]. intros x. rewrite filter_In, inb_true. intuition. }
      assert (S' : StronglySorted lt (filter (fun x => inb x Y) (fst e))).
      { clear -S. induction S as [|x l S IH F]; cbn [filter]; [constructor|]. destruct (inb x Y); auto. constructor; auto.
        apply Forall_forall. intros y Iy. apply filter_In in Iy. rewrite Forall_forall in F; apply F; tauto. }
      destruct (exists_last (l := filter (fun x => inb x Y) (fst e))) as (Z & s & EZ).
      { intros E. rewrite E in Pm. apply Permutation_sym, Permutation_nil in Pm. contradiction. }
      rewrite EZ in *. exists s, Z. split; auto. split.
      - apply IK. apply (Permutation_in s (Permutation_sym Pm)). apply in_or_app; right; left; auto.
      - clear -S'. intros y Iy. induction Z as [|z Z IH]; [destruct Iy|]. cbn [app] in S'. inversion S' as [|? ? S1 F]; subst.
        destruct Iy as [->|Iy]; auto. rewrite Forall_forall in F. apply F, in_or_app; right; left; auto.
    Qed.
    Lemma cnt_perm : forall k D Y Z, Permutation Y Z -> cnt k D Y = cnt k D Z.
    Proof.
      intros k D Y Z P. unfold cnt. apply asum_ext. intros e _.
      assert (Q : subb Y (fst e) = true <-> subb Z (fst e) = true).
      { rewrite !subb_true. split; intros I x Ix; apply I; [apply (Permutation_in x (Permutation_sym P))|apply (Permutation_in x P)]; auto. }
      apply bool_iff. exact Q.
    Qed.
    Lemma itemset_perm : forall D Y Z, Permutation Y Z -> itemset D Y -> itemset D Z.
    Proof.
      intros D Y Z P (H1 & H2 & H3 & H4). unfold FPGrowthProofs2.itemset, cn in *. rewrite <- !(cnt_perm _ D Y Z P).
      split; [|split; [apply (Permutation_NoDup P); auto|auto]]. intros ->. apply Permutation_sym, Permutation_nil in P. contradiction.
    Qed.

    Lemma single_visit : forall lt t D alpha ch, good lt D -> tree_for t D -> (forall e, In e D -> prefix (fst e) ch) ->
      exists V, enumerates D V /\ exists combos, remove_empty (generate_all_combinations (t_sorted t)) = Ok combos /\
        forall st, fold_res (single_path_visit visit t alpha) combos st = fold_res (call alpha) V st.
    Proof.
      intros lt t D alpha ch0 G T Hch0. pose proof (sorted_perm t D T) as PS.
      pose proof (keys_nodup (paths (build D))) as NDk. pose proof (Permutation_NoDup PS NDk) as NDs.
      (* restrict the chain to the longest transaction *)
      assert (exists ch, NoDup ch /\ (forall e, In e D -> prefix (fst e) ch) /\ (forall x, In x ch -> exists e, In e D /\ In x (fst e))) as (ch & NDc & Hch & Hcov).
      { clear PS NDk NDs. assert (Hn : forall e, In e D -> NoDup (fst e)) by (apply (good_nodup U ok lt); auto). clear G T.
        induction D as [|e D IH]; [exists []; split; [constructor|split; intros x []]|].
        destruct IH as (c1 & N1 & P1 & C1); [intros; apply Hch0; right; auto|intros; apply Hn; right; auto|].
        (* compare c1 and fst e: c1 is [] or a transaction *)
        assert (Hc1 : prefix c1 ch0 \/ True) by auto. clear Hc1.
        assert (L : forall (a b : path), prefix a ch0 -> prefix b ch0 -> length a <= length b -> prefix a b).
        { intros a b [r1 H1] [r2 H2] Hl. rewrite H1 in H2. clear -H2 Hl. revert b H2 Hl.
          induction a as [|x a IHa]; intros b H2 Hl; [exists b; auto|]. destruct b as [|y b]; [cbn in Hl; lia|]. cbn in H2. injection H2 as -> H2.
          destruct (IHa b H2 ltac:(cbn in Hl; lia)) as [r ->]. exists r; auto. }
        (* the longest transaction *)
        assert (exists m, In m (e :: D) /\ forall x, In x (e :: D) -> length (fst x) <= length (fst m)) as (m & Im & Hm).
        { clear. revert e. induction D as [|d D IH]; intros e; [exists e; split; [left; auto|intros x [<-|[]]; auto]|].
          destruct (IH d) as (m & Im & Hm). destruct (le_lt_dec (length (fst e)) (length (fst m))).
          - exists m. split; [right; auto|]. intros x [<-|Ix]; auto.
          - exists e. split; [left; auto|]. intros x [<-|Ix]; auto. specialize (Hm x Ix). lia. }
        exists (fst m). split; [apply Hn; auto|]. split.
        - intros x Ix. apply L; auto.
        - intros x Ix. exists m; auto. }
      assert (Kc : forall x, In x (keys (paths (build D))) <-> In x ch).
      { intros x. rewrite keys_build. split; [|apply Hcov]. intros (e & Ie & Ix). destruct (Hch e Ie) as [r ->]. apply in_or_app; auto. }
      destruct (combos_hd _ (t_sorted t)) as (r & Er).
      assert (Hr : forall Y, In Y r -> Y <> [] /\ NoDup Y /\ incl Y (keys (paths (build D)))).
      { intros Y IY. assert (I : In Y (generate_all_combinations (t_sorted t))) by (rewrite Er; right; auto).
        apply combos_in in I. destruct I as [I N]. split; [|split; auto].
        - intros ->. pose proof (combos_diff (t_sorted t) NDs) as Df. rewrite Er in Df. inversion Df as [|? ? F _]; subst.
          rewrite Forall_forall in F. apply (F [] IY). constructor.
        - intros y Iy. apply (Permutation_in y (Permutation_sym PS)); auto. }
      assert (HY : forall Y, Y <> [] -> NoDup Y -> incl Y (keys (paths (build D))) -> itemset D Y /\
         (forall s, In s Y -> (forall b, In b Y -> hn D s <= hn D b)%Z -> forall k, cnt k D [s] = cnt k D Y)).
      { intros Y NY NDY IY. destruct (deepest ch Y NY) as (y & Iy & Hy); auto; [intros z Iz; apply Kc; auto|].
        assert (Ey : forall k, cnt k D Y = cnt k D [y]).
        { intros k. unfold cnt. apply asum_ext. intros e Ie. specialize (Hy (fst e) (Hch e Ie)).
          unfold subb at 2; cbn [forallb]; rewrite andb_true_r.
          destruct (subb Y (fst e)) eqn:E1, (inb y (fst e)) eqn:E2; auto.
          - apply inb_false in E2. elim E2. apply Hy; auto.
          - apply inb_true in E2. apply Hy in E2. congruence. }
        destruct (singleton_itemset lt D y G (IY y Iy)) as (_ & _ & P & O). split.
        - unfold FPGrowthProofs2.itemset, cn. rewrite !Ey. auto.
        - intros s Is Hs k. rewrite Ey. specialize (Hs y Iy). unfold hn, cn in Hs.
          assert (M : forall k, (cnt k D [y] <= cnt k D [s])%Z).
          { intros k'. rewrite <- Ey. unfold cnt. apply asum_le; [apply G|]. intros e Ie Q. rewrite subb_true in *. intros z [<-|[]]. auto. }
          pose proof (M true). pose proof (M false). destruct k; lia. }
      exists (map (fun Y => (Y, (cnt true D Y, cnt false D Y))) r). split; [split; [|split]|].
      - intros v Iv. apply in_map_iff in Iv. destruct Iv as (Y & <- & IY). cbn [fst snd]. destruct (Hr Y IY) as (A1 & A2 & A3). split; auto. apply HY; auto.
      - intros Y H. pose proof H as (NY & NDY & _). pose proof (itemset_keys lt D Y G H) as IK.
        destruct (combos_complete (t_sorted t) Y NDs NDY) as (Z & IZ & PZ).
        { intros y Iy. apply (Permutation_in y PS); auto. }
        rewrite Er in IZ. destruct IZ as [<-|IZ]; [apply Permutation_sym, Permutation_nil in PZ; contradiction|].
        exists (Z, (cnt true D Z, cnt false D Z)). split; auto. apply in_map_iff. exists Z; auto.
      - apply (FOP_map _ _ _ diff); auto. pose proof (combos_diff (t_sorted t) NDs) as Df. rewrite Er in Df. inversion Df; auto.
      - exists r. split; [rewrite Er; reflexivity|]. intros st. rewrite fold_res_map. apply fold_res_ext. intros st' Y IY.
        destruct (Hr Y IY) as (A1 & A2 & A3). destruct (HY Y A1 A2 A3) as (B1 & B2).
        assert (NK : forall x, In x (keys (paths (build D))) -> nominal x).
        { intros x Ix. apply keys_build in Ix. destruct Ix as (e & Ie & Ix). apply U_nominal. destruct G as (_ & GU & _). apply (GU e); auto. }
        destruct (most_unfrequent_spec (hn D) (t_sorted t) Y) as (s & E1 & E2 & E3); auto.
        + apply Forall_forall. intros x Ix. apply NK, (Permutation_in x (Permutation_sym PS)); auto.
        + apply Forall_forall. auto.
        + destruct T as [_ ->]. apply sort_by_sorted_n.
        + intros y Iy. apply (Permutation_in y PS); auto.
        + unfold single_path_visit, call. rewrite E1. cbn [bind fst snd].
          rewrite (header_tree U ok lt t D s G T) by (apply NK; auto). destruct (in_dec _ _ _) as [_|N]; [|elim N; auto].
          cbn [he_tp he_fp]. rewrite !(B2 s E2 E3). reflexivity.
    Qed.

    Theorem fpg_spec : forall fuel lt t D alpha, good lt D -> tree_for t D -> length (keys (paths (build D))) < fuel ->
      exists V, enumerates D V /\ forall st, fpg fuel t alpha st = fold_res (call alpha) V st.
    Proof.
      induction fuel as [|f IH]; intros lt t D alpha G T Hf; [lia|].
      destruct (single_path t D) as (b & Eb & Hb); [apply T|].
      destruct b.
      - destruct (Hb eq_refl) as [ch Hch]. destruct (single_visit lt t D alpha ch G T Hch) as (V & EV & combos & Ec & H).
        exists V. split; auto. intros st. cbn [fpg]. rewrite Eb. cbn [bind]. rewrite Ec. cbn [bind]. apply H.
      - clear Hb.
        assert (NK : forall x, In x (keys (paths (build D))) -> nominal x).
        { intros x Ix. apply keys_build in Ix. destruct Ix as (e & Ie & Ix). apply U_nominal. destruct G as (_ & GU & _). apply (GU e); auto. }
        (* one branch *)
        assert (Br : forall s, In s (keys (paths (build D))) -> exists Vs,
           (forall v, In v Vs -> itemset D (fst v) /\ snd v = (cnt true D (fst v), cnt false D (fst v)) /\ In s (fst v) /\ forall y, In y (fst v) -> y = s \/ lt y s) /\
           (forall Z, itemset D (Z ++ [s]) -> (forall y, In y Z -> lt y s) -> exists v, In v Vs /\ Permutation (Z ++ [s]) (fst v)) /\
           ForallOrdPairs (fun v w => diff (fst v) (fst w)) Vs /\
           forall st, match sel_assoc s (t_header t) with
              | None => Err KeyError
              | Some e =>
                  do st <- visit st (pattern_init (s :: alpha), (he_tp e, he_fp e));
                  do ct <- generate_conditional_fp_tree t (s :: alpha) mtp mfp mn;
                  if is_empty ct then Ok st else fpg f ct (s :: alpha) st
              end = fold_res (call alpha) Vs st).
        { intros s Is. destruct (conditional_spec U U_nominal U_key ok ok_mono lt t D s alpha mtp mfp mn G T Is Hok) as (ct & D' & lt' & E & G' & T' & K' & C' & I' & _).
          assert (exists W, enumerates D' W /\ forall st, (if is_empty ct then Ok st else fpg f ct (s :: alpha) st) = fold_res (call (s :: alpha)) W st) as (W & EW & HW).
          { destruct (is_empty ct) eqn:Ee.
            - apply (is_empty_spec ct D' (proj1 T')) in Ee. exists []. split; [|reflexivity]. split; [intros v []|]. split; [|constructor].
              intros Y HY. pose proof (itemset_keys lt' D' Y G' HY) as IK. rewrite Ee in IK. destruct HY as (NY & _). destruct Y as [|y Y]; [contradiction|].
              destruct (IK y); left; auto.
            - destruct (IH lt' ct D' (s :: alpha) G' T') as (W & EW & HW).
              + assert (length (s :: keys (paths (build D'))) <= length (keys (paths (build D)))).
                { apply NoDup_incl_length; [constructor; [|apply keys_nodup]|].
                  - intros X. destruct (K' s X) as [_ N]. congruence.
                  - intros x [<-|X]; auto. apply K'; auto. }
                cbn [length] in H. lia.
              + exists W. auto. }
          destruct EW as (W1 & W2 & W3).
          assert (Ws : forall w, In w W -> itemset D (fst w ++ [s]) /\ snd w = (cnt true D (fst w ++ [s]), cnt false D (fst w ++ [s])) /\ forall y, In y (fst w) -> lt y s).
          { intros w Iw. destruct (W1 w Iw) as [Hi Hs]. pose proof (C' true _ Hi) as Ct. pose proof (C' false _ Hi) as Cf.
            pose proof (proj1 (I' (fst w)) Hi) as (A1 & A2 & A3 & A4). pose proof (cpr_lt lt D s (fst w) G A3) as L.
            rewrite !(cpr_max lt D s (fst w) _ G L) in *. split; [|split; auto; rewrite Hs, Ct, Cf; auto].
            split; [destruct (fst w); discriminate|]. split; [|auto].
            apply Permutation_NoDup with (l := s :: fst w); [apply Permutation_cons_append|]. constructor; auto.
            intros X. destruct G as ((Irr & _) & _). apply (Irr s), L; auto. }
          exists (([s], (cnt true D [s], cnt false D [s])) :: map (fun w => (fst w ++ [s], snd w)) W). split; [|split; [|split]].
          - intros v [<-|Iv]; cbn [fst snd].
            + split; [apply (singleton_itemset lt); auto|]. split; auto. split; [left; auto|]. intros y [->|[]]; auto.
            + apply in_map_iff in Iv. destruct Iv as (w & <- & Iw). cbn [fst snd]. destruct (Ws w Iw) as (A1 & A2 & A3).
              split; auto. split; auto. split; [apply in_or_app; right; left; auto|].
              intros y Iy. apply in_app_or in Iy. destruct Iy as [Iy|[->|[]]]; auto.
          - intros Z HZ L. destruct Z as [|z Z].
            + exists ([s], (cnt true D [s], cnt false D [s])). split; [left; auto|]. cbn [fst app]. auto.
            + assert (HI : itemset D' (z :: Z)).
              { apply I'. rewrite !(cpr_max lt D s (z :: Z) _ G L). destruct HZ as (A1 & A2 & A3 & A4).
                split; [discriminate|]. split; [|split; auto].
                apply NoDup_remove_1 in A2. rewrite app_nil_r in A2. auto. }
              destruct (W2 _ HI) as (w & Iw & Pw). exists (fst w ++ [s], snd w). split; [right; apply in_map_iff; exists w; auto|].
              cbn [fst]. apply Permutation_app_tail; auto.
          - constructor.
            + apply Forall_forall. intros v Iv. apply in_map_iff in Iv. destruct Iv as (w & <- & Iw). cbn [fst]. intros P.
              apply Permutation_length in P. rewrite app_length in P. destruct (W1 w Iw) as [(N & _) _]. destruct (fst w); [contradiction|]. cbn in P; lia.
            + apply (FOP_map _ _ _ (fun v w => diff (fst v) (fst w))); auto. intros v w Dvw P. cbn [fst] in P. apply Dvw. apply Permutation_app_inv_r in P; auto.
          - intros st. rewrite (header_tree U ok lt t D s G T) by auto. destruct (in_dec _ _ _) as [_|N]; [|elim N; auto].
            cbn [he_tp he_fp fold_res]. unfold call at 1. cbn [fst snd app].
            destruct (visit st (pattern_init (s :: alpha), (cnt true D [s], cnt false D [s]))) as [st'|]; cbn [bind]; auto.
            rewrite E. cbn [bind]. rewrite HW, fold_res_map. apply fold_res_ext. intros st'' w Iw. unfold call. cbn [fst snd].
            rewrite <- app_assoc. reflexivity. }
        (* all the branches *)
        assert (All : forall ls, NoDup ls -> incl ls (keys (paths (build D))) -> exists V,
           (forall v, In v V -> itemset D (fst v) /\ snd v = (cnt true D (fst v), cnt false D (fst v)) /\ exists s, In s ls /\ In s (fst v) /\ forall y, In y (fst v) -> y = s \/ lt y s) /\
           (forall s Z, In s ls -> itemset D (Z ++ [s]) -> (forall y, In y Z -> lt y s) -> exists v, In v V /\ Permutation (Z ++ [s]) (fst v)) /\
           ForallOrdPairs (fun v w => diff (fst v) (fst w)) V /\
           forall st, fold_res (fun st ai =>
              match sel_assoc ai (t_header t) with
              | None => Err KeyError
              | Some e =>
                  do st <- visit st (pattern_init (ai :: alpha), (he_tp e, he_fp e));
                  do ct <- generate_conditional_fp_tree t (ai :: alpha) mtp mfp mn;
                  if is_empty ct then Ok st else fpg f ct (ai :: alpha) st
              end) ls st = fold_res (call alpha) V st).
        { induction ls as [|s ls IHl]; intros ND I.
          - exists []. split; [intros v []|]. split; [intros s Z []|]. split; [constructor|reflexivity].
          - inversion ND; subst. destruct (IHl ltac:(auto) ltac:(intros x Ix; apply I; right; auto)) as (V & V1 & V2 & V3 & V4).
            destruct (Br s (I s (or_introl eq_refl))) as (Vs & S1 & S2 & S3 & S4).
            exists (Vs ++ V). split; [|split; [|split]].
            + intros v Iv. apply in_app_or in Iv. destruct Iv as [Iv|Iv].
              * destruct (S1 v Iv) as (A1 & A2 & A3). split; auto. split; auto. exists s. split; [left; auto|auto].
              * destruct (V1 v Iv) as (A1 & A2 & s' & A3 & A4). split; auto. split; auto. exists s'. split; [right; auto|auto].
            + intros s' Z [<-|Is'] HZ L.
              * destruct (S2 Z HZ L) as (v & Iv & P). exists v. split; auto. apply in_or_app; auto.
              * destruct (V2 s' Z Is' HZ L) as (v & Iv & P). exists v. split; auto. apply in_or_app; auto.
            + apply FOP_app; auto. intros v w Iv Iw P. destruct (S1 v Iv) as (_ & _ & A1 & A2). destruct (V1 w Iw) as (_ & _ & s' & B0 & B1 & B2).
              pose proof (Permutation_in s P A1) as Q1. pose proof (Permutation_in s' (Permutation_sym P) B1) as Q2.
              apply B2 in Q1. apply A2 in Q2. destruct Q1 as [->|Q1]; [contradiction|]. destruct Q2 as [->|Q2]; [contradiction|].
              destruct G as ((Irr & Tra) & _). apply (Irr s), (Tra s s' s); auto.
            + intros st. rewrite fold_res_app. cbn [fold_res]. rewrite S4.
              destruct (fold_res (call alpha) Vs st) as [st'|]; cbn [bind]; auto. }
        destruct (All (hdr t)) as (V & V1 & V2 & V3 & V4).
        { apply (Permutation_NoDup (Permutation_sym (hdr_perm t lt D G T))). apply keys_nodup. }
        { intros x Ix. apply (Permutation_in x (hdr_perm t lt D G T)); auto. }
        exists V. split; [split; [|split]|].
        + intros v Iv. destruct (V1 v Iv) as (A1 & A2 & _). auto.
        + intros Y HY. destruct (max_of lt D Y G HY) as (s & Z & P & Is & L).
          destruct (V2 s Z) as (v & Iv & Pv); auto.
          * apply (Permutation_in s (Permutation_sym (hdr_perm t lt D G T))); auto.
          * apply (itemset_perm D Y); auto.
          * exists v. split; auto. etransitivity; eauto.
        + exact V3.
        + intros st. cbn [fpg]. rewrite Eb. cbn [bind]. apply V4.
    Qed.
  End Visit.
End Growth.
