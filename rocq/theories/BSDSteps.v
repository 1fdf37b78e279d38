(** What one candidate does to the list of best subgroups of BSD, CBSD and CPBSD, and what is never evaluated after a candidate was pruned. *)
From Verif Require Export BSDProofs.
From Verif Require Import OrderFacts CoreOrder CorePattern CoreFrame SDMapProofs MiningProofs VLSDProofs Properties_SDMapStar.
Open Scope string_scope.
Open Scope list_scope.
Open Scope Z_scope.

(** The list before the [i]-th evaluated description. *)
Definition list_before {V} (c : bsd_config V) (l : list (pattern * list (bsd_entry V))) (i : nat) : list (bsd_entry V) :=
  match i with O => [dummy_entry c] | S j => match nth_error l j with Some (_, k) => k | None => [] end end.
Lemma before_app : forall {V} (c : bsd_config V) l m i, (i <= length l)%nat -> list_before c (l ++ m) i = list_before c l i.
Proof. intros V c l m [|i] H; cbn [list_before]; auto. rewrite nth_error_app1 by lia. reflexivity. Qed.
Lemma before_last : forall {V} (c : bsd_config V) l X k, list_before c (l ++ [(X, k)]) (length (l ++ [(X, k)])) = k.
Proof. intros V c l X k. rewrite app_length, Nat.add_1_r. cbn [list_before]. rewrite nth_error_app2, Nat.sub_diag by lia. reflexivity. Qed.

Section Steps.
  Context {V : Type}.
  Variable c : bsd_config V.
  Variable df : dataframe.
  Variables tcol tval : string.
  Hypothesis Hcat : categorical df.
  Hypothesis Hquo : distinct_texts df tcol.
  Hypothesis Hcol : has_column df tcol.
  Let tsel := Sel tcol EQUAL (VStr tval).
  Variable mask : list bool.
  Hypothesis Hmask : target_mask df tcol (VStr tval) = Ok mask.
  Notation L := (BSDRows.L df tcol mask (bc_min_support c)).
  Notation P := (prow df tcol tval).
  Notation N := (nrow df tcol tval).
  Notation bits := (bits_of df).
  Notation entry := (bsd_entry V).
  Notation state := (bsd_state V).
  Notation lt := (bc_lt c).
  Notation ok := (entry_ok c df tcol tval mask).
  Notation inv := (Inv c df tcol tval mask).
  Notation dom := (dominated df tcol tval).
  Notation meas := (quality (bc_measure c) df tcol tval).
  Notation est := (quality (bc_oe c) df tcol tval).
  Notation cr := (crow c df tcol tval).
  Hypothesis Hswo : strict_weak_order lt.
  Hypothesis Hnum : 1 <= bc_num c.
  Hypothesis Hdummy : forall X q, candidate df tcol X -> meas X = Ok q -> lt q (bc_dummy c) = false.

  (** [hit]: the stored element stands above [X]; [obs]: it is below [X]. *)
  Definition hit (X : pattern) (q : V) (e : entry) : bool :=
    match bc_class c with BSD => dom X (e_pattern e) | _ => value_eq c (e_quality e) q && within df cr X (e_pattern e) end.
  Definition obs (X : pattern) (q : V) (e : entry) : bool :=
    match bc_class c with BSD => dom (e_pattern e) X | _ => value_eq c (e_quality e) q && within df cr (e_pattern e) X end.
  Definition rejected (k : list entry) (X : pattern) (q : V) : Prop :=
    match bc_class c with
    | BSD => exists y, In y k /\ hit X q y = true
    | _ => exists k1 y k2, k = k1 ++ y :: k2 /\ (forall z, In z k1 -> hit X q z = false) /\ hit X q y = true /\ (length X < length (e_pattern y))%nat
    end.
  Definition replaced (k : list entry) (X : pattern) (q : V) (drop : list entry) : Prop :=
    match bc_class c with
    | BSD => drop = [] /\ forall y, In y k -> hit X q y = false
    | _ => (drop = [] /\ forall y, In y k -> hit X q y = false) \/
           exists k1 y k2, k = k1 ++ y :: k2 /\ drop = [y] /\ (forall z, In z k1 -> hit X q z = false) /\ hit X q y = true /\ (length (e_pattern y) <= length X)%nat
    end.
  Definition overflow (k : list entry) (X : pattern) (q : V) (drop : list entry) (x : entry) : Prop :=
    Z.of_nat (length k) = bc_num c /\ drop = [] /\ (forall y, In y k -> obs X q y = false) /\ hd_error k = Some x.
  Definition placed (k : list entry) (e : entry) (gone : entry -> Prop) (k' : list entry) : Prop :=
    exists l1 l2 keep, k' = l1 ++ e :: l2 /\ l1 ++ l2 = filter keep k /\ (forall x, In x k -> (keep x = true <-> ~ gone x)) /\
      (forall x, In x l1 -> lt (e_quality e) (e_quality x) = false) /\ (forall x, In x l2 -> lt (e_quality e) (e_quality x) = true).
  Definition istep (k : list entry) (X : pattern) (q : V) (k' : list entry) : Prop :=
    (rejected k X q /\ k' = k) \/
    exists drop e, replaced k X q drop /\ e_pattern e = X /\ e_quality e = q /\
      placed k e (fun x => In x drop \/ obs X q x = true \/ overflow k X q drop x) k'.
  Definition ustep (k : list entry) (X : pattern) (k' : list entry) : Prop :=
    exists w rest q oe, k = w :: rest /\ meas X = Ok q /\ est X = Ok oe /\
      let opens v := passes c v (e_quality w) || not_full c k in
      (opens oe && opens q = false /\ k' = k) \/
      (opens oe && opens q = true /\ k = [dummy_entry c] /\ exists e, k' = [e] /\ e_pattern e = X /\ e_quality e = q) \/
      (opens oe && opens q = true /\ k <> [dummy_entry c] /\ istep k X q k').
  Definition pr (k : list entry) (X : pattern) : Prop :=
    exists w oe, hd_error k = Some w /\ est X = Ok oe /\ not_full c k = false /\ passes c oe (e_quality w) = false.

  Lemma sort_head : forall {A} (f : A -> A -> bool) w l, (forall y, In y l -> f y w = false) -> exists t, sort_by f (w :: l) = w :: t.
  Proof.
    intros A f w l H. cbn [sort_by]. destruct (sort_by f l) as [|y ys] eqn:E; [eexists; reflexivity|]. cbn [insert_by].
    assert (Iy : In y l) by (apply (Permutation_in _ (Permutation_sym (sort_by_perm f l))); rewrite E; left; auto). rewrite (H y Iy). eexists. reflexivity.
  Qed.
  Lemma filter_full : forall {A} (f : A -> bool) l, length (filter f l) = length l -> forall x, In x l -> f x = true.
  Proof.
    intros A f l. assert (Le : forall m : list A, (length (filter f m) <= length m)%nat) by (intros m; induction m as [|x m IH]; cbn [filter length]; auto; destruct (f x); cbn [length]; lia).
    induction l as [|y l IH]; intros H x I; [destruct I|]. cbn [filter] in H. destruct (f y) eqn:Ef; cbn [length] in H.
    - destruct I as [<-|I]; auto.
    - pose proof (Le l). lia.
  Qed.
  Lemma filter_all_id : forall {A} (f : A -> bool) l, (forall x, In x l -> f x = true) -> filter f l = l.
  Proof. intros A f l H. induction l as [|x l IH]; cbn [filter]; auto. rewrite (H x) by (left; auto). f_equal. apply IH. intros y I. apply H. right; auto. Qed.
  Lemma filter_le : forall {A} (f : A -> bool) l, (length (filter f l) <= length l)%nat.
  Proof. intros A f l. induction l as [|x l IH]; cbn [filter length]; auto. destruct (f x); cbn [length]; lia. Qed.
  Lemma kept_obs : forall X q e, ok e -> candidate df tcol X -> e_pattern e <> X -> kept c df tcol tval X q e = negb (obs X q e).
  Proof.
    intros X q e He KX N. unfold kept, obs. destruct (pattern_eq (e_pattern e) X) eqn:Ep.
    - exfalso. apply N. apply (pattern_eq_true df tcol Hcat); auto. apply He.
    - cbn [orb]. destruct (bc_class c); auto; rewrite negb_andb; reflexivity.
  Qed.
  Definition same_entry (x y : entry) : bool := if list_eq_dec selector_eq_dec (e_pattern x) (e_pattern y) then true else false.
  Lemma same_entry_true : forall k x y, NoDup (map e_pattern k) -> In x k -> In y k -> (same_entry x y = true <-> x = y).
  Proof.
    intros k x y ND Ix Iy. unfold same_entry. destruct (list_eq_dec _ _ _) as [E|N]; split; intros H; try congruence; auto.
    clear H. induction k as [|z k IH]; [destruct Ix|]. cbn [map] in ND. inversion ND as [|? ? N1 N2]; subst. destruct Ix as [->|Ix], Iy as [->|Iy]; auto.
    - exfalso. apply N1. rewrite E. apply in_map; auto.
    - exfalso. apply N1. rewrite <- E. apply in_map; auto.
  Qed.
  Lemma sort_last : forall k e, ascending c k -> sort_by (fun x y : entry => lt (e_quality x) (e_quality y)) (k ++ [e]) =
    filter (fun x => negb (lt (e_quality e) (e_quality x))) k ++ e :: filter (fun x => lt (e_quality e) (e_quality x)) k /\
    filter (fun x => negb (lt (e_quality e) (e_quality x))) k ++ filter (fun x => lt (e_quality e) (e_quality x)) k = k.
  Proof.
    intros k e. destruct Hswo as (Ir & As & Tr). induction k as [|a k IH]; intros S; [split; reflexivity|]. inversion S as [|? ? S1 Fa]; subst. destruct (IH S1) as [E1 E2].
    rewrite Forall_forall in Fa. cbn [app sort_by filter]. rewrite E1. destruct (lt (e_quality e) (e_quality a)) eqn:El; cbn [negb].
    - assert (All : forall x, In x k -> lt (e_quality e) (e_quality x) = true).
      { intros x Ix. destruct (lt (e_quality e) (e_quality x)) eqn:Ex; auto. pose proof (Tr _ _ _ Ex (Fa x Ix)). congruence. }
      assert (F1 : filter (fun x => negb (lt (e_quality e) (e_quality x))) k = []).
      { clear -All. induction k as [|x k IH]; cbn [filter]; auto. rewrite (All x) by (left; auto). cbn [negb]. apply IH. intros y Iy. apply All. right; auto. }
      rewrite F1 in *. cbn [app] in *. split; [|f_equal; exact E2]. cbn [insert_by]. rewrite El. f_equal. rewrite E2.
      destruct k as [|y k]; cbn [insert_by]; auto. rewrite (Fa y (or_introl eq_refl)). reflexivity.
    - split; [|cbn [app]; f_equal; exact E2]. cbn [app].
      destruct (filter (fun x => negb (lt (e_quality e) (e_quality x))) k) as [|y t] eqn:Ef; cbn [app insert_by].
      + rewrite El. reflexivity.
      + assert (Iy : In y k) by (assert (I : In y (y :: t)) by (left; auto); rewrite <- Ef in I; apply filter_In in I; tauto). rewrite (Fa y Iy). reflexivity.
  Qed.
  Lemma insert_step : forall (st : state) e st', ok e -> Forall ok (bs_k st) -> Z.of_nat (length (bs_k st)) <= bc_num c ->
    NoDup (map e_pattern (bs_k st)) -> ascending c (bs_k st) -> ~ In (e_pattern e) (map e_pattern (bs_k st)) ->
    (Z.of_nat (length (bs_k st)) = bc_num c -> exists w rest, bs_k st = w :: rest /\ lt (e_quality e) (e_quality w) = false) ->
    insert_entry c st e (bits P (e_pattern e)) (bits N (e_pattern e)) = Ok st' ->
    placed (bs_k st) e (fun x => obs (e_pattern e) (e_quality e) x = true \/
      (Z.of_nat (length (bs_k st)) = bc_num c /\ (forall y, In y (bs_k st) -> obs (e_pattern e) (e_quality e) y = false) /\ hd_error (bs_k st) = Some x)) (bs_k st').
  Proof.
    intros st e st' He Hk Hlen HND Hasc Hnew Hw E. unfold insert_entry in E. cbn [set_k bs_k] in E.
    set (f := fun x y : entry => lt (e_quality x) (e_quality y)) in *. destruct (sort_last (bs_k st) e Hasc) as [Es Ep]. fold f in Es. set (k1 := sort_by f (bs_k st ++ [e])) in *.
    set (A := filter (fun x => negb (lt (e_quality e) (e_quality x))) (bs_k st)) in *. set (B := filter (fun x => lt (e_quality e) (e_quality x)) (bs_k st)) in *.
    assert (Pm : Permutation (bs_k st ++ [e]) k1) by apply sort_by_perm.
    assert (Hk1 : Forall ok k1) by (eapply Permutation_Forall; [exact Pm|]; apply Forall_app; split; auto).
    unfold check_relevancies in E. cbn [set_k bs_k] in E.
    assert (F1 : exists e0, first_entry k1 = Ok e0 /\ ok e0).
    { destruct k1 as [|e0 k'] eqn:E1; [exfalso; apply Permutation_length in Pm; rewrite app_length in Pm; cbn [length] in Pm; lia|]. exists e0. split; auto. inversion Hk1; auto. }
    destruct F1 as (e0 & F1 & He0). rewrite F1 in E. cbn [bind] in E. destruct (entry_nonempty c df tcol tval mask e0 He0) as (s0 & X0 & Ex0). rewrite Ex0 in E.
    pose proof (split_spec c df tcol tval mask k1 (e_pattern e) (e_quality e) Hk1 (covers df tcol tval _ (proj1 He))) as SP.
    destruct (split_relevant (still_relevant c (bits P (e_pattern e)) (bits N (e_pattern e)) (e_quality e) (e_pattern e)) k1) as [r|]; cbn [bind] in E; [|discriminate]. subst r. cbn [fst snd] in E.
    set (g := kept c df tcol tval (e_pattern e) (e_quality e)) in *.
    assert (Ge : g e = true) by (unfold g, kept; rewrite pattern_refl; reflexivity).
    assert (Gx : forall x, In x (bs_k st) -> g x = negb (obs (e_pattern e) (e_quality e) x)).
    { intros x Ix. apply kept_obs; [rewrite Forall_forall in Hk; auto|apply He|]. intros Eq. apply Hnew. rewrite <- Eq. apply in_map; auto. }
    assert (Eg : filter g k1 = filter g A ++ e :: filter g B) by (rewrite Es, filter_app; cbn [filter]; rewrite Ge; reflexivity).
    assert (Ek2 : filter g A ++ filter g B = filter g (bs_k st)) by (rewrite <- filter_app, Ep; reflexivity).
    assert (Lg : length (filter g k1) = S (length (filter g (bs_k st)))) by (rewrite Eg, <- Ek2, !app_length; cbn [length]; lia).
    assert (HA : forall x, In x A -> lt (e_quality e) (e_quality x) = false) by (intros x Ix; apply filter_In in Ix; apply negb_true_iff; tauto).
    assert (HB : forall x, In x B -> lt (e_quality e) (e_quality x) = true) by (intros x Ix; apply filter_In in Ix; tauto).
    pose proof (filter_le g (bs_k st)) as Le.
    cbn [add_unselected add_irrelevants set_k bs_k] in E. destruct (bc_num c <? Z.of_nat (length (filter g k1))) eqn:En.
    - injection E as <-. cbn [add_unselected set_k bs_k]. apply Z.ltb_lt in En. assert (Full : Z.of_nat (length (bs_k st)) = bc_num c) by lia.
      assert (All : forall x, In x (bs_k st) -> g x = true) by (apply filter_full; lia).
      assert (AllO : forall y, In y (bs_k st) -> obs (e_pattern e) (e_quality e) y = false) by (intros y Iy; apply negb_true_iff; rewrite <- (Gx y Iy); auto).
      assert (EA : filter g A = A) by (apply filter_all_id; intros x Ix; apply filter_In in Ix; apply All; tauto).
      assert (EB : filter g B = B) by (apply filter_all_id; intros x Ix; apply filter_In in Ix; apply All; tauto).
      destruct (Hw Full) as (w & rest & Ek & Lw).
      assert (Hh : hd_error (bs_k st) = Some w) by (rewrite Ek; reflexivity).
      assert (HAw : exists A', A = w :: A') by (unfold A; rewrite Ek; cbn [filter]; rewrite Lw; cbn [negb]; eexists; reflexivity).
      destruct HAw as [A' EA']. rewrite Eg, EA, EB, EA'. cbn [app tl].
      assert (Er : A' ++ B = rest) by (rewrite EA', Ek in Ep; cbn [app] in Ep; congruence).
      exists A', B, (fun x => negb (same_entry x w)). split; auto. split; [|split; [|split]].
      + rewrite Er, Ek. cbn [filter]. assert (Sw : same_entry w w = true) by (apply (same_entry_true (bs_k st)); auto; rewrite Ek; left; auto). rewrite Sw. cbn [negb]. symmetry. apply filter_all_id.
        intros x Ix. apply negb_true_iff. destruct (same_entry x w) eqn:Sx; auto. exfalso. rewrite Ek in HND. assert (x = w) by (apply (same_entry_true (w :: rest)); auto; [right; auto|left; auto]). subst x.
        cbn [map] in HND. inversion HND as [|? ? N1 N2]; subst. apply N1. apply in_map; auto.
      + intros x Ix. rewrite Hh. rewrite negb_true_iff. rewrite <- not_true_iff_false. rewrite (same_entry_true (bs_k st) x w) by (auto; rewrite Ek; left; auto).
        split; [intros N [O|(_ & _ & O)]; [rewrite (AllO x Ix) in O; discriminate|congruence]|]. intros N ->. apply N. right. auto.
      + intros x Ix. apply HA. rewrite EA'. right; auto.
      + exact HB.
    - injection E as <-. cbn [add_unselected set_k bs_k add_irrelevants]. apply Z.ltb_ge in En. exists (filter g A), (filter g B), g. split; auto. split; auto. split; [|split].
      + intros x Ix. rewrite (Gx x Ix). rewrite negb_true_iff. split.
        * intros Ox [O|(Full & AllO & _)]; [congruence|].
          assert (Eall : filter g (bs_k st) = bs_k st) by (apply filter_all_id; intros y Iy; rewrite (Gx y Iy), (AllO y Iy); reflexivity). rewrite Eall in Lg. lia.
        * intros N. destruct (obs (e_pattern e) (e_quality e) x); auto. exfalso. apply N. auto.
      + intros x Ix. apply filter_In in Ix. apply HA. tauto.
      + intros x Ix. apply filter_In in Ix. apply HB. tauto.
  Qed.
  Lemma not_full_false : forall k, Z.of_nat (length k) <= bc_num c -> Z.of_nat (length k) = bc_num c -> not_full c k = false.
  Proof. intros k H E. unfold not_full. apply Z.ltb_ge. lia. Qed.
  Lemma passes_le : forall v w, passes c v w = true -> lt v w = false.
  Proof.
    intros v w H. unfold passes in H. destruct (bc_class c); [|apply negb_true_iff; auto|apply negb_true_iff; auto].
    destruct Hswo as (I & T & _). apply T. exact H.
  Qed.
  Lemma existsb_none : forall {A} (f : A -> bool) l, existsb f l = false -> forall x, In x l -> f x = false.
  Proof. intros A f l H x I. destruct (f x) eqn:E; auto. assert (existsb f l = true) by (apply existsb_exists; eauto). congruence. Qed.
  Lemma handle_step : forall st selCond s oe q nsr X nsr' st', inv st -> X = extend_pattern selCond s -> candidate df tcol X -> incl X L -> ~ In X (visited st) ->
    meas X = Ok q -> est X = Ok oe ->
    bsd_handle c st selCond s oe q (bits P X) (bits N X) nsr (tp_of df tsel X) (fp_of df tsel X) = Ok (nsr', st') ->
    ustep (bs_k st) X (bs_k st') /\ (pr (bs_k st) X -> nsr' = nsr).
  Proof.
    intros st selCond s oe q nsr X nsr' st' HI EX K HL Hn Eq Eo E. unfold bsd_handle in E. cbn [add_visited bs_k] in E. rewrite <- EX in E.
    destruct HI as (I1 & I2 & I3 & I4 & I5 & I6). destruct (kgood_first _ _ _ _ _ _ I1) as (w & kw & Ek). rewrite Ek in E. cbn [first_entry bind] in E. rewrite <- Ek in E.
    split.
    2:{ intros (w' & oe' & Ew & Eo' & Nf & Np). rewrite Ek in Ew. injection Ew as <-. assert (oe' = oe) by congruence. subst oe'. rewrite Nf, Np in E. cbn [orb] in E. injection E as <- _. reflexivity. }
    exists w, kw, q, oe. split; auto. split; auto. split; auto. cbn zeta.
    destruct (passes c oe (e_quality w) || not_full c (bs_k st)) eqn:Op1.
    2:{ injection E as _ <-. cbn. left. auto. }
    destruct (passes c q (e_quality w) || not_full c (bs_k st)) eqn:Op2.
    2:{ cbn [bind] in E. injection E as _ <-. cbn. left. auto. }
    cbn [andb]. right. unfold check_rel in E. destruct (bc_is_float c q); cbn [negb] in E; [|discriminate].
    set (st0 := add_visited st) in *. replace (bs_k st0) with (bs_k st) in E by reflexivity. rewrite Ek in E at 1. cbn [first_entry bind] in E.
    set (e := BE q X (bits P X ++ bits N X) oe (tp_of df tsel X) (fp_of df tsel X)) in *.
    assert (He : ok e) by (unfold entry_ok, e; cbn [e_pattern e_bits e_tp e_fp e_quality e_oe]; split; auto; split; auto; split; auto; split; auto; split; auto).
    destruct I1 as [Ed|Hki].
    - left. split; auto. split; auto. assert (Ew : w = dummy_entry c) by congruence. subst w. replace (e_pattern (dummy_entry c)) with (@nil selector) in E by reflexivity. cbn [bind fst snd] in E.
      pose proof (first_insert c df tcol tval mask Hnum Hdummy st0 e He Ed) as FI. change (e_pattern e) with X in FI.
      destruct (insert_entry c st0 e (bits P X) (bits N X)) as [st1|]; cbn [bind] in E; [|discriminate]. injection E as _ <-. cbn [add_log bs_k].
      destruct FI as (F1 & _). exists e. split; auto.
    - right. split; auto. destruct Hki as (K1 & K2 & K3 & K4 & K5 & K6). assert (Hw : ok w) by (rewrite Ek in K5; inversion K5; auto). destruct (entry_nonempty _ _ _ _ _ w Hw) as (s0 & X0 & Ep). rewrite Ep in E.
      split; [intros Z; rewrite Z in Ek; injection Ek as <- _; discriminate|].
      assert (Ndum : forall x, In x (bs_k st) -> In (e_pattern x) (visited st)).
      { intros x Ix. destruct (I5 x Ix) as [->|]; auto. exfalso. rewrite Forall_forall in K5. destruct (entry_nonempty _ _ _ _ _ _ (K5 _ Ix)) as (a & b & Eab). discriminate. }
      assert (Fresh : ~ In X (map e_pattern (bs_k st))) by (intros I; apply in_map_iff in I; destruct I as (x & Ex & Ix); apply Hn; rewrite <- Ex; apply Ndum; auto).
      assert (Wq : Z.of_nat (length (bs_k st)) = bc_num c -> lt q (e_quality w) = false).
      { intros Fl. rewrite (not_full_false _ K2 Fl), orb_false_r in Op2. apply passes_le; auto. }
      (* no element dropped before the insertion *)
      set (concl := fun st3 : state => exists drop e0, replaced (bs_k st) X q drop /\ e_pattern e0 = X /\ e_quality e0 = q /\
          placed (bs_k st) e0 (fun x => In x drop \/ obs X q x = true \/ overflow (bs_k st) X q drop x) (bs_k st3)) in *.
      assert (Keep : forall st2 st3, bs_k st2 = bs_k st -> insert_entry c st2 e (bits P X) (bits N X) = Ok st3 -> replaced (bs_k st) X q [] -> concl st3).
      { intros st2 st3 E2 E3 Rp. exists [], e. split; auto. split; auto. split; auto.
        pose proof (insert_step st2 e st3 He) as IS. rewrite E2 in IS. specialize (IS K5 K2 K4 K3 Fresh).
        assert (IS' := IS (fun Fl => ex_intro _ w (ex_intro _ kw (conj Ek (Wq Fl)))) E3). clear IS. destruct IS' as (l1 & l2 & keep & D1 & D2 & D3 & D4 & D5).
        exists l1, l2, keep. split; auto. split; auto. split; auto. intros x Ix. rewrite (D3 x Ix). cbn [e e_pattern e_quality In]. unfold overflow. intuition. }
      (* one element dropped *)
      assert (Drop : forall k1 y k2 st2 st3, bs_k st = k1 ++ y :: k2 -> bs_k st2 = k1 ++ k2 -> insert_entry c st2 e (bits P X) (bits N X) = Ok st3 -> replaced (bs_k st) X q [y] -> concl st3).
      { intros k1 y k2 st2 st3 E1 E2 E3 Rp. exists [y], e. split; auto. split; auto. split; auto.
        assert (Sub : incl (k1 ++ k2) (bs_k st)) by (rewrite E1; intros z Iz; apply in_app_or in Iz; apply in_or_app; cbn [In]; tauto).
        assert (Ll : S (length (k1 ++ k2)) = length (bs_k st)) by (rewrite E1, !app_length; cbn [length]; lia).
        assert (ND : NoDup (bs_k st)) by (eapply NoDup_map_inv; exact K4).
        assert (IS : placed (k1 ++ k2) e (fun x => obs X q x = true \/
          (Z.of_nat (length (k1 ++ k2)) = bc_num c /\ (forall z, In z (k1 ++ k2) -> obs X q z = false) /\ hd_error (k1 ++ k2) = Some x)) (bs_k st3)).
        { pose proof (insert_step st2 e st3 He) as IS. rewrite E2 in IS. apply IS; auto; clear IS.
          - rewrite Forall_forall in *. intros z Iz. apply K5, Sub; auto.
          - lia.
          - rewrite E1, map_app in K4. cbn [map] in K4. apply NoDup_remove_1 in K4. rewrite map_app. exact K4.
          - unfold ascending in *. rewrite E1 in K3. clear -K3. induction k1 as [|z k1 IH]; cbn [app] in *; inversion K3 as [|? ? S1 F1]; subst; auto. constructor; auto.
            apply Forall_app in F1. destruct F1 as [A B]. inversion B; subst. apply Forall_app. auto.
          - intros I. apply Fresh. apply in_map_iff in I. destruct I as (x & Ex & Ix). apply in_map_iff. exists x. split; auto.
          - intros Fl. exfalso. lia. }
        destruct IS as (l1 & l2 & keep & D1 & D2 & D3 & D4 & D5). exists l1, l2, (fun x => keep x && negb (same_entry x y)). split; auto.
        assert (Iy : In y (bs_k st)) by (rewrite E1; apply in_or_app; right; left; auto).
        assert (SE : forall x, In x (bs_k st) -> (same_entry x y = true <-> x = y)) by (intros x Ix; apply (same_entry_true (bs_k st)); auto).
        assert (Ny : forall x, In x (k1 ++ k2) -> same_entry x y = false).
        { intros x Ix. apply not_true_iff_false. rewrite (SE x (Sub x Ix)). intros ->. rewrite E1 in ND. apply NoDup_remove_2 in ND. auto. }
        split; [|split; auto].
        - rewrite D2, E1, !filter_app. cbn [filter]. assert (Sy : same_entry y y = true) by (apply SE; auto). rewrite Sy. cbn [negb]. rewrite andb_false_r.
          f_equal; apply filter_ext_in; intros x Ix; rewrite (Ny x) by (apply in_or_app; auto); cbn [negb]; rewrite andb_true_r; reflexivity.
        - intros x Ix. cbn [In]. destruct (same_entry x y) eqn:Sx; cbn [negb].
          + rewrite andb_false_r. split; [discriminate|]. intros N. exfalso. apply N. left. left. symmetry. apply SE; auto.
          + rewrite andb_true_r. assert (Ix' : In x (k1 ++ k2)).
            { rewrite E1 in Ix. apply in_app_or in Ix. apply in_or_app. destruct Ix as [|[<-|]]; auto. rewrite (proj2 (SE y Iy) eq_refl) in Sx. discriminate. }
            rewrite (D3 x Ix'). unfold overflow. split.
            * intros N [[Q|[]]|[O|(_ & Q & _)]]; [subst x; rewrite (proj2 (SE y Iy) eq_refl) in Sx; discriminate|apply N; auto|discriminate].
            * intros N [O|(Q & _)]; [apply N; auto|lia]. }
      unfold concl in Keep, Drop. unfold istep, rejected. unfold replaced in Keep at 1, Drop at 1. unfold hit in *. destruct (bc_class c) eqn:Ec.
      + pose proof (bsd_relevant_spec c df tcol tval mask (bs_k st) X Ec K5 (covers _ _ _ X K)) as RS.
        destruct (bsd_relevant_to (bs_k st) (bits P X) (bits N X)) as [r|]; cbn [bind] in E; [|discriminate]. cbn [fst snd] in E. destruct r.
        * destruct (insert_entry c st0 e (bits P X) (bits N X)) as [st3|] eqn:Ei; cbn [bind] in E; [|discriminate]. injection E as _ <-. cbn [add_log bs_k]. right. apply (Keep st0 st3); auto.
          split; auto. intros y Iy. symmetry in RS. rewrite forallb_forall in RS. apply negb_true_iff. apply RS. exact Iy.
        * cbn [bind] in E. injection E as _ <-. left. split; auto. symmetry in RS. clear -RS. induction (bs_k st) as [|z l IH]; cbn [forallb] in RS; [discriminate|].
          apply andb_false_iff in RS. destruct RS as [R|R]; [exists z; split; [left; auto|apply negb_false_iff; auto]|]. destruct (IH R) as (y & Iy & H). exists y. split; [right; auto|auto].
      + pose proof (closed_relevant_spec c df tcol tval mask (bs_k st) X q X K5) as RS.
        destruct (closed_relevant_to c (bs_k st) (bits P X) (bits N X) q X) as [[[k' x]|]|]; [| |destruct RS]; cbn [bind fst snd] in E.
        * match type of E with context [insert_entry c ?s2 e _ _] => set (st2 := s2) in * end.
          destruct (insert_entry c st2 e (bits P X) (bits N X)) as [st3|] eqn:Ei; cbn [bind] in E; [|discriminate]. injection E as _ <-. cbn [add_log bs_k]. right.
          destruct RS as (k1 & k2 & Ek1 & E2 & Ef & [[-> ->]|(y & -> & Hy & Ly)]).
          -- rewrite app_nil_r in Ek1, E2. apply (Keep st2 st3); auto; [cbn; congruence|]. left. split; auto. rewrite Ek1. apply existsb_none. exact Ef.
          -- apply (Drop k1 y k2 st2 st3); auto. right. exists k1, y, k2. split; auto. split; auto. split; [apply existsb_none; exact Ef|auto].
        * injection E as _ <-. left. split; auto. destruct RS as (k1 & y & k2 & Ek1 & Ef & Hy & Ly). exists k1, y, k2. split; auto. split; [apply existsb_none; exact Ef|auto].
      + pose proof (closed_relevant_spec c df tcol tval mask (bs_k st) X q X K5) as RS.
        destruct (closed_relevant_to c (bs_k st) (bits P X) (bits N X) q X) as [[[k' x]|]|]; [| |destruct RS]; cbn [bind fst snd] in E.
        * match type of E with context [insert_entry c ?s2 e _ _] => set (st2 := s2) in * end.
          destruct (insert_entry c st2 e (bits P X) (bits N X)) as [st3|] eqn:Ei; cbn [bind] in E; [|discriminate]. injection E as _ <-. cbn [add_log bs_k]. right.
          destruct RS as (k1 & k2 & Ek1 & E2 & Ef & [[-> ->]|(y & -> & Hy & Ly)]).
          -- rewrite app_nil_r in Ek1, E2. apply (Keep st2 st3); auto; [cbn; congruence|]. left. split; auto. rewrite Ek1. apply existsb_none. exact Ef.
          -- apply (Drop k1 y k2 st2 st3); auto. right. exists k1, y, k2. split; auto. split; auto. split; [apply existsb_none; exact Ef|auto].
        * injection E as _ <-. left. split; auto. destruct RS as (k1 & y & k2 & Ek1 & Ef & Hy & Ly). exists k1, y, k2. split; auto. split; [apply existsb_none; exact Ef|auto].
  Qed.

  (** * The search *)
  Notation dpos := (build_bitset df mask tcol L).
  Notation dneg := (build_bitset df (map negb mask) tcol L).
  Notation node := (BSDProofs.node c df tcol mask).
  (** [X] was pruned: it was evaluated when the list was full and its estimate did not reach the worst quality. *)
  Definition pruned_at (l : list (pattern * list entry)) (i : nat) (X : pattern) : Prop :=
    exists k', nth_error l i = Some (X, k') /\ pr (list_before c l i) X.
  Definition pruned (st : state) (X : pattern) : Prop := exists i, pruned_at (bs_log st) i X.
  Definition LI (st : state) : Prop :=
    inv st /\ bs_k st = list_before c (bs_log st) (length (bs_log st)) /\
    (forall i X k', nth_error (bs_log st) i = Some (X, k') -> ustep (list_before c (bs_log st) i) X k') /\
    (forall i j X Z kZ, (i < j)%nat -> pruned_at (bs_log st) i X -> nth_error (bs_log st) j = Some (Z, kZ) -> ~ incl X Z).
  Lemma LI_same : forall st st', LI st -> inv st' -> bs_k st' = bs_k st -> bs_log st' = bs_log st -> LI st'.
  Proof. intros st st' (_ & A & B & D) I E1 E2. unfold LI. rewrite E1, E2. auto. Qed.
  Lemma pruned_same : forall st st' X, bs_log st' = bs_log st -> pruned st' X -> pruned st X.
  Proof. intros st st' X E. unfold pruned. rewrite E. auto. Qed.
  Lemma pruned_at_app : forall l m i X, (i < length l)%nat -> pruned_at (l ++ m) i X -> pruned_at l i X.
  Proof. intros l m i X H (k' & A & B). rewrite nth_error_app1 in A by auto. rewrite before_app in B by lia. exists k'; auto. Qed.
  Lemma at_lt : forall l i X, pruned_at l i X -> (i < length l)%nat.
  Proof. intros l i X (k' & A & _). apply nth_error_Some. congruence. Qed.
  Lemma pruned_log : forall st st' X k Y, LI st -> bs_log st' = bs_log st ++ [(X, k)] -> pruned st' Y -> pruned st Y \/ (Y = X /\ pr (bs_k st) X).
  Proof.
    intros st st' X k Y (_ & EK & _) E [i H]. rewrite E in H. pose proof (at_lt _ _ _ H) as Hl. rewrite app_length in Hl. cbn [length] in Hl.
    destruct (Nat.eq_dec i (length (bs_log st))) as [->|N]; [|left; exists i; eapply pruned_at_app; [lia|exact H]].
    right. destruct H as (k' & A & B). rewrite nth_error_app2, Nat.sub_diag in A by lia. injection A as <- _. rewrite before_app, <- EK in B by lia. auto.
  Qed.
  Lemma LI_log : forall st st' X, LI st -> inv st' -> bs_log st' = bs_log st ++ [(X, bs_k st')] -> ustep (bs_k st) X (bs_k st') ->
    (forall Y, pruned st Y -> ~ incl Y X) -> LI st'.
  Proof.
    intros st st' X (_ & EK & HS & HP) HI E U Hc. unfold LI. rewrite E. split; auto. split; [|split].
    - symmetry. apply before_last.
    - intros i Y k' H. destruct (Nat.lt_ge_cases i (length (bs_log st))) as [Hi|Hi].
      + rewrite nth_error_app1 in H by auto. rewrite before_app by lia. auto.
      + assert (i = length (bs_log st)) by (apply Nat.le_antisymm; auto; assert (Q : nth_error (bs_log st ++ [(X, bs_k st')]) i <> None) by congruence; apply nth_error_Some in Q; rewrite app_length in Q; cbn [length] in Q; lia).
        subst i. rewrite nth_error_app2, Nat.sub_diag in H by lia. injection H as <- <-. rewrite before_app, <- EK by lia. auto.
    - intros i j Y Z kZ Hij HY HZ.
      assert (Hj : (j < length (bs_log st ++ [(X, bs_k st')]))%nat) by (apply nth_error_Some; congruence). rewrite app_length in Hj. cbn [length] in Hj.
      assert (HY' : pruned_at (bs_log st) i Y) by (eapply pruned_at_app; [lia|exact HY]).
      destruct (Nat.eq_dec j (length (bs_log st))) as [->|N].
      + rewrite nth_error_app2, Nat.sub_diag in HZ by lia. injection HZ as <- _. apply Hc. exists i; auto.
      + rewrite nth_error_app1 in HZ by lia. apply (HP i j Y Z kZ); auto.
  Qed.
  Lemma NE : forall C R s, node C R -> In s R -> sorted_strictly (extend_pattern C s) /\ (forall x, In x (extend_pattern C s) <-> x = s \/ In x C) /\
    length (extend_pattern C s) = S (length C) /\ incl (extend_pattern C s) L.
  Proof. exact (node_extend c df tcol tval Hcat Hcol mask Hmask). Qed.
  Lemma evaluate_steps : forall C R s st nsr nsr' st', node C R -> In s R -> LI st -> ~ In (extend_pattern C s) (visited st) ->
    (forall X, pruned st X -> ~ incl X (extend_pattern C s)) ->
    bsd_evaluate c dpos dneg C (bits P C) (bits N C) (nsr, st) s = Ok (nsr', st') ->
    LI st' /\ forall X, pruned st' X -> pruned st X \/ (X = extend_pattern C s /\ nsr' = nsr).
  Proof.
    intros C R s st nsr nsr' st' HN Is HLI Hf Hc E. assert (HI : inv st) by apply HLI. unfold bsd_evaluate in E. set (X := extend_pattern C s) in *.
    assert (Ls : In s L) by (apply HN; auto). rewrite (pget c df tcol tval Hcat Hquo Hcol mask Hmask s Ls), (nget c df tcol tval Hcat Hquo Hcol mask Hmask s Ls) in E. cbn [bind] in E.
    assert (Ep : (match C with [] => Ok (bits P [s]) | _ :: _ => logical_and (bits P C) (bits P [s]) end) = Ok (bits P X)).
    { unfold X. rewrite <- (extend_bits c df tcol tval Hcat Hcol mask Hmask C R s _ HN Is). destruct C; auto. apply BSDRows.bits_and. }
    assert (En : (match C with [] => Ok (bits N [s]) | _ :: _ => logical_and (bits N C) (bits N [s]) end) = Ok (bits N X)).
    { unfold X. rewrite <- (extend_bits c df tcol tval Hcat Hcol mask Hmask C R s _ HN Is). destruct C; auto. apply BSDRows.bits_and. }
    rewrite Ep in E. cbn [bind] in E. rewrite En in E. cbn [bind] in E. rewrite card_pos, card_neg in E. fold tsel in E.
    pose proof (cover_sum df tcol tval X) as CS. fold tsel in CS. rewrite CS in E. destruct (Z.of_nat (coverage df X) =? 0) eqn:Ez.
    - injection E as <- <-. split; [|intros Y HY; left; eapply pruned_same; [|exact HY]; reflexivity].
      apply (LI_same st); auto; apply (inv_same c df tcol tval mask st); auto.
    - apply Z.eqb_neq in Ez. assert (K : candidate df tcol X) by (split; [apply (node_description c df tcol tval Hcat Hcol mask Hmask C R s); auto|lia]).
      assert (HI' := HI). destruct HI' as (I1 & I2 & I3 & _). rewrite I2, I3 in E.
      change (bc_oe c (tp_of df tsel X) (fp_of df tsel X) (TP_of df tcol tval) (FP_of df tcol tval)) with (est X) in E.
      change (bc_measure c (tp_of df tsel X) (fp_of df tsel X) (TP_of df tcol tval) (FP_of df tcol tval)) with (meas X) in E.
      destruct (est X) as [oe|e] eqn:Eo; cbn [bind] in E; [|discriminate]. destruct (meas X) as [q|e] eqn:Eq; cbn [bind] in E; [|discriminate].
      assert (IL : incl X L) by apply (NE C R s HN Is).
      destruct (handle_step st C s oe q nsr X nsr' st' HI eq_refl K IL Hf Eq Eo E) as (U & Hpr).
      pose proof (handle_spec c df tcol tval Hcat mask Hswo Hnum Hdummy st C s oe q nsr X HI eq_refl K IL Hf Eq Eo) as HS.
      fold tsel in HS. rewrite E in HS. destruct HS as (HI2 & El & _). split; [apply (LI_log st st' X); auto|].
      intros Y HY. destruct (pruned_log st st' X _ Y HLI El HY) as [H|[-> H]]; auto.
  Qed.
  Lemma fold_steps : forall C R, node C R -> forall R' st nsr nsr' st', incl R' R -> NoDup R' -> LI st -> (forall s, In s R' -> ~ In (extend_pattern C s) (visited st)) ->
    (forall s X, In s R' -> pruned st X -> ~ incl X (extend_pattern C s)) ->
    fold_res (bsd_evaluate c dpos dneg C (bits P C) (bits N C)) R' (nsr, st) = Ok (nsr', st') ->
    LI st' /\ exists more, nsr' = nsr ++ more /\ incl (map snd more) R' /\
      forall X, pruned st' X -> pruned st X \/ exists s, In s R' /\ X = extend_pattern C s /\ ~ In s (map snd more).
  Proof.
    intros C R HN R'. induction R' as [|s R' IH]; intros st nsr nsr' st' HI ND HL Hf Hc E; cbn [fold_res] in E.
    - injection E as <- <-. split; auto. exists []. rewrite app_nil_r. split; auto. split; [intros x []|auto].
    - assert (Is : In s R) by (apply HI; left; auto). inversion ND as [|? ? N1 N2]; subst.
      pose proof (evaluate_spec c df tcol tval Hcat Hquo Hcol mask Hmask Hswo Hnum Hdummy C R s st nsr HN Is (proj1 HL) (Hf s (or_introl eq_refl))) as ES.
      pose proof (evaluate_steps C R s st nsr) as EB.
      destruct (bsd_evaluate c dpos dneg C (bits P C) (bits N C) (nsr, st) s) as [[nsr1 st1]|]; cbn [bind] in E; [|discriminate].
      destruct (EB nsr1 st1 HN Is HL (Hf s (or_introl eq_refl)) (fun X HX => Hc s X (or_introl eq_refl) HX) eq_refl) as (HL1 & D1). clear EB.
      destruct ES as (_ & o & Hn1 & Hv1).
      assert (Hf1 : forall t, In t R' -> ~ In (extend_pattern C t) (visited st1)).
      { intros t It I. assert (Ht := Hf t (or_intror It)). destruct Hv1 as [[Ev _]|[Ev _]]; rewrite Ev in I; [auto|]. apply in_app_or in I. destruct I as [I|[I|[]]]; auto.
        apply (extend_inj c df tcol tval Hcat Hcol mask Hmask C R s t HN Is (HI t (or_intror It))) in I. subst t. auto. }
      assert (Hc1 : forall t X, In t R' -> pruned st1 X -> ~ incl X (extend_pattern C t)).
      { intros t X It HX. destruct (D1 X HX) as [H|[-> _]]; [apply (Hc t X (or_intror It) H)|]. intros J.
        destruct (NE C R s HN Is) as (_ & A & _). destruct (NE C R t HN (HI t (or_intror It))) as (_ & B & _).
        assert (J1 : In s (extend_pattern C t)) by (apply J, A; auto). apply B in J1. destruct J1 as [->|J1]; auto. destruct HN as (_ & _ & _ & _ & D). apply (D s Is J1). }
      destruct (IH st1 nsr1 nsr' st' (fun x Ix => HI x (or_intror Ix)) N2 HL1 Hf1 Hc1 E) as (HL2 & more & E1 & E2 & E3).
      split; auto. destruct Hn1 as [->| ->].
      + exists more. split; auto. split; [intros x Ix; right; auto|]. intros X HX. destruct (E3 X HX) as [H|(t & It & -> & Nt)].
        * destruct (D1 X H) as [H'|[-> _]]; auto. right. exists s. split; [left; auto|]. split; auto.
        * right. exists t. split; [right; auto|auto].
      + exists ((o, s) :: more). rewrite <- app_assoc in E1. split; auto. split; [intros x [<-|Ix]; [left; auto|right; auto]|]. intros X HX. destruct (E3 X HX) as [H|(t & It & -> & Nt)].
        * destruct (D1 X H) as [H'|[-> En]]; auto. exfalso. assert (length (nsr ++ [(o, s)]) = length nsr) by congruence. rewrite app_length in H0. cbn [length] in H0. lia.
        * right. exists t. split; [right; auto|]. split; auto. cbn [map snd]. intros [->|I]; auto.
  Qed.
  Definition clear (st : state) (D : list selector) : Prop := forall X, pruned st X -> ~ incl X D.
  Lemma search_steps : forall fuel C R depth st st', (length R < fuel)%nat -> node C R -> depth = Z.of_nat (length C) -> LI st -> fresh st C R -> clear st (C ++ R) ->
    bsd_search c dpos dneg fuel C R (bits P C) (bits N C) depth st = Ok st' ->
    LI st' /\ forall X, pruned st' X -> pruned st X \/ extends C R X.
  Proof.
    intros fuel. induction fuel as [|f IHf]; intros C R depth st st' Hl HN Hd HLI Hf Hcl E; [lia|]. cbn [bsd_search] in E. assert (HI := proj1 HLI).
    assert (HF0 : forall s, In s R -> ~ In (extend_pattern C s) (visited st)).
    { intros s Is I. destruct (NE C R s HN Is) as (_ & A & _). apply (Hf _ I). split; [intros x Ix; apply A; auto|]. split; [intros x Ix; apply A in Ix; apply in_or_app; destruct Ix as [->|]; auto|].
      exists s. split; [apply A; auto|]. apply HN; auto. }
    assert (HC0 : forall s X, In s R -> pruned st X -> ~ incl X (extend_pattern C s)).
    { intros s X Is HX J. apply (Hcl X HX). intros y Iy. apply J in Iy. destruct (NE C R s HN Is) as (_ & A & _). apply A in Iy. apply in_or_app. destruct Iy as [->|]; auto. }
    pose proof (fold_evaluate c df tcol tval Hcat Hquo Hcol mask Hmask Hswo Hnum Hdummy C R HN R st [] (fun x I => I) (proj1 (proj2 (proj2 HN))) HI HF0) as FE.
    pose proof (fold_steps C R HN R st []) as FB.
    destruct (fold_res (bsd_evaluate c dpos dneg C (bits P C) (bits N C)) R ([], st)) as [[nsr st1]|]; cbn [bind] in E; [|discriminate]. cbn [fst snd] in E.
    destruct (FB nsr st1 (fun x I => I) (proj1 (proj2 (proj2 HN))) HLI HF0 HC0 eq_refl) as (HLI1 & more & E1 & _ & Es). clear FB. cbn [app] in E1. subst nsr.
    destruct FE as (_ & (more' & E1 & Em' & NDm) & new1 & Ev1 & Fn1). cbn [app] in E1. subst more'.
    set (nsr := sort_by (fun x y => pair_lt c y x) more) in *.
    assert (Pm : Permutation more nsr) by apply sort_by_perm.
    assert (NDn : NoDup (map snd nsr)) by (eapply Permutation_NoDup; [apply Permutation_map; exact Pm|]; auto).
    assert (In1 : incl (map snd nsr) R) by (intros x Ix; apply Em'; apply (Permutation_in _ (Permutation_sym (Permutation_map snd Pm))); auto).
    assert (Es' : forall X, pruned st1 X -> pruned st X \/ extends C R X).
    { intros X HX. destruct (Es X HX) as [H|(s & Is & -> & _)]; auto. right. destruct (NE C R s HN Is) as (_ & A & _).
      split; [intros x Ix; apply A; auto|]. split; [intros x Ix; apply A in Ix; apply in_or_app; destruct Ix as [->|]; auto|]. exists s. split; [apply A; auto|]. apply HN; auto. }
    destruct (depth <? bc_max_depth c) eqn:Edepth; [|injection E as <-; auto].
    assert (F2 : fresh2 st1 C (map snd nsr)).
    { intros X x y IX IC IXR Ix Iy Nx Ny Nxy. rewrite Ev1 in IX. apply in_app_or in IX. destruct IX as [IX|IX].
      - apply (Hf X IX). split; auto. split; [intros z Iz; apply IXR in Iz; apply in_app_or in Iz; apply in_or_app; destruct Iz; auto|]. exists x; auto.
      - rewrite Forall_forall in Fn1. destruct (Fn1 X IX) as (s & Is & -> & _). destruct (NE C R s HN Is) as (_ & A & _).
        apply A in Ix, Iy. destruct Ix as [->|]; [|auto]. destruct Iy as [->|]; auto. }
    assert (CL1 : clear st1 (C ++ map snd nsr)).
    { intros X HX J. destruct (Es X HX) as [H|(s & Is & -> & Ns)].
      - apply (Hcl X H). intros y Iy. apply J in Iy. apply in_app_or in Iy. apply in_or_app. destruct Iy; auto.
      - destruct (NE C R s HN Is) as (_ & A & _). assert (Iy : In s (C ++ map snd nsr)) by (apply J, A; auto). apply in_app_or in Iy. destruct Iy as [Iy|Iy]; [apply HN in Is; auto|].
        apply Ns. apply (Permutation_in _ (Permutation_sym (Permutation_map snd Pm))); auto. }
    cut (forall l aux st2 st', NoDup aux -> incl aux R -> (length aux <= length R)%nat -> incl (map snd l) aux -> NoDup (map snd l) -> LI st2 -> fresh2 st2 C aux -> clear st2 (C ++ aux) ->
      ((fix loop (l : list (V * selector)) (aux : list selector) (st : state) {struct l} : res state :=
             match l with
             | [] => Ok st
             | x :: l' =>
                 do w <- first_entry (bs_k st);
                 if bc_lt c (e_quality w) (fst x) then
                   do aux <- remove_first (snd x) aux;
                   do bp <- bitset_get dpos (snd x);
                   do pos <- logical_and (bits P C) bp;
                   do bn <- bitset_get dneg (snd x);
                   do neg <- logical_and (bits N C) bn;
                   do st <- bsd_search c dpos dneg f (extend_pattern C (snd x)) aux pos neg (depth + 1) st;
                   loop l' aux st
                 else loop l' aux (add_unselected 1 (add_pruned st))
             end) l aux st2) = Ok st' ->
      LI st' /\ forall X, pruned st' X -> pruned st2 X \/ extends C R X).
    { intros Hloop. assert (Ll : (length (map snd nsr) <= length R)%nat) by (apply NoDup_incl_length; auto).
      destruct (Hloop nsr (map snd nsr) st1 st' NDn In1 Ll (fun x I => I) NDn HLI1 F2 CL1 E) as [G2 H2]. split; auto.
      intros X HX. destruct (H2 X HX); auto. }
    clear E. intros l. induction l as [|[o s] l IHl]; intros aux st2 st3 NDa Ia La Il NDl HL2 HF2 HC2 E.
    { injection E as <-. auto. }
    assert (HI2 := proj1 HL2).
    destruct (kgood_first _ _ _ _ _ _ (proj1 HI2)) as (w & kw & Ew). rewrite Ew in E. cbn [first_entry bind] in E. cbn [map snd] in Il, NDl. inversion NDl as [|? ? N1 N2]; subst depth; subst.
    cbn [fst] in E.
    assert (Is : In s aux) by (apply Il; left; auto). assert (IsR : In s R) by auto. assert (IsL : In s L) by (apply HN; auto).
    destruct (NE C R s HN IsR) as (X1 & X2 & X3 & X4).
    destruct (bc_lt c (e_quality w) o) eqn:Elt.
    2:{ assert (I' : incl (map snd l) aux) by (intros x Ix; apply Il; right; auto).
        assert (HL2' : LI (add_unselected 1 (add_pruned st2))) by (apply (LI_same st2); auto; apply (inv_same c df tcol tval mask st2); auto).
        destruct (IHl aux (add_unselected 1 (add_pruned st2)) st3 NDa Ia La I' N2 HL2' HF2 HC2 E) as [G3 H3]. split; auto. }
    cbn [snd] in E. assert (IaL : incl aux L) by (intros x Ix; apply HN; auto).
    destruct (remove_first_spec c df tcol tval Hcat Hcol mask Hmask s aux IaL NDa Is) as (aux' & Er & NDa' & La' & Ha'). rewrite Er in E. cbn [bind] in E.
    rewrite (pget c df tcol tval Hcat Hquo Hcol mask Hmask s IsL), (nget c df tcol tval Hcat Hquo Hcol mask Hmask s IsL) in E. cbn [bind] in E. rewrite BSDRows.bits_and in E. cbn [bind] in E. rewrite BSDRows.bits_and in E. cbn [bind] in E.
    rewrite (extend_bits c df tcol tval Hcat Hcol mask Hmask C R s P HN IsR), (extend_bits c df tcol tval Hcat Hcol mask Hmask C R s N HN IsR) in E.
    assert (HN' : node (extend_pattern C s) aux').
    { split; auto. split; auto. split; auto. split; [intros x Ix; apply Ha' in Ix; apply IaL; tauto|]. intros x Ix I. apply Ha' in Ix. apply X2 in I. destruct I as [->|I]; [tauto|].
      destruct Ix as [Ix _]. apply Ia in Ix. apply HN in Ix. auto. }
    assert (HF' : fresh st2 (extend_pattern C s) aux').
    { intros X IX (B1 & B2 & x & Ix & Nx). apply (HF2 X s x IX).
      - intros y Iy. apply B1, X2; auto.
      - intros y Iy. apply B2 in Iy. apply in_app_or in Iy. apply in_or_app. destruct Iy as [Iy|Iy]; [apply X2 in Iy; destruct Iy as [->|]; auto|]. apply Ha' in Iy. tauto.
      - apply B1, X2; auto.
      - exact Ix.
      - apply HN; auto.
      - intros I. apply Nx, X2; auto.
      - intros <-. apply Nx, X2; auto. }
    assert (HC' : clear st2 (extend_pattern C s ++ aux')).
    { intros X HX J. apply (HC2 X HX). intros y Iy. apply J in Iy. apply in_app_or in Iy. apply in_or_app. destruct Iy as [Iy|Iy]; [apply X2 in Iy; destruct Iy as [->|]; auto|]. apply Ha' in Iy. tauto. }
    assert (Hd' : Z.of_nat (length C) + 1 = Z.of_nat (length (extend_pattern C s))) by lia.
    assert (Hlen' : (length aux' < f)%nat) by lia.
    pose proof (search_spec c df tcol tval Hcat Hquo Hcol mask Hmask Hswo Hnum Hdummy f (extend_pattern C s) aux' (Z.of_nat (length C) + 1) st2 Hlen' HN' Hd' HI2 HF') as RS. unfold result in RS.
    pose proof (IHf (extend_pattern C s) aux' (Z.of_nat (length C) + 1) st2) as IH1.
    destruct (bsd_search c dpos dneg f (extend_pattern C s) aux' (bits P (extend_pattern C s)) (bits N (extend_pattern C s)) (Z.of_nat (length C) + 1) st2) as [st4|]; cbn [bind] in E; [|discriminate].
    destruct RS as (HI3 & new3 & Ev3 & Fn3). destruct (IH1 st4 Hlen' HN' Hd' HL2 HF' HC' eq_refl) as [HL4 H4]. clear IH1.
    assert (Ia'' : incl aux' R) by (intros x Ix; apply Ha' in Ix; apply Ia; tauto).
    assert (Il' : incl (map snd l) aux') by (intros x Ix; apply Ha'; split; [apply Il; right; auto|intros ->; auto]).
    assert (HF3 : fresh2 st4 C aux').
    { intros X x y IX IC IXR Ix Iy Nx Ny Nxy. rewrite Ev3 in IX. apply in_app_or in IX. destruct IX as [IX|IX].
      - apply (HF2 X x y IX); auto. intros z Iz. apply IXR in Iz. apply in_app_or in Iz. apply in_or_app. destruct Iz as [|Iz]; auto. apply Ha' in Iz. tauto.
      - rewrite Forall_forall in Fn3. destruct (Fn3 X IX) as ((B1 & _) & _). assert (IsX : In s X) by (apply B1, X2; auto). apply IXR in IsX. apply in_app_or in IsX.
        destruct IsX as [I|I]; [apply HN in I; auto|]. apply Ha' in I. tauto. }
    assert (HC3 : clear st4 (C ++ aux')).
    { intros X HX J. destruct (H4 X HX) as [H|(B1 & _)].
      - apply (HC2 X H). intros y Iy. apply J in Iy. apply in_app_or in Iy. apply in_or_app. destruct Iy as [|Iy]; auto. apply Ha' in Iy. tauto.
      - assert (IsX : In s X) by (apply B1, X2; auto). apply J in IsX. apply in_app_or in IsX. destruct IsX as [I|I]; [apply HN in I; auto|]. apply Ha' in I. tauto. }
    assert (La2 : (length aux' <= length R)%nat) by lia.
    destruct (IHl aux' st4 st3 NDa' Ia'' La2 Il' N2 HL4 HF3 HC3 E) as [G5 H5]. split; auto.
    intros X HX. destruct (H5 X HX) as [H|H]; auto. destruct (H4 X H) as [H'|(B1 & B2 & x & Ix & Nx)]; auto.
    right. split; [intros y Iy; apply B1, X2; auto|]. split.
    - intros y Iy. apply B2 in Iy. apply in_app_or in Iy. apply in_or_app. destruct Iy as [Iy|Iy]; [apply X2 in Iy; destruct Iy as [->|]; auto|]. apply Ha' in Iy. right. apply Ia. tauto.
    - exists x. split; auto. intros I. apply Nx, X2; auto.
  Qed.
  Lemma fit_steps : forall st', bsd_fit c (bsd_new c) df tcol tval = Ok st' -> LI st'.
  Proof.
    intros st' E. unfold bsd_fit in E. rewrite (all_str df Hcat) in E. cbn [negb] in E. rewrite Hmask in E. cbn [bind] in E. rewrite (pop df tcol tval Hcat Hcol mask Hmask) in E. unfold bsd_new in E. cbn [bs_k bs_irrelevants bs_visited bs_selected bs_unselected bs_pruned bs_file bs_log] in E.
    rewrite (count_pos df tcol tval Hcat Hcol mask Hmask), (count_neg df tcol tval Hcat Hcol mask Hmask) in E. rewrite <- !(bits_nil df) in E.
    change (bsd_frequent df mask tcol (bc_min_support c)) with L in E. change (pattern_init []) with (@nil selector) in E.
    set (st0 := BS [dummy_entry c] [] 0 0 0 0 (TP_of df tcol tval) (FP_of df tcol tval) None []) in *.
    assert (Hf : fresh st0 [] L) by (intros Y []).
    assert (NP : forall X, ~ pruned st0 X) by (intros X [i (k' & A & _)]; destruct i; discriminate).
    assert (HL0 : LI st0).
    { split; [apply (inv_new c df tcol tval mask)|]. split; [reflexivity|]. split; [intros i X k' H; destruct i; discriminate|]. intros i j X Z kZ _ _ H. destruct j; discriminate. }
    pose proof (search_steps (S (length L)) [] L 0 st0) as SB.
    destruct (bsd_search c dpos dneg (S (length L)) [] L (bits P []) (bits N []) 0 st0) as [st1|]; cbn [bind] in E; [|discriminate].
    destruct (SB st1 (Nat.lt_succ_diag_r _) (node_start c df tcol tval Hcat Hcol mask Hmask) eq_refl HL0 Hf (fun X HX => False_ind _ (NP X HX)) eq_refl) as [HL1 _].
    destruct (first_entry (bs_k st1)) as [e0|]; cbn [bind] in E; [|discriminate]. injection E as <-.
    destruct (bc_write c); (apply (LI_same st1); auto; apply (inv_same c df tcol tval mask st1); auto; apply HL1).
  Qed.
End Steps.
