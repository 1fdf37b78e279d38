(** The best quality found by BSD, CBSD and CPBSD. *)
From Verif Require Export BSDProofs.
From Verif Require Import OrderFacts CoreOrder CorePattern CoreFrame SDMapProofs MiningProofs VLSDProofs Properties_SDMapStar.
Open Scope string_scope.
Open Scope list_scope.
Open Scope Z_scope.

Section Best.
  Context {V : Type}.
  Variable c : bsd_config V.
  Variable df : dataframe.
  Variables tcol tval : string.
  Hypothesis Hcat : categorical df.
  Hypothesis Hquo : distinct_texts df tcol.
  Hypothesis Hcol : has_column df tcol.
  Let tsel := Sel tcol EQUAL (VStr tval).
  Variable mask : list bool.
  Hypothesis Hmask : target_mask df tcol (VStr tval) = Ok mask.
  Notation L := (BSDRows.L df tcol mask (bc_min_support c)).
  Notation P := (prow df tcol tval).
  Notation N := (nrow df tcol tval).
  Notation bits := (bits_of df).
  Notation entry := (bsd_entry V).
  Notation state := (bsd_state V).
  Notation lt := (bc_lt c).
  Notation ok := (entry_ok c df tcol tval mask).
  Notation inv := (Inv c df tcol tval mask).
  Notation dom := (dominated df tcol tval).
  Notation meas := (quality (bc_measure c) df tcol tval).
  Notation est := (quality (bc_oe c) df tcol tval).
  Hypothesis Hswo : strict_weak_order lt.
  Hypothesis Hnum : 1 <= bc_num c.
  Hypothesis Hdummy : forall X q, candidate df tcol X -> meas X = Ok q -> lt q (bc_dummy c) = false.
  Hypothesis Hsound : forall X Y o q, candidate df tcol X -> candidate df tcol Y -> incl Y X -> est Y = Ok o -> meas X = Ok q -> lt o q = false.
  Hypothesis Hmono : bc_class c = BSD -> forall X Y q r, candidate df tcol X -> candidate df tcol Y -> dom X Y = true ->
    meas X = Ok q -> meas Y = Ok r -> lt r q = false.
  Definition cov_l (k : list entry) (v : V) : Prop := exists e, In e k /\ lt (e_quality e) v = false.
  Notation cov st v := (cov_l (bs_k st) v).
  Lemma lt_trans : forall x y z, lt x y = false -> lt y z = false -> lt x z = false.
  Proof. apply (proj2 (proj2 Hswo)). Qed.
  Lemma cov_trans : forall k v w, cov_l k v -> lt v w = false -> cov_l k w.
  Proof. intros k v w (e & Ie & H) H'. exists e. split; auto. eapply lt_trans; eauto. Qed.
  Lemma veq : forall a b, value_eq c a b = true -> lt a b = false /\ lt b a = false.
  Proof. intros a b H. unfold value_eq in H. apply andb_true_iff in H. rewrite !negb_true_iff in H. exact H. Qed.
  Lemma insert_best : forall (st : state) e st', ok e -> Forall ok (bs_k st) ->
    insert_entry c st e (bits P (e_pattern e)) (bits N (e_pattern e)) = Ok st' ->
    cov st' (e_quality e) /\ forall v, cov st v -> cov st' v.
  Proof.
    intros st e st' He Hk E. unfold insert_entry in E. cbn [set_k bs_k] in E.
    set (f := fun x y : entry => lt (e_quality x) (e_quality y)) in *. set (k1 := sort_by f (bs_k st ++ [e])) in *.
    assert (Pm : Permutation (bs_k st ++ [e]) k1) by apply sort_by_perm.
    assert (Hk1 : Forall ok k1) by (eapply Permutation_Forall; [exact Pm|]; apply Forall_app; split; auto).
    assert (Sk1 : ascending c k1) by (apply (sort_by_sorted lt e_quality Hswo)).
    unfold check_relevancies in E. cbn [set_k bs_k] in E.
    assert (F1 : exists e0, first_entry k1 = Ok e0 /\ ok e0).
    { destruct k1 as [|e0 k'] eqn:E1; [exfalso; apply Permutation_length in Pm; rewrite app_length in Pm; cbn [length] in Pm; lia|]. exists e0. split; auto. inversion Hk1; auto. }
    destruct F1 as (e0 & E0 & He0). rewrite E0 in E. cbn [bind] in E. destruct (entry_nonempty c df tcol tval mask e0 He0) as (s0 & X0 & Ee0). rewrite Ee0 in E.
    pose proof (split_spec c df tcol tval mask k1 (e_pattern e) (e_quality e) Hk1 (covers df tcol tval _ (proj1 He))) as SP.
    destruct (split_relevant (still_relevant c (bits P (e_pattern e)) (bits N (e_pattern e)) (e_quality e) (e_pattern e)) k1) as [r|]; cbn [bind] in E; [|discriminate]. subst r. cbn [fst snd] in E.
    set (g := kept c df tcol tval (e_pattern e) (e_quality e)) in *.
    assert (Ge : g e = true) by (unfold g, kept; rewrite pattern_refl; reflexivity).
    assert (Ie : In e (filter g k1)) by (apply filter_In; split; auto; apply (Permutation_in _ Pm), in_or_app; right; left; auto).
    assert (C0 : forall v, cov_l (bs_k st) v -> cov_l (filter g k1) v).
    { intros v (x & Ix & Hx). destruct (g x) eqn:Gx; [exists x; split; auto; apply filter_In; split; auto; apply (Permutation_in _ Pm), in_or_app; auto|].
      exists e. split; auto. rewrite Forall_forall in Hk. destruct (Hk x Ix) as (A1 & _ & _ & _ & _ & A6 & _). destruct He as (B1 & _ & _ & _ & _ & B6 & _).
      apply (lt_trans _ (e_quality x)); auto. unfold g, kept in Gx. apply orb_false_iff in Gx. destruct Gx as [_ Gx]. destruct (bc_class c) eqn:Ec.
      - apply negb_false_iff in Gx. apply (Hmono eq_refl (e_pattern x) (e_pattern e)); auto.
      - apply orb_false_iff in Gx. destruct Gx as [Gx _]. apply negb_false_iff, veq in Gx. tauto.
      - apply orb_false_iff in Gx. destruct Gx as [Gx _]. apply negb_false_iff, veq in Gx. tauto. }
    assert (Ce : cov_l (filter g k1) (e_quality e)) by (exists e; split; auto; apply (proj1 Hswo)).
    assert (Sf : ascending c (filter g k1)) by (apply SS_filter; auto).
    cbn [add_unselected add_irrelevants set_k bs_k] in E.
    assert (Done : forall k', (k' = filter g k1 \/ (bc_num c < Z.of_nat (length (filter g k1)) /\ k' = tl (filter g k1))) -> forall v, cov_l (filter g k1) v -> cov_l k' v).
    { intros k' [->|[Hl ->]] v Hv; auto. destruct (filter g k1) as [|x0 l0]; [destruct Ie|]. destruct l0 as [|x1 l1]; [cbn [length] in Hl; lia|].
      destruct Hv as (x & [<-|Ix] & Hx); [|exists x; auto]. exists x1. split; [left; auto|]. inversion Sf as [|? ? _ Fa]; subst. inversion Fa; subst. eapply lt_trans; eauto. }
    assert (K' : bs_k st' = filter g k1 \/ (bc_num c < Z.of_nat (length (filter g k1)) /\ bs_k st' = tl (filter g k1))).
    { destruct (bc_num c <? Z.of_nat (length (filter g k1))) eqn:En; injection E as <-; cbn [add_unselected set_k bs_k]; auto. right. apply Z.ltb_lt in En. auto. }
    split; [apply Done; auto|]. intros v Hv. apply Done; auto.
  Qed.
  Lemma handle_best : forall st selCond s oe q nsr X nsr' st', inv st -> X = extend_pattern selCond s -> candidate df tcol X -> incl X L ->
    meas X = Ok q -> est X = Ok oe ->
    bsd_handle c st selCond s oe q (bits P X) (bits N X) nsr (tp_of df tsel X) (fp_of df tsel X) = Ok (nsr', st') ->
    (forall v, cov st v -> cov st' v) /\ cov st' q /\ (nsr' = nsr ++ [(oe, s)] \/ (nsr' = nsr /\ cov st' oe)).
  Proof.
    intros st selCond s oe q nsr X nsr' st' HI EX K HL Eq Eo E. unfold bsd_handle in E. cbn [add_visited bs_k] in E. rewrite <- EX in E.
    assert (I1 := proj1 HI). destruct (kgood_first _ _ _ _ _ _ I1) as (w & kw & Ek). rewrite Ek in E. cbn [first_entry bind] in E. rewrite <- Ek in E.
    assert (Iw : In w (bs_k st)) by (rewrite Ek; left; auto).
    assert (Hpass : forall v, passes c v (e_quality w) = false -> cov st v).
    { intros v H. exists w. split; auto. unfold passes in H. destruct (bc_class c); auto; apply negb_false_iff in H; apply (proj1 (proj2 Hswo)); auto. }
    assert (Hq : lt oe q = false) by (apply (Hsound X X); auto; apply incl_refl).
    destruct (passes c oe (e_quality w) || not_full c (bs_k st)) eqn:E1.
    2:{ injection E as <- <-. cbn [add_log add_unselected add_pruned add_visited bs_k]. apply orb_false_iff in E1. destruct E1 as [E1 _]. split; auto. split; [|right; split; auto].
        apply (cov_trans _ oe); auto. }
    destruct (passes c q (e_quality w) || not_full c (bs_k st)) eqn:E2.
    2:{ cbn [bind] in E. injection E as <- <-. cbn [add_log add_unselected add_pruned add_visited bs_k]. apply orb_false_iff in E2. destruct E2 as [E2 _]. auto. }
    unfold check_rel in E. destruct (bc_is_float c q); cbn [negb] in E; [|discriminate]. cbn [add_visited bs_k] in E. rewrite Ek in E. cbn [first_entry bind] in E. rewrite <- Ek in E.
    set (e := BE q X (bits P X ++ bits N X) oe (tp_of df tsel X) (fp_of df tsel X)) in *.
    assert (He : ok e) by (unfold entry_ok, e; cbn [e_pattern e_bits e_tp e_fp e_quality e_oe]; split; auto; split; auto; split; auto; split; auto; split; auto).
    destruct I1 as [Ed|(K1 & K2 & K3 & K4 & K5 & K6)].
    - assert (Ew : w = dummy_entry c) by congruence. subst w. replace (e_pattern (dummy_entry c)) with (@nil selector) in E by reflexivity. cbn [bind fst snd] in E.
      pose proof (first_insert c df tcol tval mask Hnum Hdummy (add_visited st) e He Ed) as FI. change (e_pattern e) with X in FI.
      destruct (insert_entry c (add_visited st) e (bits P X) (bits N X)) as [st1|]; cbn [bind] in E; [|discriminate]. injection E as <- <-. cbn [add_log bs_k].
      destruct FI as (F1 & _). rewrite F1. assert (H1 : lt q q = false) by apply (proj1 Hswo). split; [|split; auto; exists e; split; [left; auto|auto]].
      intros v (x & Ix & Hx). rewrite Ed in Ix. destruct Ix as [<-|[]]. exists e. split; [left; auto|]. apply (lt_trans _ (bc_dummy c)); auto. apply (Hdummy X); auto.
    - assert (Hw : ok w) by (rewrite Ek in K5; inversion K5; auto). destruct (entry_nonempty c df tcol tval mask w Hw) as (s0 & X0 & Ew). rewrite Ew in E.
      assert (Fin : forall st2 , Forall ok (bs_k st2) -> (forall v, cov st v -> cov st2 v \/ lt q v = false) ->
        (do st3 <- insert_entry c st2 e (bits P X) (bits N X); Ok (nsr ++ [(oe, s)], add_log X st3)) = Ok (nsr', st') ->
        (forall v, cov st v -> cov st' v) /\ cov st' q /\ (nsr' = nsr ++ [(oe, s)] \/ (nsr' = nsr /\ cov st' oe))).
      { intros st2 F2 C2 E'. pose proof (insert_best st2 e) as IB. change (e_pattern e) with X in IB.
        destruct (insert_entry c st2 e (bits P X) (bits N X)) as [st3|]; cbn [bind] in E'; [|discriminate]. injection E' as <- <-. cbn [add_log bs_k].
        destruct (IB st3 He F2 eq_refl) as [B1 B2]. split; [|split; auto]. intros v Hv. destruct (C2 v Hv); auto. apply (cov_trans _ q); auto. }
      destruct (bc_class c) eqn:Ec.
      + pose proof (bsd_relevant_spec c df tcol tval mask (bs_k st) X Ec K5 (covers df tcol tval X K)) as RS.
        destruct (bsd_relevant_to (bs_k st) (bits P X) (bits N X)) as [r|]; cbn [bind fst snd] in E; [|discriminate]. destruct r.
        * apply (Fin (add_visited st)); auto.
        * cbn [bind] in E. injection E as <- <-. cbn [add_log add_unselected add_irrelevants add_visited bs_k]. split; auto. split; auto.
          symmetry in RS. apply not_true_iff_false in RS. assert (Ex : exists x, In x (bs_k st) /\ dom X (e_pattern x) = true).
          { clear -RS. induction (bs_k st) as [|x l IH]; cbn [forallb] in RS; [congruence|]. destruct (dom X (e_pattern x)) eqn:D; [exists x; split; [left; auto|auto]|].
            cbn [negb andb] in RS. destruct (IH RS) as (y & Iy & Dy). exists y. split; [right; auto|auto]. }
          destruct Ex as (x & Ix & Dx). rewrite Forall_forall in K5. destruct (K5 x Ix) as (A1 & _ & _ & _ & _ & A6 & _). exists x. split; auto. apply (Hmono eq_refl X (e_pattern x)); auto.
      + pose proof (closed_relevant_spec c df tcol tval mask (bs_k st) X q X K5) as RS.
        destruct (closed_relevant_to c (bs_k st) (bits P X) (bits N X) q X) as [[[k' x]|]|]; [| |destruct RS]; cbn [bind fst snd] in E.
        * destruct RS as (k1 & k2 & Ek1 & -> & _ & D).
          apply (Fin (add_unselected (length x) (add_irrelevants (set_k (add_visited st) (k1 ++ k2)) (map irrelevant_of x)))); auto; cbn [add_unselected add_irrelevants set_k bs_k].
          -- rewrite Ek1 in K5. apply Forall_app in K5. destruct K5 as [A B]. apply Forall_app in B. apply Forall_app. tauto.
          -- intros v (y & Iy & Hy). rewrite Ek1 in Iy. apply in_app_or in Iy. rewrite in_app_iff in Iy. destruct Iy as [Iy|[Iy|Iy]]; [left|right|left]; try (exists y; split; auto; apply in_or_app; auto).
             destruct D as [[-> _]|(z & -> & Hz & _)]; [destruct Iy|]. destruct Iy as [<-|[]]. apply andb_true_iff in Hz. destruct Hz as [Hz _]. apply veq in Hz. eapply lt_trans; [apply Hz|auto].
        * injection E as <- <-. cbn [add_log add_unselected add_irrelevants add_visited bs_k]. split; auto. split; auto.
          destruct RS as (k1 & z & k2 & -> & _ & Hz & _). apply andb_true_iff in Hz. destruct Hz as [Hz _]. apply veq in Hz. exists z. split; [apply in_or_app; right; left; auto|tauto].
      + pose proof (closed_relevant_spec c df tcol tval mask (bs_k st) X q X K5) as RS.
        destruct (closed_relevant_to c (bs_k st) (bits P X) (bits N X) q X) as [[[k' x]|]|]; [| |destruct RS]; cbn [bind fst snd] in E.
        * destruct RS as (k1 & k2 & Ek1 & -> & _ & D).
          apply (Fin (add_unselected (length x) (add_irrelevants (set_k (add_visited st) (k1 ++ k2)) (map irrelevant_of x)))); auto; cbn [add_unselected add_irrelevants set_k bs_k].
          -- rewrite Ek1 in K5. apply Forall_app in K5. destruct K5 as [A B]. apply Forall_app in B. apply Forall_app. tauto.
          -- intros v (y & Iy & Hy). rewrite Ek1 in Iy. apply in_app_or in Iy. rewrite in_app_iff in Iy. destruct Iy as [Iy|[Iy|Iy]]; [left|right|left]; try (exists y; split; auto; apply in_or_app; auto).
             destruct D as [[-> _]|(z & -> & Hz & _)]; [destruct Iy|]. destruct Iy as [<-|[]]. apply andb_true_iff in Hz. destruct Hz as [Hz _]. apply veq in Hz. eapply lt_trans; [apply Hz|auto].
        * injection E as <- <-. cbn [add_log add_unselected add_irrelevants add_visited bs_k]. split; auto. split; auto.
          destruct RS as (k1 & z & k2 & -> & _ & Hz & _). apply andb_true_iff in Hz. destruct Hz as [Hz _]. apply veq in Hz. exists z. split; [apply in_or_app; right; left; auto|tauto].
  Qed.

  (** * The search *)
  Notation dpos := (build_bitset df mask tcol L).
  Notation dneg := (build_bitset df (map negb mask) tcol L).
  Notation node := (BSDProofs.node c df tcol mask).
  Lemma NE : forall C R s, node C R -> In s R -> sorted_strictly (extend_pattern C s) /\ (forall x, In x (extend_pattern C s) <-> x = s \/ In x C) /\
    length (extend_pattern C s) = S (length C) /\ incl (extend_pattern C s) L.
  Proof. exact (node_extend c df tcol tval Hcat Hcol mask Hmask). Qed.
  Definition below (st : state) (Y : pattern) : Prop := forall X q, candidate df tcol X -> incl Y X -> meas X = Ok q -> cov st q.
  Definition grows (st st' : state) : Prop := forall v, cov st v -> cov st' v.
  Lemma below_grows : forall st st' Y, grows st st' -> below st Y -> below st' Y.
  Proof. intros st st' Y G B X q K I E. apply G. eapply B; eauto. Qed.
  Lemma evaluate_best : forall C R s st nsr nsr' st', node C R -> In s R -> inv st ->
    bsd_evaluate c dpos dneg C (bits P C) (bits N C) (nsr, st) s = Ok (nsr', st') ->
    grows st st' /\ ((nsr' = nsr /\ below st' (extend_pattern C s)) \/
      exists o, nsr' = nsr ++ [(o, s)] /\ est (extend_pattern C s) = Ok o /\ candidate df tcol (extend_pattern C s) /\ (forall q, meas (extend_pattern C s) = Ok q -> cov st' q)).
  Proof.
    intros C R s st nsr nsr' st' HN Is HI E. unfold bsd_evaluate in E. set (X := extend_pattern C s) in *.
    assert (Ls : In s L) by (apply HN; auto). rewrite (pget c df tcol tval Hcat Hquo Hcol mask Hmask s Ls), (nget c df tcol tval Hcat Hquo Hcol mask Hmask s Ls) in E. cbn [bind] in E.
    assert (Ep : (match C with [] => Ok (bits P [s]) | _ :: _ => logical_and (bits P C) (bits P [s]) end) = Ok (bits P X)).
    { unfold X. rewrite <- (extend_bits c df tcol tval Hcat Hcol mask Hmask C R s _ HN Is). destruct C; auto. apply BSDRows.bits_and. }
    assert (En : (match C with [] => Ok (bits N [s]) | _ :: _ => logical_and (bits N C) (bits N [s]) end) = Ok (bits N X)).
    { unfold X. rewrite <- (extend_bits c df tcol tval Hcat Hcol mask Hmask C R s _ HN Is). destruct C; auto. apply BSDRows.bits_and. }
    rewrite Ep in E. cbn [bind] in E. rewrite En in E. cbn [bind] in E. rewrite card_pos, card_neg in E. fold tsel in E.
    pose proof (cover_sum df tcol tval X) as CS. fold tsel in CS. rewrite CS in E. destruct (Z.of_nat (coverage df X) =? 0) eqn:Ez.
    - injection E as <- <-. cbn [add_unselected bs_k]. split; [intros v Hv; exact Hv|]. left. split; auto. apply Z.eqb_eq in Ez. intros Y q [_ KY] I _. exfalso.
      pose proof (coverage_incl df tcol tval X Y I). lia.
    - apply Z.eqb_neq in Ez. assert (K : candidate df tcol X) by (split; [apply (node_description c df tcol tval Hcat Hcol mask Hmask C R s); auto|lia]).
      assert (HI' := HI). destruct HI' as (I1 & I2 & I3 & _). rewrite I2, I3 in E.
      change (bc_oe c (tp_of df tsel X) (fp_of df tsel X) (TP_of df tcol tval) (FP_of df tcol tval)) with (est X) in E.
      change (bc_measure c (tp_of df tsel X) (fp_of df tsel X) (TP_of df tcol tval) (FP_of df tcol tval)) with (meas X) in E.
      destruct (est X) as [oe|e] eqn:Eo; cbn [bind] in E; [|discriminate]. destruct (meas X) as [q|e] eqn:Eq; cbn [bind] in E; [|discriminate].
      destruct (handle_best st C s oe q nsr X nsr' st' HI eq_refl K (proj2 (proj2 (proj2 (NE C R s HN Is)))) Eq Eo E) as (G & Cq & H).
      split; auto. destruct H as [->|[-> Co]]; [right; exists oe; split; auto; split; auto; split; auto; intros q1 Eq1; injection Eq1 as <-; auto|]. left. split; auto.
      intros Y q' KY I EY. apply (cov_trans _ oe); auto. apply (Hsound Y X); auto.
  Qed.
  Lemma fold_best : forall C R, node C R -> forall R' st nsr nsr' st', incl R' R -> NoDup R' -> inv st -> (forall s, In s R' -> ~ In (extend_pattern C s) (visited st)) ->
    fold_res (bsd_evaluate c dpos dneg C (bits P C) (bits N C)) R' (nsr, st) = Ok (nsr', st') ->
    grows st st' /\ exists more, nsr' = nsr ++ more /\ (forall o s, In (o, s) more -> est (extend_pattern C s) = Ok o /\ candidate df tcol (extend_pattern C s)) /\
      forall s, In s R' -> below st' (extend_pattern C s) \/ (In s (map snd more) /\ forall q, meas (extend_pattern C s) = Ok q -> cov st' q).
  Proof.
    intros C R HN R'. induction R' as [|s R' IH]; intros st nsr nsr' st' HI ND Hinv Hf E; cbn [fold_res] in E.
    - injection E as <- <-. split; [intros v Hv; exact Hv|]. exists []. rewrite app_nil_r. split; auto. split; [intros o s []|intros s []].
    - assert (Is : In s R) by (apply HI; left; auto). inversion ND as [|? ? N1 N2]; subst.
      pose proof (evaluate_spec c df tcol tval Hcat Hquo Hcol mask Hmask Hswo Hnum Hdummy C R s st nsr HN Is Hinv (Hf s (or_introl eq_refl))) as ES.
      pose proof (evaluate_best C R s st nsr) as EB.
      destruct (bsd_evaluate c dpos dneg C (bits P C) (bits N C) (nsr, st) s) as [[nsr1 st1]|]; cbn [bind] in E; [|discriminate].
      destruct (EB nsr1 st1 HN Is Hinv eq_refl) as (G1 & D1). clear EB.
      destruct ES as (Hinv1 & o & Hn1 & Hv1).
      assert (Hf1 : forall t, In t R' -> ~ In (extend_pattern C t) (visited st1)).
      { intros t It I. assert (Ht := Hf t (or_intror It)). destruct Hv1 as [[Ev _]|[Ev _]]; rewrite Ev in I; [auto|]. apply in_app_or in I. destruct I as [I|[I|[]]]; auto.
        apply (extend_inj c df tcol tval Hcat Hcol mask Hmask C R s t HN Is (HI t (or_intror It))) in I. subst t. auto. }
      destruct (IH st1 nsr1 nsr' st' (fun x Ix => HI x (or_intror Ix)) N2 Hinv1 Hf1 E) as (G2 & more & E1 & E2 & E3).
      split; [intros v Hv; apply G2, G1; auto|]. destruct D1 as [[-> B]|(o1 & -> & Eo & K & Cq)].
      + exists more. split; auto. split; auto. intros t [<-|It]; auto. left. eapply below_grows; eauto.
      + exists ((o1, s) :: more). rewrite <- app_assoc in E1. split; auto. split; [intros o' s' [Ep|I]; [injection Ep as <- <-; auto|auto]|].
        intros t [<-|It]; [right; split; [left; auto|]; intros q Eq; apply G2; auto|]. destruct (E3 t It) as [B|[I B]]; auto. right. split; [right; auto|auto].
  Qed.
  Lemma same_pattern : forall X Y, candidate df tcol X -> candidate df tcol Y -> incl X Y -> incl Y X -> X = Y.
  Proof.
    intros X Y KX KY I J. destruct (candidate_U df tcol X Hcat (proj1 KX)) as [_ NX]. destruct (candidate_U df tcol Y Hcat (proj1 KY)) as [_ NY].
    apply sorted_unique; auto; [apply KX|apply KY|]. intros s. split; auto.
  Qed.
  Definition reached (C : pattern) (R : list selector) (X : pattern) : Prop := candidate df tcol X /\ extends C R X.
  Lemma search_best : forall fuel C R depth st st', (length R < fuel)%nat -> node C R -> depth = Z.of_nat (length C) -> inv st -> fresh st C R ->
    bsd_search c dpos dneg fuel C R (bits P C) (bits N C) depth st = Ok st' ->
    grows st st' /\ forall X q, reached C R X -> deep c depth X -> meas X = Ok q -> cov st' q.
  Proof.
    intros fuel. induction fuel as [|f IHf]; intros C R depth st st' Hl HN Hd HI Hf E; [lia|]. cbn [bsd_search] in E.
    assert (HF0 : forall s, In s R -> ~ In (extend_pattern C s) (visited st)).
    { intros s Is I. destruct (NE C R s HN Is) as (_ & A & _). apply (Hf _ I). split; [intros x Ix; apply A; auto|]. split; [intros x Ix; apply A in Ix; apply in_or_app; destruct Ix as [->|]; auto|].
      exists s. split; [apply A; auto|]. apply HN; auto. }
    pose proof (fold_evaluate c df tcol tval Hcat Hquo Hcol mask Hmask Hswo Hnum Hdummy C R HN R st [] (fun x I => I) (proj1 (proj2 (proj2 HN))) HI HF0) as FE.
    pose proof (fold_best C R HN R st []) as FB.
    destruct (fold_res (bsd_evaluate c dpos dneg C (bits P C) (bits N C)) R ([], st)) as [[nsr st1]|]; cbn [bind] in E; [|discriminate]. cbn [fst snd] in E.
    destruct (FB nsr st1 (fun x I => I) (proj1 (proj2 (proj2 HN))) HI HF0 eq_refl) as (G1 & more & E1 & Em & Es). clear FB. cbn [app] in E1. subst nsr.
    destruct FE as (HI1 & (more' & E1 & Em' & NDm) & new1 & Ev1 & Fn1). cbn [app] in E1. subst more'.
    assert (One : forall X s q, candidate df tcol X -> In s R -> incl X (s :: C) -> incl (s :: C) X -> meas X = Ok q -> cov st1 q).
    { intros X s q K Is I1 I2 Eq. destruct (NE C R s HN Is) as (_ & A & _). assert (J : incl (extend_pattern C s) X) by (intros x Ix; apply A in Ix; apply I2; destruct Ix as [->|]; [left|right]; auto).
      destruct (Es s Is) as [B|[I B]]; [apply (B X); auto|]. apply in_map_iff in I. destruct I as ([o s'] & <- & I). destruct (Em o s' I) as [_ K'].
      apply B. cbn [snd] in *. rewrite <- (same_pattern X (extend_pattern C s')); auto. intros x Ix. apply A. apply I1 in Ix. destruct Ix as [->|]; auto. }
    set (nsr := sort_by (fun x y => pair_lt c y x) more) in *.
    assert (Pm : Permutation more nsr) by apply sort_by_perm.
    assert (NDn : NoDup (map snd nsr)) by (eapply Permutation_NoDup; [apply Permutation_map; exact Pm|]; auto).
    assert (In1 : incl (map snd nsr) R) by (intros x Ix; apply Em'; apply (Permutation_in _ (Permutation_sym (Permutation_map snd Pm))); auto).
    (* a description with one element outside nsr is already covered *)
    assert (Out : forall X q, reached C R X -> meas X = Ok q -> (forall x, In x X -> ~ In x C -> In x (map snd nsr)) \/ cov st1 q).
    { intros X q (K & IC & IR & _) Eq. destruct (forallb (fun x => existsb (sel_eq x) C || existsb (sel_eq x) (map snd nsr)) X) eqn:Fb.
      - left. intros x Ix Nx. rewrite forallb_forall in Fb. specialize (Fb x Ix). assert (Nom : nominal x).
        { destruct (candidate_U df tcol X Hcat (proj1 K)) as [_ NX]. rewrite Forall_forall in NX. auto. }
        assert (NomC : Forall nominal C) by (apply (L_nominal c df tcol tval Hcat Hcol mask Hmask); apply HN).
        assert (NomN : Forall nominal (map snd nsr)) by (apply (L_nominal c df tcol tval Hcat Hcol mask Hmask); intros y Iy; apply HN; auto).
        apply orb_true_iff in Fb. destruct Fb as [Fb|Fb]; apply existsb_exists in Fb; destruct Fb as (y & Iy & Ey); rewrite sel_eq_sym in Ey.
        + exfalso. apply Nx. apply (member_nominal C x NomC Nom). exists y; auto.
        + apply (member_nominal _ x NomN Nom). exists y; auto.
      - right. assert (Ex : exists x, In x X /\ ~ In x C /\ ~ In x (map snd nsr)).
        { clear -Fb. induction X as [|x X IH]; cbn [forallb] in Fb; [discriminate|]. apply andb_false_iff in Fb. destruct Fb as [Fb|Fb].
          - exists x. split; [left; auto|]. apply orb_false_iff in Fb. destruct Fb as [F1 F2]. split; intros I; [apply not_true_iff_false in F1; apply F1|apply not_true_iff_false in F2; apply F2]; apply existsb_exists; exists x; split; auto; apply sel_eq_refl.
          - destruct (IH Fb) as (y & Iy & H). exists y. split; [right; auto|auto]. }
        destruct Ex as (x & Ix & Nx & Nn). assert (IxR : In x R) by (apply IR in Ix; apply in_app_or in Ix; destruct Ix; tauto).
        destruct (Es x IxR) as [B|[I _]]; [|exfalso; apply Nn; apply (Permutation_in _ (Permutation_map snd Pm)); auto].
        apply (B X); auto. destruct (NE C R x HN IxR) as (_ & A & _). intros y Iy. apply A in Iy. destruct Iy as [->|]; auto. }
    destruct (depth <? bc_max_depth c) eqn:Edepth.
    2:{ injection E as <-. split; auto. apply Z.ltb_ge in Edepth. intros X q (K & IC & IR & x & Ix & Nx) D Eq. unfold deep in D.
        assert (IxR : In x R) by (apply IR in Ix; apply in_app_or in Ix; destruct Ix; tauto). apply (One X x); auto.
        - assert (ND : NoDup X) by (apply (sorted_nodup_nominal X); [apply (candidate_U df tcol X Hcat (proj1 K))|apply K]).
          intros y Iy. assert (NDC : NoDup (x :: C)) by (constructor; auto; apply (sorted_nodup_nominal C); [apply (L_nominal c df tcol tval Hcat Hcol mask Hmask); apply HN|apply HN]).
          apply (NoDup_length_incl NDC (l' := X)); auto; [cbn [length]; lia|]. intros z [<-|Iz]; auto.
        - intros z [<-|Iz]; auto. }
    apply Z.ltb_lt in Edepth.
    assert (F2 : fresh2 st1 C (map snd nsr)).
    { intros X x y IX IC IXR Ix Iy Nx Ny Nxy. rewrite Ev1 in IX. apply in_app_or in IX. destruct IX as [IX|IX].
      - apply (Hf X IX). split; auto. split; [intros z Iz; apply IXR in Iz; apply in_app_or in Iz; apply in_or_app; destruct Iz; auto|]. exists x; auto.
      - rewrite Forall_forall in Fn1. destruct (Fn1 X IX) as (s & Is & -> & _). destruct (NE C R s HN Is) as (_ & A & _).
        apply A in Ix, Iy. destruct Ix as [->|]; [|auto]. destruct Iy as [->|]; auto. }
    assert (Hest : forall o s, In (o, s) nsr -> est (extend_pattern C s) = Ok o /\ candidate df tcol (extend_pattern C s)).
    { intros o s I. apply Em. apply (Permutation_in _ (Permutation_sym Pm)). auto. }
    cut (forall l aux st2 st', NoDup aux -> incl aux R -> (length aux <= length R)%nat -> incl (map snd l) aux -> NoDup (map snd l) -> inv st2 -> fresh2 st2 C aux -> incl l nsr ->
      ((fix loop (l : list (V * selector)) (aux : list selector) (st : state) {struct l} : res state :=
             match l with
             | [] => Ok st
             | x :: l' =>
                 do w <- first_entry (bs_k st);
                 if bc_lt c (e_quality w) (fst x) then
                   do aux <- remove_first (snd x) aux;
                   do bp <- bitset_get dpos (snd x);
                   do pos <- logical_and (bits P C) bp;
                   do bn <- bitset_get dneg (snd x);
                   do neg <- logical_and (bits N C) bn;
                   do st <- bsd_search c dpos dneg f (extend_pattern C (snd x)) aux pos neg (depth + 1) st;
                   loop l' aux st
                 else loop l' aux (add_unselected 1 (add_pruned st))
             end) l aux st2) = Ok st' ->
      grows st1 st2 ->
      grows st2 st' /\ forall X q, reached C R X -> deep c depth X -> meas X = Ok q -> (forall x, In x X -> ~ In x C -> In x (map snd l)) -> cov st' q).
    { intros Hloop. assert (Ll : (length (map snd nsr) <= length R)%nat) by (apply NoDup_incl_length; auto).
      destruct (Hloop nsr (map snd nsr) st1 st' NDn In1 Ll (fun x I => I) NDn HI1 F2 (fun x I => I) E (fun v Hv => Hv)) as [G2 H2]. split; [intros v Hv; apply G2, G1; auto|].
      intros X q HX HD Eq. destruct (Out X q HX Eq) as [I|Cv]; [apply (H2 X q); auto|apply G2; auto]. }
    clear E. intros l. induction l as [|[o s] l IHl]; intros aux st2 st3 NDa Ia La Il NDl HI2 HF2 Isub E G12.
    { injection E as <-. split; [intros v Hv; exact Hv|]. intros X q (_ & _ & _ & x & Ix & Nx) _ _ H. destruct (H x Ix Nx). }
    destruct (kgood_first _ _ _ _ _ _ (proj1 HI2)) as (w & kw & Ew). rewrite Ew in E. cbn [first_entry bind] in E. cbn [map snd] in Il, NDl. inversion NDl as [|? ? N1 N2]; subst depth; subst.
    assert (Iw : In w (bs_k st2)) by (rewrite Ew; left; auto).
    assert (Isub' : incl l nsr) by (intros x Ix; apply Isub; right; auto).
    destruct (Hest o s (Isub _ (or_introl eq_refl))) as [Eo Ko]. cbn [fst] in E.
    assert (Is : In s aux) by (apply Il; left; auto). assert (IsR : In s R) by auto. assert (IsL : In s L) by (apply HN; auto).
    destruct (NE C R s HN IsR) as (X1 & X2 & X3 & X4).
    assert (Split : forall X, (forall x, In x X -> ~ In x C -> In x (map snd ((o, s) :: l))) -> In s X \/ (forall x, In x X -> ~ In x C -> In x (map snd l))).
    { intros X H. destruct (existsb (sel_eq s) X) eqn:Eb.
      - apply existsb_exists in Eb. destruct Eb as (y & Iy & Ey). destruct (in_dec (fun a b => selector_eq_dec a b) s X) as [I|NI]; auto. right. intros x Ix Nx. destruct (H x Ix Nx) as [Hx|Hx]; auto. cbn [snd] in Hx. subst x. tauto.
      - right. intros x Ix Nx. destruct (H x Ix Nx) as [Hx|Hx]; auto. cbn [snd] in Hx. subst x. apply not_true_iff_false in Eb. exfalso. apply Eb. apply existsb_exists. exists s. split; auto. apply sel_eq_refl. }
    destruct (bc_lt c (e_quality w) o) eqn:Elt.
    2:{ assert (I' : incl (map snd l) aux) by (intros x Ix; apply Il; right; auto).
        assert (HI2' : inv (add_unselected 1 (add_pruned st2))) by (apply (inv_same c df tcol tval mask st2); auto).
        destruct (IHl aux (add_unselected 1 (add_pruned st2)) st3 NDa Ia La I' N2 HI2' HF2 Isub' E G12) as [G3 H3]. split; [exact G3|].
        intros X q HX HD Eq HXl. destruct (Split X HXl) as [IsX|HX']; [|apply (H3 X q); auto].
        apply G3. exists w. split; [exact Iw|]. eapply lt_trans; [exact Elt|]. apply (Hsound X (extend_pattern C s)); auto; [apply HX|].
        intros x Ix. apply X2 in Ix. destruct Ix as [->|Ix]; auto. apply HX; auto. }
    cbn [snd] in E. assert (IaL : incl aux L) by (intros x Ix; apply HN; auto).
    destruct (remove_first_spec c df tcol tval Hcat Hcol mask Hmask s aux IaL NDa Is) as (aux' & Er & NDa' & La' & Ha'). rewrite Er in E. cbn [bind] in E.
    rewrite (pget c df tcol tval Hcat Hquo Hcol mask Hmask s IsL), (nget c df tcol tval Hcat Hquo Hcol mask Hmask s IsL) in E. cbn [bind] in E. rewrite BSDRows.bits_and in E. cbn [bind] in E. rewrite BSDRows.bits_and in E. cbn [bind] in E.
    rewrite (extend_bits c df tcol tval Hcat Hcol mask Hmask C R s P HN IsR), (extend_bits c df tcol tval Hcat Hcol mask Hmask C R s N HN IsR) in E.
    assert (HN' : node (extend_pattern C s) aux').
    { split; auto. split; auto. split; auto. split; [intros x Ix; apply Ha' in Ix; apply IaL; tauto|]. intros x Ix I. apply Ha' in Ix. apply X2 in I. destruct I as [->|I]; [tauto|].
      destruct Ix as [Ix _]. apply Ia in Ix. apply HN in Ix. auto. }
    assert (HF' : fresh st2 (extend_pattern C s) aux').
    { intros X IX (B1 & B2 & x & Ix & Nx). apply (HF2 X s x IX).
      - intros y Iy. apply B1, X2; auto.
      - intros y Iy. apply B2 in Iy. apply in_app_or in Iy. apply in_or_app. destruct Iy as [Iy|Iy]; [apply X2 in Iy; destruct Iy as [->|]; auto|]. apply Ha' in Iy. tauto.
      - apply B1, X2; auto.
      - exact Ix.
      - apply HN; auto.
      - intros I. apply Nx, X2; auto.
      - intros <-. apply Nx, X2; auto. }
    assert (Hd' : Z.of_nat (length C) + 1 = Z.of_nat (length (extend_pattern C s))) by lia.
    assert (Hlen' : (length aux' < f)%nat) by lia.
    pose proof (search_spec c df tcol tval Hcat Hquo Hcol mask Hmask Hswo Hnum Hdummy f (extend_pattern C s) aux' (Z.of_nat (length C) + 1) st2 Hlen' HN' Hd' HI2 HF') as RS. unfold result in RS.
    pose proof (IHf (extend_pattern C s) aux' (Z.of_nat (length C) + 1) st2) as IH1.
    destruct (bsd_search c dpos dneg f (extend_pattern C s) aux' (bits P (extend_pattern C s)) (bits N (extend_pattern C s)) (Z.of_nat (length C) + 1) st2) as [st4|]; cbn [bind] in E; [|discriminate].
    destruct RS as (HI3 & new3 & Ev3 & Fn3). destruct (IH1 st4 Hlen' HN' Hd' HI2 HF' eq_refl) as [G4 H4]. clear IH1.
    assert (Ia'' : incl aux' R) by (intros x Ix; apply Ha' in Ix; apply Ia; tauto).
    assert (Il' : incl (map snd l) aux') by (intros x Ix; apply Ha'; split; [apply Il; right; auto|intros ->; auto]).
    assert (HF3 : fresh2 st4 C aux').
    { intros X x y IX IC IXR Ix Iy Nx Ny Nxy. rewrite Ev3 in IX. apply in_app_or in IX. destruct IX as [IX|IX].
      - apply (HF2 X x y IX); auto. intros z Iz. apply IXR in Iz. apply in_app_or in Iz. apply in_or_app. destruct Iz as [|Iz]; auto. apply Ha' in Iz. tauto.
      - rewrite Forall_forall in Fn3. destruct (Fn3 X IX) as ((B1 & _) & _). assert (IsX : In s X) by (apply B1, X2; auto). apply IXR in IsX. apply in_app_or in IsX.
        destruct IsX as [I|I]; [apply HN in I; auto|]. apply Ha' in I. tauto. }
    assert (La2 : (length aux' <= length R)%nat) by lia.
    assert (G14 : grows st1 st4) by (intros v Hv; apply G4, G12; auto).
    destruct (IHl aux' st4 st3 NDa' Ia'' La2 Il' N2 HI3 HF3 Isub' E G14) as [G5 H5]. split; [intros v Hv; apply G5, G4; auto|].
    intros X q HX HD Eq HXl. destruct (Split X HXl) as [IsX|HX']; [|apply (H5 X q); auto].
    assert (HC : incl (extend_pattern C s) X) by (intros x Ix; apply X2 in Ix; destruct Ix as [->|Ix]; auto; apply HX; auto).
    destruct (forallb (fun x => existsb (sel_eq x) (extend_pattern C s)) X) eqn:Fb.
    - apply G5, G14. apply (One X s); auto; [apply HX| |intros z [<-|Iz]; auto; apply HX; auto].
      intros x Ix. rewrite forallb_forall in Fb. specialize (Fb x Ix). assert (Nom : nominal x).
      { destruct (candidate_U df tcol X Hcat (proj1 (proj1 HX))) as [_ NX]. rewrite Forall_forall in NX. auto. }
      assert (NomC : Forall nominal (extend_pattern C s)) by (apply (L_nominal c df tcol tval Hcat Hcol mask Hmask); auto).
      apply existsb_exists in Fb. destruct Fb as (y & Iy & Ey). rewrite sel_eq_sym in Ey. assert (I : In x (extend_pattern C s)) by (apply (member_nominal _ x NomC Nom); exists y; auto).
      apply X2 in I. destruct I as [->|]; [left|right]; auto.
    - apply G5. apply (H4 X q); auto.
      + split; [apply HX|]. split; auto. split.
        * intros x Ix. apply in_or_app. destruct (in_dec selector_eq_dec x C) as [I|NI]; [left; apply X2; auto|]. destruct (HXl x Ix NI) as [Ex|I]; [left; apply X2; left; symmetry; exact Ex|right; auto].
        * assert (Ex : exists x, In x X /\ existsb (sel_eq x) (extend_pattern C s) = false).
          { clear -Fb. induction X as [|x X IH]; cbn [forallb] in Fb; [discriminate|]. apply andb_false_iff in Fb. destruct Fb as [Fb|Fb]; [exists x; split; [left; auto|auto]|]. destruct (IH Fb) as (y & Iy & H). exists y. split; [right; auto|auto]. }
          destruct Ex as (x & Ix & Nx). exists x. split; auto. intros I. apply not_true_iff_false in Nx. apply Nx. apply existsb_exists. exists x. split; auto. apply sel_eq_refl.
      + unfold deep in *. lia.
  Qed.
  Lemma fit_best : forall st', bsd_fit c (bsd_new c) df tcol tval = Ok st' ->
    forall X q, candidate df tcol X -> incl X L -> Z.of_nat (length X) <= Z.max 0 (bc_max_depth c) + 1 -> meas X = Ok q -> cov st' q.
  Proof.
    intros st' E X q K I Hl Eq. unfold bsd_fit in E. rewrite (all_str df Hcat) in E. cbn [negb] in E. rewrite Hmask in E. cbn [bind] in E. rewrite (pop df tcol tval Hcat Hcol mask Hmask) in E. unfold bsd_new in E. cbn [bs_k bs_irrelevants bs_visited bs_selected bs_unselected bs_pruned bs_file bs_log] in E.
    rewrite (count_pos df tcol tval Hcat Hcol mask Hmask), (count_neg df tcol tval Hcat Hcol mask Hmask) in E. rewrite <- !(bits_nil df) in E.
    change (bsd_frequent df mask tcol (bc_min_support c)) with L in E. change (pattern_init []) with (@nil selector) in E.
    set (st0 := BS [dummy_entry c] [] 0 0 0 0 (TP_of df tcol tval) (FP_of df tcol tval) None []) in *.
    assert (Hf : fresh st0 [] L) by (intros Y []).
    pose proof (search_best (S (length L)) [] L 0 st0) as SB.
    destruct (bsd_search c dpos dneg (S (length L)) [] L (bits P []) (bits N []) 0 st0) as [st1|]; cbn [bind] in E; [|discriminate].
    destruct (SB st1 (Nat.lt_succ_diag_r _) (node_start c df tcol tval Hcat Hcol mask Hmask) eq_refl (inv_new c df tcol tval mask) Hf eq_refl) as [_ H].
    assert (Cv : cov st1 q).
    { apply (H X q); auto.
      - split; auto. split; [intros x []|]. split; [exact I|]. destruct K as [[D _] _]. destruct X as [|x X]; [congruence|]. exists x. split; [left; auto|intros []].
      - unfold deep. lia. }
    destruct (first_entry (bs_k st1)) as [e0|]; cbn [bind] in E; [|discriminate]. injection E as <-. destruct (bc_write c); exact Cv.
  Qed.
End Best.
