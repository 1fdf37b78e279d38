(** SDMapStar with a limit: the only exceptions of the search are those of the measure and of the estimate (C33, C73). *)
From Verif Require Export SDMapStarFit.
From Verif Require Import OrderFacts VerticalProofs Properties_SDMap.
Open Scope string_scope.
Open Scope list_scope.
Open Scope nat_scope.

Lemma fold_res_err : forall {A S} (f : S -> A -> res S) l s e, fold_res f l s = Err e -> exists s' x, In x l /\ f s' x = Err e.
Proof.
  intros A S f l. induction l as [|x l IH]; intros s e E; cbn [fold_res] in E; [discriminate|]. destruct (f s x) as [s1|e1] eqn:E1; cbn [bind] in E.
  - destruct (IH s1 e E) as (s' & y & I & Ey). exists s', y. split; [right; auto|auto].
  - injection E as <-. exists s, x. split; [left; auto|auto].
Qed.
Lemma map_res_err : forall {A B} (f : A -> res B) l e, map_res f l = Err e -> exists x, In x l /\ f x = Err e.
Proof.
  intros A B f l e. induction l as [|x l IH]; cbn [map_res]; [discriminate|]. destruct (f x) as [b|e1] eqn:E1; cbn [bind].
  - destruct (map_res f l) as [bs|e2]; cbn [bind]; [discriminate|]. intros E. destruct (IH E) as (y & I & Ey). exists y. split; [right; auto|auto].
  - intros E. injection E as <-. exists x. split; [left; auto|auto].
Qed.

(** The functions of the configuration raise [e] on the numbers of some set of rows. *)
Definition blame {V} (c : star_config V) (TP FP : Z) (e : exn) : Prop :=
  exists tp fp, (0 <= tp <= TP /\ 0 <= fp <= FP /\ 0 < tp + fp)%Z /\
    (sc_kquality c tp fp TP FP = Err e \/ sc_oe c tp fp TP FP = Err e \/ c_measure (sc_base c) tp fp TP FP = Err e).

Section Blame.
  Variable U : selector -> Prop.
  Hypothesis U_nominal : forall s, U s -> nominal s.
  Hypothesis U_key : forall s t, U s -> U t -> skey s = skey t -> s = t.
  Variable ok : Z -> Z -> bool.
  Hypothesis ok_mono : forall a b a' b', (a <= a' -> b <= b' -> ok a b = true -> ok a' b' = true)%Z.
  Context {V : Type}.
  Variable c : star_config V.
  Variable tsel : selector.
  Variables TP FP : Z.
  Hypothesis Hnum : (0 < sc_num c)%Z.
  Hypothesis Hok : thresholds (c_min_tp (sc_base c)) (c_min_fp (sc_base c)) (c_min_n (sc_base c)) = Ok ok.
  Definition counted (tp fp : Z) : Prop := (0 <= tp <= TP /\ 0 <= fp <= FP /\ 0 < tp + fp)%Z.

  Lemma sort_nonempty : forall (l : list V), l <> [] -> sort_by (sc_lt c) l <> [].
  Proof. intros l N E. pose proof (Permutation_length (sort_by_perm (sc_lt c) l)) as H. rewrite E in H. destruct l; [contradiction|discriminate]. Qed.
  Lemma visit_blame : forall st p tp fp, counted tp fp ->
    match star_visit c tsel TP FP st (p, (tp, fp)) with Ok r => ss_k (snd r) <> [] | Err e => blame c TP FP e end.
  Proof.
    intros st p tp fp C. unfold star_visit. rewrite (limit c Hnum). unfold update_k.
    destruct (sc_kquality c tp fp TP FP) as [q|e] eqn:Eq; cbn [bind]; [|exists tp, fp; auto].
    assert (K : exists st1, (if (Z.of_nat (length (ss_k st)) <? sc_num c)%Z then Ok (StarS (ss_base st) (sort_by (sc_lt c) (ss_k st ++ [q])) (ss_pruned st) (ss_cpruned st))
      else match ss_k st with [] => Err IndexError | w :: k => Ok (if sc_lt c w q then StarS (ss_base st) (sort_by (sc_lt c) (q :: k)) (ss_pruned st) (ss_cpruned st) else st) end) = Ok st1 /\ ss_k st1 <> []).
    { destruct (Z.ltb _ _) eqn:El.
      - eexists. split; [reflexivity|]. cbn [ss_k]. apply sort_nonempty. destruct (ss_k st); discriminate.
      - destruct (ss_k st) as [|w k] eqn:Ek; [exfalso; apply Z.ltb_ge in El; cbn in El; lia|]. eexists. split; [reflexivity|].
        destruct (sc_lt c w q); [|rewrite Ek; discriminate]. cbn [ss_k]. apply sort_nonempty. discriminate. }
    destruct K as (st1 & -> & N). cbn [bind]. destruct (sc_oe c tp fp TP FP) as [oe|e] eqn:Eo; cbn [bind]; [|exists tp, fp; auto].
    unfold worst_k. destruct (ss_k st1) as [|w k] eqn:Ek; [contradiction|]. cbn [bind]. destruct (sc_lt c oe w); [cbn [snd ss_k]; discriminate|].
    unfold star_handle, handle_individual_result. destruct (c_measure (sc_base c) tp fp TP FP) as [q'|e] eqn:Em; cbn [bind]; [|exists tp, fp; auto]. cbn [snd ss_k]. rewrite Ek. discriminate.
  Qed.
  (** The entries of the tree. *)
  Lemma entry_le : forall D s p w, (forall e, In e D -> weight_ok (snd e)) -> In (p, w) D -> lastsel p = s ->
    forall k, (pr k w <= asum k (fun p => if selector_eq_dec (lastsel p) s then true else false) D)%Z.
  Proof.
    intros D s p w HW I Hl k. induction D as [|[q v] D IH]; [destruct I|]. cbn [asum]. pose proof (HW (q, v) (or_introl eq_refl)) as (W1 & W2 & _). cbn [snd] in W1, W2.
    assert (HW' : forall e, In e D -> weight_ok (snd e)) by (intros; apply HW; right; auto). destruct I as [E|I].
    - injection E as -> ->. destruct (selector_eq_dec (lastsel p) s); [|contradiction]. pose proof (asum_nonneg k (fun p => if selector_eq_dec (lastsel p) s then true else false) D HW'). lia.
    - specialize (IH HW' I). destruct (selector_eq_dec _ _); [|lia]. destruct k; cbn [pr] in *; lia.
  Qed.
  Lemma conditional_blame : forall ltD t D s alpha st e, good U ok ltD D -> tree_for t D -> In s (keys (paths (build D))) ->
    (forall Y, itemset ok D Y -> cnt true D Y <= TP /\ cnt false D Y <= FP)%Z -> ss_k st <> [] ->
    star_conditional c TP FP st t (s :: alpha) = Err e -> blame c TP FP e.
  Proof.
    intros ltD t D s alpha st e G T Is HB N H. unfold star_conditional in H. rewrite (limit c Hnum) in H. unfold worst_k in H. destruct (ss_k st) as [|w k0]; [contradiction|]. cbn [bind] in H. clear N.
    pose proof T as (R & _). pose proof G as ((Irr & Tra) & GU & GW & GS & GO).
    assert (Us : U s). { apply keys_build in Is. destruct Is as (x & Ie & Ix). apply (GU x); auto. }
    unfold generate_conditional_fp_tree_star in H. rewrite Hok in H. cbn [bind] in H.
    rewrite (header_tree U ok ltD t D s G T (U_nominal s Us)) in H. destruct (in_dec _ _ _) as [_|]; [|contradiction]. cbn [he_first] in H.
    pose proof (proj1 (ids_nonempty _ _) Is) as Nids.
    assert (hd_error (ids (paths (build D)) s) = Some (hd 0 (ids (paths (build D)) s))) as Hhd.
    { destruct (ids (paths (build D)) s); [contradiction|reflexivity]. }
    rewrite <- Hhd in H.
    destruct (ids_entries (build D) 1 s) as (E & E1 & E2 & E3). fold (ids (paths (build D)) s) in E1.
    assert (Llen : length (ids (paths (build D)) s) <= length (t_nodes t)).
    { destruct R as (_ & L & _). rewrite L, E1, map_length, <- (map_length snd E), E2.
      etransitivity; [apply filter_len|lia]. }
    rewrite (horizontal_spec t (build D) s R _ [] _ eq_refl Llen) in H. cbn [bind] in H. rewrite E1 in H.
    assert (El0 : forall x, In x E -> lastsel (fst (snd x)) = s).
    { intros x Ix. assert (I2 : In (snd x) (map snd E)) by (apply in_map; auto). rewrite E2 in I2. apply filter_In in I2.
      destruct I2 as [_ I2]. destruct (selector_eq_dec _ s); [auto|discriminate]. }
    set (low := fun tp fp : Z => do oe <- sc_oe c tp fp TP FP; Ok (sc_lt c oe w)) in *.
    destruct (star_filter low (t_nodes t) (map (fun x => 1 + fst x) E)) as [kp|e1] eqn:Ek; cbn [bind] in H.
    - destruct (star_filter_spec _ _ _ _ Ek) as (E' & F1 & F2 & _). rewrite F1 in H. pose proof (sub_in _ _ _ F2) as Hin.
      assert (E3' : Forall (fun x => nth_error (build D) (fst x) = Some (snd x)) E') by (rewrite Forall_forall in *; auto).
      destruct (conditional_base U U_nominal U_key ok ok_mono ltD t D s E' G T Is E3' ltac:(auto)) as (ct & D' & lt' & H1 & _). rewrite H1 in H. discriminate.
    - assert (e1 = e) by congruence. subst e1. clear H. destruct R as (_ & _ & _ & RN & _).
      assert (FE : Forall (fun x => nth_error (build D) (fst x) = Some (snd x) /\ lastsel (fst (snd x)) = s) E) by (rewrite Forall_forall in *; auto).
      clear -Ek FE RN GW G Is HB low U_nominal. induction FE as [|[i [p v]] E [Hi Hl] FE IH]; cbn [map star_filter] in Ek; [discriminate|]. cbn [fst snd] in *.
      change (1 + i) with (S i) in Ek. rewrite (RN i p v Hi) in Ek. cbn [node_of nd_tp nd_fp] in Ek. unfold low in Ek at 1. destruct (sc_oe c (fst v) (snd v) TP FP) as [oe|e2] eqn:Eo; cbn [bind] in Ek.
      + destruct (star_filter low (t_nodes t) (map (fun x => 1 + fst x) E)) as [r|]; cbn [bind] in Ek; [discriminate|]. apply IH. exact Ek.
      + injection Ek as <-. exists (fst v), (snd v). split; [|auto]. apply nth_error_In in Hi. pose proof (build_in D p v Hi GW) as (W1 & W2 & W3).
        assert (GB : forall x, In x (build D) -> weight_ok (snd x)) by (intros [p' v'] Ix; apply (build_in D p' v'); auto).
        assert (X : forall k, asum k (fun p => if selector_eq_dec (lastsel p) s then true else false) (build D) = cnt k D [s]).
        { intros k. transitivity (asum k (ends s (fun _ => true)) (build D)).
          - apply asum_ext. intros e _. unfold ends. reflexivity.
          - rewrite asum_ends_build by (apply (good_nodup U ok ltD); auto). unfold cnt. apply asum_ext. intros e _. reflexivity. }
        destruct (HB _ (singleton_itemset U ok ltD D s G Is)) as [B1 B2]. pose proof (entry_le (build D) s p v GB Hi Hl true) as L1. pose proof (entry_le (build D) s p v GB Hi Hl false) as L2.
        rewrite X in L1, L2. cbn [pr] in L1, L2. lia.
  Qed.
  Theorem fpgrowth_blame : forall fuel ltD t D alpha st e, good U ok ltD D -> tree_for t D -> length (keys (paths (build D))) < fuel ->
    (forall Y, itemset ok D Y -> cnt true D Y <= TP /\ cnt false D Y <= FP)%Z ->
    star_fpgrowth c tsel TP FP fuel t alpha st = Err e -> blame c TP FP e.
  Proof.
    induction fuel as [|f IH]; intros ltD t D alpha st e G T Hf HB H; [lia|]. cbn [star_fpgrowth] in H.
    assert (HC : forall k Y, (0 <= cnt k D Y)%Z) by (intros k Y; apply (asum_nonneg k); apply G).
    assert (CT : forall Y, itemset ok D Y -> counted (cnt true D Y) (cnt false D Y)).
    { intros Y HY. destruct (HB Y HY). pose proof (HC true Y). pose proof (HC false Y). destruct HY as (_ & _ & P & _). unfold cn in P. unfold counted. lia. }
    destruct (single_path t D) as (b & Eb & Hb); [apply T|]. rewrite Eb in H. cbn [bind] in H.
    destruct b.
    - destruct (Hb eq_refl) as [ch Hch].
      destruct (single_visit U U_nominal ok (fun st v => do r <- star_visit c tsel TP FP st v; Ok (snd r)) ltD t D alpha ch G T Hch) as (Vs & (V1 & V2 & V3) & combos & Ec & Hc).
      rewrite Ec in H. cbn [bind] in H. rewrite Hc in H. apply fold_res_err in H. destruct H as (st1 & v & Iv & Ev). unfold call in Ev. destruct (V1 v Iv) as [HI Hs]. rewrite Hs in Ev.
      pose proof (visit_blame st1 (pattern_init (fst v ++ alpha)) _ _ (CT _ HI)) as K. destruct (star_visit c tsel TP FP st1 _) as [r|e1]; cbn [bind] in Ev; [discriminate|]. congruence.
    - clear Hb. assert (NK : forall x, In x (keys (paths (build D))) -> nominal x).
      { intros x Ix. apply keys_build in Ix. destruct Ix as (y & Ie & Ix). apply U_nominal. destruct G as (_ & GU & _). apply (GU y); auto. }
      destruct (star_order c TP FP t) as [ls|e1] eqn:Eo; cbn [bind] in H.
      + pose proof (order_perm U ok c TP FP Hnum ltD t D ls G T Eo) as Pl. apply fold_res_err in H. destruct H as (st1 & s & Iv & Ev). assert (Is : In s (keys (paths (build D)))) by (apply (Permutation_in s Pl); auto).
        rewrite (header_tree U ok ltD t D s G T) in Ev by auto. destruct (in_dec _ _ _) as [_|N]; [|elim N; auto]. cbn [he_tp he_fp] in Ev.
        pose proof (singleton_itemset U ok ltD D s G Is) as Hs.
        pose proof (visit_blame st1 (pattern_init (s :: alpha)) _ _ (CT _ Hs)) as K. destruct (star_visit c tsel TP FP st1 _) as [[b st2]|e1]; cbn [bind] in Ev; [|congruence]. cbn [snd] in K.
        destruct b; [|discriminate].
        destruct (star_conditional c TP FP st2 t (s :: alpha)) as [[ct st3]|e1] eqn:Ecd; cbn [bind] in Ev; [|assert (e1 = e) by congruence; subst e1; eapply conditional_blame; eauto].
        unfold star_conditional in Ecd. rewrite (limit c Hnum) in Ecd. destruct (worst_k st2) as [w|]; [|discriminate]. cbn [bind] in Ecd.
        destruct (generate_conditional_fp_tree_star _ _ _ _ _ _) as [r|] eqn:Eg; [|discriminate]. cbn [bind] in Ecd. injection Ecd as <- _.
        destruct (conditional_star_spec U U_nominal U_key ok ok_mono ltD t D s alpha _ _ _ _ r G T Is Hok Eg) as (D' & lt' & G' & T' & K' & C1 & _).
        destruct (is_empty (fst r)); [discriminate|]. apply (IH lt' (fst r) D' (s :: alpha) st3 e G' T'); auto.
        * assert (length (s :: keys (paths (build D'))) <= length (keys (paths (build D)))).
          { apply NoDup_incl_length; [constructor; [|apply keys_nodup]|].
            - intros X. destruct (K' s X) as [_ N]. congruence.
            - intros x [<-|X]; auto. apply K'; auto. }
          cbn [length] in *. lia.
        * intros Y HY. destruct (C1 Y HY) as (HI & Hle & _). destruct (HB _ HI) as [B1 B2]. pose proof (Hle true). pose proof (Hle false). lia.
      + assert (e1 = e) by congruence. subst e1. clear H. unfold star_order in Eo. rewrite (limit c Hnum) in Eo. destruct (map_res _ (t_header t)) as [l|e1] eqn:El; cbn [bind] in Eo; [discriminate|].
        assert (e1 = e) by congruence. subst e1. clear Eo. apply map_res_err in El. destruct El as ([s h] & Ih & Eh). cbn [fst snd] in Eh.
        assert (In s (keys (paths (build D))) /\ h = HE (cnt true D [s]) (cnt false D [s]) (hd 0 (ids (paths (build D)) s)) (last (ids (paths (build D)) s) 0)) as [Is ->].
        { pose proof T as (R & _). pose proof R as (_ & _ & _ & _ & Eh'). rewrite Eh' in Ih. unfold header_of in Ih. apply in_map_iff in Ih. destruct Ih as (s' & Es & Is'). injection Es as -> Es. split; auto.
          pose proof (header_tree U ok ltD t D s G T (NK s Is')) as K1. rewrite (header_lookup t (build D) s R (NK s Is')) in K1. destruct (in_dec _ _ _); [|contradiction]. congruence. }
        cbn [he_tp he_fp] in Eh. destruct (sc_oe c _ _ TP FP) as [o|e1] eqn:Eo; cbn [bind] in Eh; [discriminate|]. injection Eh as <-.
        eexists _, _. split; [apply (CT _ (singleton_itemset U ok ltD D s G Is))|]. auto.
  Qed.
End Blame.
Theorem star_fit_blame : forall V (c : star_config V) st0 df tcol tval st e, (0 < sc_num c)%Z -> categorical df -> distinct_keys df tcol -> has_column df tcol ->
  star_new c = Ok st0 -> star_fit c st df tcol tval = Err e -> blame c (TP_of df tcol tval) (FP_of df tcol tval) e.
Proof.
  intros V c st0 df tcol tval st e Hn Hcat Hquo Hcol Hnew H. unfold star_new, sdmap_new in Hnew. destruct (thresholds _ _ _) as [ok|] eqn:Hok; [|discriminate]. clear Hnew.
  destruct (visits df tcol tval _ _ _ ok Hcat Hquo Hcol Hok) as (d & t & E1 & E2 & _ & _).
  destruct (mask_spec df tcol tval Hcat Hcol) as (mask & Hm & _). unfold star_fit in H. rewrite all_str_columns in H by auto. cbn [negb] in H. rewrite Hm in H. cbn [bind] in H.
  rewrite (population_spec df tcol tval Hcat Hcol mask Hm) in H. rewrite E1 in H. cbn [bind] in H. rewrite E2 in H. cbn [bind] in H. destruct (is_empty t); [discriminate|].
  destruct (tree_facts _ _ _ _ _ _ _ _ Hcat Hquo Hcol (conj E1 E2)) as (ok' & o & Hok' & _ & Ho & T & G & IR & CR). rewrite Hok in Hok'. injection Hok' as <-.
  destruct (thresholds_supported _ _ _ _ Hok) as [_ Hmono].
  apply (fpgrowth_blame (Uk df tcol) (Uk_nominal df tcol) (U_key df tcol Hquo) ok Hmono c (Sel tcol EQUAL (VStr tval)) (TP_of df tcol tval) (FP_of df tcol tval) Hn Hok
           (S (length (t_header t))) _ t _ [] _ e G T) in H; auto.
  - destruct (proj1 T) as (_ & _ & _ & _ & ->). unfold header_of. rewrite map_length. lia.
  - intros Y HY. rewrite !CR by auto. apply tp_fp_incl. intros x [].
Qed.
