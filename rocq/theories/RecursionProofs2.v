(** The depth of the recursion of VLSD, of BSD and of IDSD (C84). *)
From Coq Require Import QArith.
From Verif Require Export RecursionProofs VLSDProofs VLSDRel IDSDProofs.
From Verif Require Import OrderFacts Properties_VLSD VerticalSpec VerticalProofs.
Open Scope string_scope.
Open Scope list_scope.
Open Scope nat_scope.

(** * VLSD *)
Section Search.
  Context {Seq V : Type}.
  Variable impl : vl_impl Seq.
  Variable c : vl_config V.
  Variable M : list (selector * list (selector * vlist Seq V)).
  Variable tsel : selector.
  Variables TP FP : Z.
  (** [K] non-target columns; [F alpha P]: the lists of [P] extend [alpha] by one selector. *)
  Variable K : nat.
  Variable F : list selector -> list (vlist Seq V) -> Prop.
  Hypothesis F_short : forall alpha x P, F alpha (x :: P) -> S (length alpha) <= K /\ length (vl_sels x) = S (length alpha).
  Hypothesis F_tail : forall alpha x P, F alpha (x :: P) -> F alpha P.
  Hypothesis F_sort : forall alpha P k, F alpha P -> F alpha (vl_sort c k P).
  Hypothesis F_extend : forall alpha x P lx st W st', F alpha (x :: P) -> last_elem (vl_sels x) = Ok lx ->
    fold_res (extend impl c M tsel TP FP x lx) P ([], st) = Ok (W, st') -> F (vl_sels x) W /\ length W <= length P.
  Definition enough (n : nat) (alpha : list selector) (P : list (vlist Seq V)) : Prop := K <= n + length alpha \/ length P < n.
  Lemma search_enough : forall n m alpha P st, F alpha P -> P <> [] -> enough n alpha P -> enough m alpha P ->
    search impl c M tsel TP FP n P st = search impl c M tsel TP FP m P st.
  Proof.
    induction n as [|n IH]; intros m alpha P st HF NP Hn Hm.
    { destruct P as [|x P]; [contradiction|]. destruct (F_short _ _ _ HF). destruct Hn as [Hn|Hn]; lia. }
    destruct m as [|m].
    { destruct P as [|x P]; [contradiction|]. destruct (F_short _ _ _ HF). destruct Hm as [Hm|Hm]; lia. }
    cbn [search]. clear NP. revert st HF Hn Hm. induction P as [|x P IHP]; intros st HF Hn Hm; [reflexivity|].
    destruct P as [|y P]; [reflexivity|]. destruct (last_elem (vl_sels x)) as [lx|] eqn:El; cbn [bind]; auto.
    destruct (fold_res (extend impl c M tsel TP FP x lx) (y :: P) ([], st)) as [[W st1]|] eqn:Ee; cbn [bind]; auto.
    destruct (F_extend alpha x (y :: P) lx st W st1 HF El Ee) as [HW LW]. destruct (F_short _ _ _ HF) as [_ Lx].
    assert (E : match W with [] => Ok st1 | _ :: _ => search impl c M tsel TP FP n (vl_sort c (vc_sort_other c) W) st1 end =
                match W with [] => Ok st1 | _ :: _ => search impl c M tsel TP FP m (vl_sort c (vc_sort_other c) W) st1 end).
    { destruct W as [|w W]; auto. pose proof (Permutation_length (vl_sort_perm c (vc_sort_other c) (w :: W))) as Lp.
      apply (IH m (vl_sels x)).
      - apply F_sort; auto.
      - intros X. rewrite X in Lp. discriminate.
      - destruct Hn as [Hn|Hn]; [left; lia|right]. rewrite <- Lp. cbn [length] in *. lia.
      - destruct Hm as [Hm|Hm]; [left; lia|right]. rewrite <- Lp. cbn [length] in *. lia. }
    rewrite E. match goal with |- bind ?a _ = bind ?a _ => destruct a as [st2|] end; cbn [bind]; auto.
    refine (IHP st2 _ _ _); [eapply F_tail; eauto| |].
    - destruct Hn as [Hn|Hn]; [left; auto|right; cbn [length] in *; lia].
    - destruct Hm as [Hm|Hm]; [left; auto|right; cbn [length] in *; lia].
  Qed.
End Search.

Section Sets.
  Context {V : Type}.
  Variable c : vl_config V.
  Variable df : dataframe.
  Variables tcol tval : string.
  Hypothesis Hcat : categorical df.
  Hypothesis Hcol : has_column df tcol.
  Let tsel := Sel tcol EQUAL (VStr tval).
  Let TP := TP_of df tcol tval.
  Let FP := FP_of df tcol tval.
  Let K := length (df_cols df) - 1.
  Notation fam := (fam c df tcol tval).
  Notation lastof := (lastof tcol tval).
  Notation lasts := (lasts tcol tval).
  Notation vl := (vlist (list nat) V).
  Lemma covered_length : forall X, covered df tcol X -> length X <= K.
  Proof.
    intros X (_ & ND & HU & C). pose proof (coverage_attrs df tcol X Hcat ND HU C) as N.
    assert (length (map s_attr X) < length (df_cols df)); [|rewrite map_length in *; unfold K; lia].
    apply (attrs_columns df tcol); auto. intros a I. apply in_map_iff in I. destruct I as (s & <- & Is). destruct (HU s Is) as (_ & col & Ic).
    apply (cols_in df tcol) in Ic. split; [apply Ic|]. exists col. apply Ic.
  Qed.
  Definition FS (Q : list selector) (alpha : list selector) (P : list vl) : Prop := fam alpha P /\ incl (lasts P) Q.
  Lemma FS_short : forall Q alpha x P, FS Q alpha (x :: P) -> S (length alpha) <= K /\ length (vl_sels x) = S (length alpha).
  Proof.
    intros Q alpha x P [HF _]. destruct (proj1 HF x (or_introl eq_refl)) as [(_ & Cx & _) E].
    assert (L : length (vl_sels x) = S (length alpha)) by (rewrite E, app_length; cbn [length]; lia).
    split; auto. rewrite <- L. apply covered_length; auto.
  Qed.
  Lemma FS_tail : forall Q alpha x P, FS Q alpha (x :: P) -> FS Q alpha P.
  Proof.
    intros Q alpha x P [[H1 H2] I]. split; [split|].
    - intros v Iv. apply H1. right; auto.
    - cbn [VLSDProofs.lasts map] in H2. inversion H2; auto.
    - intros l Il. apply I. right; auto.
  Qed.
  Lemma FS_sort : forall Q alpha P k, FS Q alpha P -> FS Q alpha (vl_sort c k P).
  Proof.
    intros Q alpha P k [HF I]. split.
    - eapply fam_perm; [apply vl_sort_perm|exact HF].
    - intros l Il. apply I. eapply lasts_perm; [apply (vl_sort_perm c k)|exact Il].
  Qed.
  Lemma FS_extend : forall Q M, matrix_ok c df tcol tval Q M -> forall alpha x P lx st W st', FS Q alpha (x :: P) -> last_elem (vl_sels x) = Ok lx ->
    fold_res (extend with_sets c M tsel TP FP x lx) P ([], st) = Ok (W, st') -> FS Q (vl_sels x) W /\ length W <= length P.
  Proof.
    intros Q M HM alpha x P lx st W st' [HF HQ] El E.
    destruct (proj1 HF x (or_introl eq_refl)) as [Gx Ex]. pose proof (lastof_elem tcol tval x alpha Ex) as El'. rewrite El in El'. injection El' as ->.
    destruct (extend_out c df tcol tval Q M alpha x HM P HF HQ) as [(N & Kn & EN)|(_ & EN)].
    - rewrite EN in E. destruct (fold_res _ N st) as [st1|]; [|discriminate]. cbn [bind app] in E. injection E as <- _.
      destruct Kn as ([H1 ND] & I & _). split; [split; [split; auto|]|].
      + intros l Il. apply HQ. right. apply I; auto.
      + pose proof (NoDup_incl_length ND I) as L. unfold VLSDProofs.lasts in L. rewrite !map_length in L. exact L.
    - destruct (EN [] st) as (e & Er & _). unfold tsel, TP, FP in E. rewrite E in Er. discriminate.
  Qed.
  (** The two representations at once: [R] relates the lists of the sets with those of [impl]. *)
  Definition FB (Q : list selector) (alpha : list selector) (P : list (vlist (list bool) V)) : Prop := exists P', Forall2 vrel P' P /\ FS Q alpha P'.
  Lemma FB_short : forall Q alpha x P, FB Q alpha (x :: P) -> S (length alpha) <= K /\ length (vl_sels x) = S (length alpha).
  Proof.
    intros Q alpha x P (P' & HR & HF). inversion HR as [|x' ? P0 ? Hx HR']; subst. rewrite <- (proj1 (vrel_fields _ _ Hx)). eapply FS_short; eauto.
  Qed.
  Lemma FB_tail : forall Q alpha x P, FB Q alpha (x :: P) -> FB Q alpha P.
  Proof. intros Q alpha x P (P' & HR & HF). inversion HR as [|x' ? P0 ? Hx HR']; subst. exists P0. split; auto. eapply FS_tail; eauto. Qed.
  Lemma FB_sort : forall Q alpha P k, FB Q alpha P -> FB Q alpha (vl_sort c k P).
  Proof. intros Q alpha P k (P' & HR & HF). exists (vl_sort c k P'). split; [apply rel_vl_sort; auto|apply FS_sort; auto]. Qed.
  Lemma FB_extend : forall Q M N, matrix_ok c df tcol tval Q M -> Forall2 (entry_rel (Forall2 (entry_rel (@vrel V)))) M N ->
    forall alpha x P lx st W st', FB Q alpha (x :: P) -> last_elem (vl_sels x) = Ok lx ->
    fold_res (extend with_bitsets c N tsel TP FP x lx) P ([], st) = Ok (W, st') -> FB Q (vl_sels x) W /\ length W <= length P.
  Proof.
    intros Q M N HM HMN alpha x P lx st W st' (P' & HR & HF) El E. inversion HR as [|x' ? P0 ? Hx HR']; subst.
    assert (RR : rel_res (acc_rel (V := V)) (fold_res (extend with_sets c M tsel TP FP x' lx) P0 ([], as_sets st)) (fold_res (extend with_bitsets c N tsel TP FP x lx) P ([], st))).
    { eapply (rel_fold vrel acc_rel); [intros; apply rel_extend; auto|exact HR'|]. split; [constructor|apply as_sets_same]. }
    rewrite E in RR. destruct (fold_res (extend with_sets c M tsel TP FP x' lx) P0 ([], as_sets st)) as [[W' st2]|] eqn:E'; [|destruct RR].
    destruct RR as [RW _]. cbn [fst] in RW. rewrite <- (proj1 (vrel_fields _ _ Hx)) in *.
    destruct (FS_extend Q M HM alpha x' P0 lx _ W' st2 HF El E') as [HW L]. split; [exists W'; auto|].
    rewrite <- (F2_length _ _ _ RW), <- (F2_length _ _ _ HR'). exact L.
  Qed.

  Lemma row_fam : forall s1 M x, fam [] s1 -> VLSDProofs.rows c df tcol tval s1 M -> In x s1 ->
    forall s row, last_elem (vl_sels x) = Ok s -> sel_assoc s M = Some row -> FS (lasts s1) (vl_sels x) (map snd row) /\ map snd row <> [] /\ length (vl_sels x) = 1.
  Proof.
    intros s1 M x HF HR Ix s row El Ea. destruct (proj1 HF x Ix) as [Gx Ex]. rewrite (lastof_elem tcol tval x [] Ex) in El. injection El as <-.
    destruct (in_split _ _ Ix) as (pre & post & Es). destruct (rows_at c df tcol tval s1 M HF HR pre x post Es) as (N & Kn & EA).
    rewrite EA in Ea. destruct N as [|n N]; [discriminate|]. assert (Er : row = row_of tcol tval (n :: N)) by congruence. subst row. clear Ea.
    assert (ES : map snd (row_of tcol tval (n :: N)) = n :: N) by (unfold row_of; rewrite map_map; apply map_id). rewrite ES.
    split; [split; [apply Kn|]|split; [discriminate|rewrite Ex; reflexivity]].
    intros l Il. destruct Kn as (_ & I & _). specialize (I l Il). rewrite Es. unfold VLSDProofs.lasts in *. rewrite map_app. apply in_or_app. right; right; auto.
  Qed.
  Lemma in_removelast : forall A (l : list A) x, In x (removelast l) -> In x l.
  Proof. induction l as [|y l IH]; intros x I; [destruct I|]. cbn [removelast] in I. destruct l; [destruct I|]. destruct I as [<-|I]; [left; auto|right; auto]. Qed.

  Lemma sets_enough : forall limit st, length (df_cols df) - 2 <= limit -> vlsd_fit_within limit with_sets c st df tcol tval = vlsd_fit with_sets c st df tcol tval.
  Proof.
    intros limit st HL. unfold vlsd_fit_within, vlsd_fit. destruct (negb (all_nominal df)); auto. cbv zeta.
    destruct (mask_spec df tcol tval Hcat Hcol) as (mask & Hm & _). rewrite Hm. cbn [bind]. rewrite (population_spec df tcol tval Hcat Hcol mask Hm).
    destruct (s1_out c df tcol tval Hcat Hcol mask Hm) as [(s1 & HF & HC & E)|(e & R & E)]; rewrite E; cbn [bind]; auto.
    destruct (fold_res _ s1 _) as [st1|]; cbn [bind]; auto.
    destruct (matrix_out c df tcol tval s1 [] HF) as [(M & HM & EM)|(e & R & EM)]; [intros p []| |]; rewrite EM; cbn [bind app]; auto.
    apply fold_ext_in. intros st2 x Ix. apply in_removelast in Ix. unfold search_from.
    destruct (last_elem (vl_sels x)) as [s|] eqn:El; cbn [bind]; auto. destruct (sel_assoc s M) as [row|] eqn:Ea; auto. cbv zeta.
    destruct (row_fam s1 M x HF HM Ix s row El Ea) as (F1 & F2 & F3).
    destruct (fold_res _ (vl_sort c (vc_sort_other c) (map snd row)) st2) as [st3|]; cbn [bind]; auto.
    pose proof (rows_matrix_ok c df tcol tval s1 M HF HM) as MO.
    apply (search_enough with_sets c M tsel TP FP K (FS (lasts s1)) (FS_short (lasts s1)) (FS_tail (lasts s1)) (FS_sort (lasts s1)) (FS_extend (lasts s1) M MO) limit _ (vl_sels x)).
    - apply FS_sort; auto.
    - intros X. pose proof (Permutation_length (vl_sort_perm c (vc_sort_other c) (map snd row))) as L. rewrite X in L. destruct (map snd row); [contradiction|discriminate].
    - left. unfold K. lia.
    - right. lia.
  Qed.
  Lemma bits_enough : forall limit st, length (df_cols df) - 2 <= limit -> vlsd_fit_within limit with_bitsets c st df tcol tval = vlsd_fit with_bitsets c st df tcol tval.
  Proof.
    intros limit st HL. unfold vlsd_fit_within, vlsd_fit. destruct (negb (all_nominal df)); auto. cbv zeta.
    destruct (mask_spec df tcol tval Hcat Hcol) as (mask & Hm & Lm & _). rewrite Hm. cbn [bind]. rewrite (population_spec df tcol tval Hcat Hcol mask Hm).
    pose proof (population_spec df tcol tval Hcat Hcol mask Hm) as PS.
    assert (HLm : length mask <= Z.to_nat (TP + FP)).
    { unfold TP, FP. unfold population in PS. injection PS as P1 P2. rewrite <- P2, <- P1. lia. }
    pose proof (rel_s1 c df mask tcol TP FP HLm) as R1. fold TP FP.
    destruct (generate_s1 with_bitsets c df mask tcol TP FP) as [s1'|] eqn:E'; cbn [bind]; auto.
    destruct (s1_out c df tcol tval Hcat Hcol mask Hm) as [(s1 & HF & HC & E)|(e & R & E)]; fold TP FP in E; rewrite E in R1; [|destruct R1].
    cbn [rel_res] in R1. destruct (fold_res _ s1' _) as [st1|]; cbn [bind]; auto.
    pose proof (rel_build_matrix c TP FP s1 s1' R1 [] [] (Forall2_nil _)) as R2.
    destruct (build_matrix with_bitsets c TP FP s1' []) as [N|] eqn:EN; cbn [bind]; auto.
    destruct (matrix_out c df tcol tval s1 [] HF) as [(M & HM & EM)|(e & R & EM)]; [intros p []| |]; fold TP FP in EM; rewrite EM in R2; [|destruct R2].
    cbn [rel_res app] in R2.
    apply fold_ext_in. intros st2 x' Ix'. apply in_removelast in Ix'. unfold search_from.
    destruct (F2_in_r _ _ _ x' R1 Ix') as (x & Ix & Hx). pose proof (proj1 (vrel_fields _ _ Hx)) as Es.
    destruct (last_elem (vl_sels x')) as [s|] eqn:El; cbn [bind]; auto. destruct (sel_assoc s N) as [row'|] eqn:Ea'; auto. cbv zeta.
    pose proof (rel_assoc _ s M N R2) as Q. rewrite Ea' in Q. destruct (sel_assoc s M) as [row|] eqn:Ea; [|destruct Q]. cbn [opt_rel] in Q.
    rewrite <- Es in El. destruct (row_fam s1 M x HF HM Ix s row El Ea) as (F1 & F2 & F3). rewrite Es in F1, F3.
    destruct (fold_res _ (vl_sort c (vc_sort_other c) (map snd row')) st2) as [st3|]; cbn [bind]; auto.
    pose proof (rows_matrix_ok c df tcol tval s1 M HF HM) as MO. pose proof (rel_snd _ _ _ Q) as Q2.
    apply (search_enough with_bitsets c N tsel TP FP K (FB (lasts s1)) (FB_short (lasts s1)) (FB_tail (lasts s1)) (FB_sort (lasts s1)) (FB_extend (lasts s1) M N MO R2) limit _ (vl_sels x')).
    - apply FB_sort. exists (map snd row). auto.
    - intros X. pose proof (Permutation_length (vl_sort_perm c (vc_sort_other c) (map snd row'))) as L. rewrite X in L. cbn [length] in L.
      rewrite <- (F2_length _ _ _ Q2) in L. destruct (map snd row); [contradiction|discriminate].
    - left. unfold K. lia.
    - right. lia.
  Qed.
End Sets.

(** * BSD *)
Section BSDDepth.
  Context {V : Type}.
  Variable c : bsd_config V.
  Variables dpos dneg : bitsets.
  Definition enough_bsd (n : nat) (depth : Z) (R : list selector) : Prop := (bc_max_depth c - depth < Z.of_nat n)%Z /\ 0 < n \/ length R < n.
  Lemma remove_first_length : forall s l l', remove_first s l = Ok l' -> length l = S (length l').
  Proof.
    induction l as [|x l IH]; intros l' E; cbn [remove_first] in E; [discriminate|]. destruct (sel_eq x s).
    - injection E as <-. reflexivity.
    - destruct (remove_first s l) as [r|]; [|discriminate]. cbn [bind] in E. injection E as <-. cbn [length]. rewrite (IH r); auto.
  Qed.
  Lemma handle_length : forall st C s oe q pos neg newSelRel tp fp r, bsd_handle c st C s oe q pos neg newSelRel tp fp = Ok r ->
    length (fst r) <= S (length newSelRel).
  Proof.
    intros st C s oe q pos neg nsr tp fp r E. unfold bsd_handle in E.
    repeat first [ discriminate | match type of E with Ok _ = Ok _ => injection E as <-; cbn [fst]; rewrite ?app_length; cbn [length]; lia
      | bind ?x _ = Ok _ => destruct x; cbn [bind] in E | (if ?b then _ else _) = Ok _ => destruct b
      | match ?x with _ => _ end = Ok _ => destruct x | (let '(_, _) := ?x in _) = Ok _ => destruct x end ].
  Qed.
  Lemma evaluate_length : forall C cpos cneg l acc r, fold_res (bsd_evaluate c dpos dneg C cpos cneg) l acc = Ok r ->
    length (fst r) <= length l + length (fst acc).
  Proof.
    intros C cpos cneg. induction l as [|s l IH]; intros [nsr st] r E; cbn [fold_res] in E.
    - injection E as <-. reflexivity.
    - destruct (bsd_evaluate c dpos dneg C cpos cneg (nsr, st) s) as [acc1|] eqn:E1; [|discriminate]. cbn [length fst]. apply IH in E.
      assert (length (fst acc1) <= S (length nsr)); [|lia]. clear E. unfold bsd_evaluate in E1.
      destruct (bitset_get dpos s) as [bp|]; cbn [bind] in E1; [|discriminate].
      destruct (match C with [] => Ok bp | _ => _ end) as [pos|]; cbn [bind] in E1; [|discriminate].
      destruct (bitset_get dneg s) as [bn|]; cbn [bind] in E1; [|discriminate].
      destruct (match C with [] => Ok bn | _ => _ end) as [neg|]; cbn [bind] in E1; [|discriminate].
      cbv zeta in E1. destruct (_ =? 0)%Z in E1.
      + injection E1 as <-. cbn [fst]. lia.
      + destruct (bc_oe c _ _ _ _) as [oe|]; cbn [bind] in E1; [|discriminate]. destruct (bc_measure c _ _ _ _) as [q|]; cbn [bind] in E1; [|discriminate].
        eapply handle_length; eauto.
  Qed.
  Lemma bsd_enough : forall n m C R cpos cneg depth st, enough_bsd n depth R -> enough_bsd m depth R ->
    bsd_search c dpos dneg n C R cpos cneg depth st = bsd_search c dpos dneg m C R cpos cneg depth st.
  Proof.
    induction n as [|n IH]; intros m C R cpos cneg depth st Hn Hm; [destruct Hn; lia|]. destruct m as [|m]; [destruct Hm; lia|]. cbn [bsd_search].
    destruct (fold_res (bsd_evaluate c dpos dneg C cpos cneg) R ([], st)) as [r|] eqn:Er; cbn [bind]; auto. cbv zeta.
    destruct (depth <? bc_max_depth c)%Z eqn:Ed; auto. apply Z.ltb_lt in Ed.
    apply evaluate_length in Er. cbn [fst length] in Er. rewrite Nat.add_0_r in Er.
    set (L := sort_by (fun x y => BSDModel.pair_lt c y x) (fst r)).
    assert (La : length (map snd L) <= length R).
    { rewrite map_length. unfold L. rewrite <- (Permutation_length (OrderFacts.sort_by_perm _ (fst r))). exact Er. }
    revert La. generalize (map snd L) as aux. generalize (snd r) as st1. clear Er. clearbody L. clear r.
    induction L as [|x L IHL]; intros st1 aux La; auto.
    destruct (first_entry (bs_k st1)) as [w|]; cbn [bind]; auto. destruct (bc_lt c (e_quality w) (fst x)); [|apply IHL; auto].
    destruct (remove_first (snd x) aux) as [aux'|] eqn:Ea; cbn [bind]; auto. apply remove_first_length in Ea.
    destruct (bitset_get dpos (snd x)); cbn [bind]; auto. destruct (logical_and cpos _); cbn [bind]; auto.
    destruct (bitset_get dneg (snd x)); cbn [bind]; auto. destruct (logical_and cneg _) as [neg|]; cbn [bind]; auto.
    rewrite (IH m).
    - destruct (bsd_search _ _ _ _ _ _ _ _ _ _) as [st2|]; cbn [bind]; auto. apply IHL. lia.
    - destruct Hn as [[Hn _]|Hn]; [left|right; lia]. split; lia.
    - destruct Hm as [[Hm _]|Hm]; [left|right; lia]. split; lia.
  Qed.
End BSDDepth.
Theorem bsd_fit_enough : forall V (c : bsd_config V) limit st df tcol tval, (bc_max_depth c < Z.of_nat limit)%Z -> 0 < limit ->
  bsd_fit_within limit c st df tcol tval = bsd_fit c st df tcol tval.
Proof.
  intros V c limit st df tcol tval H0 H1. unfold bsd_fit_within, bsd_fit. destruct (negb (all_nominal df)); auto.
  destruct (target_mask df tcol (VStr tval)) as [mask|]; cbn [bind]; auto. destruct (population df mask) as [TP FP]. cbv zeta.
  rewrite (bsd_enough c _ _ limit (S (length (bsd_frequent df mask tcol (bc_min_support c))))); auto.
  - left. split; auto. lia.
  - right. lia.
Qed.

(** * IDSD *)
(** Adding a selector that the pattern does not have. *)
Lemma visit_length : forall c v complexity p app st r, visit_node c v complexity p app st = Ok r -> snd r = true -> length p <> complexity.
Proof.
  intros c v complexity p app st r E H. unfold visit_node in E. destruct (coverage_value _ _) as [cov|]; cbn [bind] in E; [|discriminate].
  destruct (Qeq_bool cov 0); [injection E as <-; discriminate|].
  match type of E with (if ?b then _ else _) = _ => destruct b end; [injection E as <-; discriminate|].
  destruct (length p =? complexity) eqn:L; [|apply Nat.eqb_neq; auto]. destruct (idsd_entry c v p app); [|discriminate]. injection E as <-. discriminate.
Qed.
Lemma grow_equal : forall c v complexity n sels X app st, NoDup (X ++ sels) -> Forall nominal (X ++ sels) -> length X <= complexity -> complexity - length X < n ->
  grow_within n c v complexity sels (pattern_init X) app st = grow_tree c v complexity sels (pattern_init X) app st.
Proof.
  induction n as [|n IH]; intros sels X app st ND HN HX Hn; [lia|]. cbn [grow_within]. unfold grow_tree.
  destruct (visit_node c v complexity (pattern_init X) app st) as [r|] eqn:Ev; cbn [bind]; auto. destruct (snd r) eqn:Er; auto.
  assert (NX : NoDup X /\ Forall nominal X).
  { clear -ND HN. apply Forall_app in HN. split; [|tauto]. clear HN. induction X as [|x X IHX]; [constructor|]. cbn in ND. inversion ND; subst. constructor; auto. intros H; apply H1; apply in_or_app; auto. }
  destruct NX as [NX NNX]. destruct (pattern_nominal X NX NNX) as [PX _].
  pose proof (visit_length _ _ _ _ _ _ _ Ev Er) as HL. rewrite <- (Permutation_length PX) in HL. clear Ev Er.
  generalize (fst r) as st1. clear r. induction sels as [|s rest IHs]; intros st1; auto. cbn [grow_children].
  destruct (NoDup_app_mid X s rest ND) as (N1 & N2 & N3 & N4).
  destruct (appearance (en_app v) s) as [a|]; cbn [bind]; auto.
  assert (EA : add_selector (pattern_copy (pattern_init X)) s = pattern_init (X ++ [s])).
  { unfold pattern_copy. apply add_nominal; auto. rewrite Forall_forall in *. intros x Hx. apply HN. apply in_app_or in Hx. apply in_or_app. destruct Hx as [Hx|[Hx|[]]]; [left; auto|right; left; auto]. }
  rewrite EA. rewrite IH; auto.
  - unfold grow_tree. destruct (visit_node _ _ _ _ _ _) as [r2|]; cbn [bind]; auto.
    match goal with |- bind ?a _ = bind ?a _ => destruct a as [st2|] end; cbn [bind]; auto. apply IHs; auto.
    apply Forall_app in HN. apply Forall_app. destruct HN as [HN1 HN2]. inversion HN2; auto.
  - rewrite <- app_assoc. exact HN.
  - rewrite app_length. cbn [length]. lia.
  - rewrite app_length. cbn [length]. lia.
Qed.
